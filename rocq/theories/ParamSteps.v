(** Every operation on an animatable list parameter, against the list of slots. *)
From Coq Require Import List ZArith Bool Arith Lia.
From Verif Require Import ParamModel ParamSpec ParamProofs.
Import ListNotations.

Lemma param_eta : forall p, with_values p (values p) (animateds p) = p.
Proof. intros []. reflexivity. Qed.

Definition goal (p : param) (o : option param) (s' : slots) (c : Prop) : Prop :=
  exists p', o = Some p' /\ Inv p' s' /\ (all_right p -> c -> all_right p').

Lemma goal_intro : forall p q s (c : Prop), Inv q s -> (all_right p -> c -> uniform q) -> goal p (Some (OnPotentialSizeChange q)) s c.
Proof.
  intros p q s c H Hu. eexists. split; [reflexivity|]. split; [now apply opsc_Inv|]. intros H1 H2.
  apply (opsc_right q s); auto. apply H.
Qed.

Lemma uniform_after : forall p q l1 lm l2 d vs, all_right p -> Forall (fun a => fst (ptr a) < fresh p) (animateds p) ->
  same_but_buffer p q -> animateds p = l1 ++ lm ++ l2 -> (l1 = [] \/ l2 = []) ->
  Forall (fun a => (0 <= element a)%Z /\ (0 <= element a + d)%Z) l2 ->
  uniform (with_values q vs (l1 ++ map (shift d) l2)).
Proof.
  intros p q l1 lm l2 d vs H HB (E1 & _ & E3) E Hq He. destruct E3 as [(Eb & _)|(Eb & _)].
  - apply (uniform_with q l1 lm l2 d vs); auto.
    + unfold all_right, right in *. rewrite E1, Eb. auto.
    + congruence.
  - right. cbn [with_values animateds]. rewrite E in HB. rewrite !Forall_app in HB. destruct HB as (B1 & _ & B3).
    rewrite Forall_app. rewrite Forall_map.
    assert (K : forall l (f : animated -> animated), (forall a, ptr (f a) = ptr a) -> Forall (fun a => fst (ptr a) < fresh p) l ->
      Forall (fun a => ~ right (with_values q vs (l1 ++ map (shift d) l2)) (f a)) l).
    { intros l f Hf F. eapply Forall_impl; [|exact F]. intros a Ha Hr. cbv beta in Ha. unfold right in Hr. rewrite Hf in Hr. rewrite Hr in Ha.
      cbn in Ha. lia. }
    split; [apply (K l1 (fun a => a)); auto|apply (K l2 (shift d)); auto].
Qed.

Lemma quiet_nil : forall l s n, map proj l = helpers n s -> quiet s -> l = [].
Proof. intros l s n H Hq. rewrite helpers_quiet in H by auto. destruct l; [auto|discriminate]. Qed.
Lemma calm_nil : forall l1 l2 a b n m, map proj l1 = helpers n a -> map proj l2 = helpers m b -> quiet a \/ quiet b -> l1 = [] \/ l2 = [].
Proof. intros l1 l2 a b n m H1 H2 [H|H]; [left|right]; eapply quiet_nil; eauto. Qed.

Lemma elements_nonneg : forall l s n d, map proj l = helpers n s -> (0 <= Z.of_nat n + d)%Z ->
  Forall (fun a => (0 <= element a)%Z /\ (0 <= element a + d)%Z) l.
Proof.
  intros l s n d H Hd. pose proof (proj_from _ _ _ (Z.of_nat n) H ltac:(lia)) as F. eapply Forall_impl; [|exact F].
  cbv beta. intros. lia.
Qed.

(** *** Insertions *)
Definition makes_room (room : param -> param) (p : param) (n : nat) : Prop :=
  same_but_buffer p (room p) /\ values (room p) = values p /\ length (values p) + n <= reserved (room p).

Lemma reserve_reserved : forall n p, reserved (reserve n p) = n.
Proof. intros n p. unfold reserve. destruct (Nat.eqb_spec (reserved p) n); auto. Qed.
Lemma same_refl : forall p, same_but_buffer p p.
Proof. intro p. repeat split; auto. Qed.

Lemma room_one_ok : forall p, roomy p -> makes_room room_one p 1.
Proof.
  intros p H. unfold roomy in H. unfold makes_room, room_one. destruct (Nat.eqb_spec (length (values p)) (reserved p)) as [E|E].
  - set (n := length (values p) + (if 31 <? length (values p) then 32 else length (values p) + 1)).
    assert (length (values p) + 1 <= n) by (unfold n; destruct (31 <? length (values p)); lia).
    destruct (reserve_spec n p) as (H1 & H2 & _). split; [auto|]. split; [apply H2; lia|]. rewrite reserve_reserved. auto.
  - split; [apply same_refl|]. split; auto. lia.
Qed.
Lemma room_list_ok : forall n p, roomy p -> makes_room (room_list n) p n.
Proof.
  intros n p H. unfold roomy in H. unfold makes_room, room_list. destruct (Nat.ltb_spec (reserved p) (length (values p) + n)) as [E|E].
  - set (m := if 32 <? length (values p) + n - reserved p then length (values p) + n else reserved p + 32).
    assert (length (values p) + n <= m) by (unfold m; destruct (Nat.ltb_spec 32 (length (values p) + n - reserved p)); lia).
    destruct (reserve_spec m p) as (H1 & H2 & _). split; [auto|]. split; [apply H2; lia|]. rewrite reserve_reserved. auto.
  - split; [apply same_refl|]. split; auto.
Qed.
Lemma room_count_ok : forall n p, roomy p -> makes_room (room_count n) p n.
Proof.
  intros n p H. unfold roomy in H. unfold makes_room, room_count. destruct (Nat.ltb_spec (reserved p) (length (values p) + n)) as [E|E].
  - destruct (reserve_spec (length (values p) + n) p) as (H1 & H2 & _). split; [auto|]. split; [apply H2; lia|]. rewrite reserve_reserved. auto.
  - split; [apply same_refl|]. split; auto.
Qed.

(** The parameter after an insertion, before the pointers are set. *)
Lemma inserted : forall room p a b k (X : list slot), Inv p (a ++ b, k) -> makes_room room p (length X) -> quiet X ->
  (Z.of_nat (length (a ++ X ++ b)) < 2147483648)%Z ->
  exists q l1 l2, same_but_buffer p q /\ animateds p = l1 ++ l2 /\ map proj l1 = helpers 0 a /\ map proj l2 = helpers (length a) b /\
    OnInsertion (Z.of_nat (length a)) (Z.of_nat (length X)) (animateds p) = l1 ++ map (shift (Z.of_nat (length X))) l2 /\
    with_room room (length a) (map fst X) p = with_values q (map fst (a ++ X ++ b)) (animateds p) /\
    Inv (with_values q (map fst (a ++ X ++ b)) (l1 ++ map (shift (Z.of_nat (length X))) l2)) (a ++ X ++ b, k) /\
    (all_right p -> quiet a \/ quiet b -> uniform (with_values q (map fst (a ++ X ++ b)) (l1 ++ map (shift (Z.of_nat (length X))) l2))).
Proof.
  intros room p a b k X [HR Hroom] (M1 & M2 & M3) HX Hs. pose proof HR as [H1 H2 _ _ _ H6 _ H8]. cbn [fst] in *.
  destruct (OnInsertion_spec (animateds p) a b (Z.of_nat (length X)) H2) as (l1 & l2 & E & E1 & E2 & E3).
  { rewrite app_length in H8. lia. }
  { rewrite !app_length in Hs. lia. }
  assert (Hq : exists q, same_but_buffer p q /\ with_room room (length a) (map fst X) p = with_values q (map fst (a ++ X ++ b)) (animateds p) /\
    values q = values p /\ length (values p) + length X <= reserved q).
  { unfold with_room. rewrite (proj2 (Nat.leb_le _ _)) by (rewrite H1, map_length, app_length; lia). rewrite map_length.
    destruct (Nat.eqb_spec (length X) 0) as [E0|E0]; cbn [andb negb].
    - destruct X; [|discriminate]. exists p. split; [apply same_refl|]. split; [|split; [auto|unfold roomy in Hroom; cbn; lia]].
      cbn [app]. rewrite <- H1. symmetry. apply param_eta.
    - exists (room p). split; [auto|]. split; [|auto]. unfold vector_insert. rewrite M2, H1, map_length, app_length.
      rewrite (proj2 (Nat.leb_le _ _)) by lia. f_equal; [|apply M1]. rewrite map_app.
      rewrite <- (map_length fst a) at 1 2. rewrite firstn_len_app, skipn_len_app, !map_app. reflexivity. }
  destruct Hq as (q & Q1 & Q2 & Q3 & Q4). exists q, l1, l2. split; [auto|]. split; [auto|]. split; [auto|]. split; [auto|].
  split; [auto|]. split; [auto|]. split.
  - constructor.
    + apply (R_with q a [] b k X l1 [] l2 (Z.of_nat (length X))); auto.
      * cbn [app]. eapply R_move; eauto.
      * destruct Q1 as (-> & _). exact E.
      * cbn [length]. now rewrite Nat.add_0_r.
      * cbn [length]. lia.
    + unfold roomy. cbn [with_values values reserved]. rewrite H1, map_length, app_length in Q4. rewrite map_length, !app_length. lia.
  - intros Hr Hc. apply (uniform_after p q l1 [] l2); auto.
    + eapply calm_nil; eauto.
    + eapply elements_nonneg; eauto. lia.
Qed.

Lemma insert_spec : forall room p a b k (X : list slot), Inv p (a ++ b, k) -> makes_room room p (length X) -> quiet X ->
  (Z.of_nat (length (a ++ X ++ b)) < 2147483648)%Z ->
  goal p (insert_with room (length a) (map fst X) p) (a ++ X ++ b, k) (quiet a \/ quiet b).
Proof.
  intros room p a b k X HI HM HX Hs. destruct (inserted room p a b k X HI HM HX Hs) as (q & l1 & l2 & Q1 & E & E1 & E2 & E3 & Q2 & QI & QU).
  unfold insert_with. rewrite Q2. cbn [with_values values animateds]. rewrite map_length, E3. apply goal_intro; auto.
Qed.

(** The helpers do not change when values are added at the end. *)
Lemma OnInsertion_end : forall l s n, map proj l = helpers 0 s -> (Z.of_nat (length s) < 2147483648)%Z -> (0 <= n < 2147483648)%Z ->
  OnInsertion (Z.of_nat (length s)) n l = l.
Proof.
  intros l s n H Hs Hn. rewrite <- (app_nil_r s) in H. destruct (OnInsertion_spec l s [] n H Hs Hn) as (l1 & l2 & -> & H1 & H2 & E).
  rewrite E. cbn in H2. destruct l2; [|discriminate]. reflexivity.
Qed.

Lemma push_back_spec : forall p s k v, Inv p (s, k) -> (Z.of_nat (length (s ++ [(v, None)])) < 2147483648)%Z ->
  goal p (push_back v p) (s ++ [(v, None)], k) True.
Proof.
  intros p s k v HI Hs. pose proof HI as [[H1 H2 _ _ _ _ _ H8] Hroom]. cbn [fst] in *.
  unfold push_back. rewrite H1, map_length. rewrite (OnInsertion_end _ _ 1 H2) by (auto; lia).
  rewrite <- H1, param_eta.
  pose proof HI as HI'. rewrite <- (app_nil_r s) in HI'.
  destruct (inserted room_one p s [] k [(v, None)] HI') as (q & l1 & l2 & Q1 & E & E1 & E2 & E3 & Q2 & QI & QU).
  { apply room_one_ok. auto. }
  { repeat constructor. }
  { exact Hs. }
  cbn in E2. destruct l2; [|discriminate]. cbn [map] in *. rewrite !app_nil_r in *. cbn [map fst] in Q2. rewrite H1, map_length.
  rewrite ?app_nil_r in QI, QU. rewrite Q2, E. apply goal_intro; auto. intros Hr _. apply QU; auto. right. constructor.
Qed.

(** *** Removals *)
Lemma vector_erase_spec : forall p a m b k, R p (a ++ m ++ b, k) ->
  vector_erase (length a) (length a + length m) p = with_values p (map fst (a ++ b)) (animateds p).
Proof.
  intros p a m b k HR. pose proof (R_values _ _ HR) as H1. cbn [fst] in H1. unfold vector_erase. rewrite H1, map_length, !app_length.
  destruct m as [|x m].
  - cbn [length] in *. rewrite Nat.add_0_r.
    assert (E : with_values p (map fst (a ++ b)) (animateds p) = p) by (cbn [app] in H1; rewrite <- H1; apply param_eta).
    destruct (_ && _); [|symmetry; exact E]. cbn [app]. f_equal. rewrite map_app. rewrite <- (map_length fst a).
    now rewrite firstn_len_app, skipn_len_app.
  - cbn [length]. rewrite (proj2 (Nat.ltb_lt _ _)), (proj2 (Nat.ltb_lt _ _)), (proj2 (Nat.leb_le _ _)) by lia. cbn [andb]. f_equal.
    rewrite !map_app. rewrite <- (map_length fst a) at 1. rewrite firstn_len_app. f_equal.
    replace (length a + S (length m)) with (length (map fst a ++ map fst (x :: m))) by (rewrite app_length, !map_length; reflexivity).
    rewrite app_assoc. now rewrite skipn_len_app.
Qed.

Lemma removed : forall p a m b k, Inv p (a ++ m ++ b, k) -> exists l,
  OnRemoval (Z.of_nat (length a)) (Z.of_nat (length m)) (animateds p) = Some l /\
  Inv (with_values p (map fst (a ++ b)) l) (a ++ b, k) /\
  (all_right p -> quiet a \/ quiet b -> uniform (with_values p (map fst (a ++ b)) l)).
Proof.
  intros p a m b k [HR Hroom]. pose proof HR as [H1 H2 _ _ _ H6 _ H8]. cbn [fst] in *. rewrite !app_length in H8.
  destruct (OnRemoval_spec (animateds p) a m b _ _ H2 ltac:(lia) eq_refl eq_refl) as (l1 & lm & l2 & E & E1 & Em & E2 & E3).
  rewrite E3. eexists. split; [reflexivity|]. split.
  - constructor.
    + apply (R_with p a m b k [] l1 lm l2); auto; [constructor|]. cbn [app]. rewrite app_length. lia.
    + unfold roomy in *. cbn [with_values values reserved]. rewrite H1, map_length, !app_length in Hroom. rewrite map_length, app_length. lia.
  - intros Hr Hc. apply (uniform_after p p l1 lm l2); auto; [apply same_refl| |].
    + eapply calm_nil; eauto.
    + eapply elements_nonneg; eauto. lia.
Qed.

Lemma erase_range_spec : forall p a m b k, Inv p (a ++ m ++ b, k) ->
  goal p (erase_range (length a) (length a + length m) p) (a ++ b, k) (quiet a \/ quiet b).
Proof.
  intros p a m b k HI. pose proof HI as [HR Hroom]. pose proof (R_size _ _ HR) as Hs. cbn [fst] in Hs. rewrite !app_length in Hs.
  destruct (removed p a m b k HI) as (l & E & I1 & U1).
  unfold erase_range. rewrite (vector_erase_spec p a m b k HR). cbn [with_values animateds values].
  rewrite size_t_id by lia. replace (Z.of_nat (length a + length m) - Z.of_nat (length a))%Z with (Z.of_nat (length m)) by lia.
  rewrite E. apply goal_intro; auto.
Qed.

Lemma empty_Inv : forall q k, values q = [] -> animateds q = [] -> next q = k -> block q < fresh q -> Inv q ([], k).
Proof.
  intros q k H1 H2 H3 H4. constructor.
  - constructor; cbn [fst snd]; rewrite ?H1, ?H2; auto; try constructor.
  - unfold roomy. rewrite H1. cbn. lia.
Qed.

Lemma clear_spec : forall p s k, Inv p (s, k) -> goal p (clear p) ([], k) True.
Proof.
  intros p s k HI. pose proof HI as [HR Hroom]. pose proof HR as [H1 H2 H3 _ _ _ H7 _]. cbn [fst snd] in *.
  assert (E0 : s = [] ++ s ++ []) by (cbn; now rewrite app_nil_r).
  pose proof HI as HI'. rewrite E0 in HI'. destruct (removed p [] s [] k HI') as (l & E & I1 & _). cbn [length] in E.
  unfold clear. rewrite H1, map_length. change 0%Z with (Z.of_nat 0). rewrite E.
  assert (Hl : l = []).
  { destruct I1 as [[_ X _ _ _ _ _ _] _]. cbn in X. destruct l; [auto|discriminate]. }
  subst l. set (q := reserve 0 (with_values p (map fst s) [])).
  assert (Hq : values q = [] /\ animateds q = [] /\ next q = k /\ block q < fresh q).
  { unfold q, reserve. cbn [with_values reserved]. destruct (Nat.eqb_spec (reserved p) 0) as [Er|Er]; cbn; repeat split; auto.
    unfold roomy in Hroom. rewrite H1, map_length in Hroom. destruct s; [auto|cbn in Hroom; lia]. }
  destruct Hq as (Q1 & Q2 & Q3 & Q4). apply goal_intro; [now apply empty_Inv|]. intros _ _. left. unfold all_right. rewrite Q2. constructor.
Qed.

Lemma pop_back_spec : forall p s k, Inv p (s, k) -> goal p (pop_back p) (removelast s, k) True.
Proof.
  intros p s k HI. pose proof HI as [HR Hroom]. pose proof HR as [H1 H2 _ _ _ _ _ H8]. cbn [fst] in *.
  destruct s as [|x0 s0] using rev_ind.
  - cbn in H1, H2. unfold pop_back. rewrite H1. destruct (animateds p) as [|a l] eqn:El; [|discriminate]. cbn.
    assert (Ep : with_values p [] [] = p) by (rewrite <- H1, <- El; apply param_eta).
    rewrite Ep. exists p. split; [reflexivity|]. split; auto.
  - clear IHs0. rewrite removelast_last. pose proof HI as HI'. rewrite <- (app_nil_r [x0]) in HI'.
    destruct (removed p s0 [x0] [] k HI') as (l & E & I1 & U1). rewrite app_nil_r in *.
    rewrite app_length in H8. cbn [length] in H8.
    unfold pop_back. rewrite H1, map_length, app_length. cbn [length].
    replace (Z.of_nat (length s0 + 1) - 1)%Z with (Z.of_nat (length s0)) by lia. rewrite size_t_id by lia. cbn [length] in E. change (Z.of_nat 1) with 1%Z in E. rewrite E.
    rewrite map_app. cbn [map]. rewrite removelast_last. apply goal_intro; auto. intros Hr _. apply U1; auto. right. constructor.
Qed.

(** *** Resizing *)
Lemma resized : forall p s k n v l, Inv p (s, k) -> map proj l = helpers 0 (firstn n s) ->
  (forall a, In a l -> In a (animateds p)) -> NoDup (map aid l) -> (Z.of_nat n < 2147483648)%Z ->
  goal p (Some (OnPotentialSizeChange (vector_resize n v (with_values p (values p) l)))) (firstn n s ++ repeat (v, None) (n - length s), k) True.
Proof.
  intros p s k n v l [HR Hroom] Hl Hin Hnd Hn. pose proof HR as [H1 H2 H3 H4 H5 H6 H7 H8]. cbn [fst snd] in *.
  rewrite Forall_forall in H4, H6.
  set (q := reserve n (with_values p (values p) l)).
  destruct (reserve_spec n (with_values p (values p) l)) as (Q1 & _ & Q3). fold q in Q1, Q3. cbn [with_values values reserved] in Q3.
  specialize (Q3 Hroom). rewrite H1, firstn_map in Q3.
  assert (Hlen : length (values q) = min n (length s)) by (rewrite Q3, map_length, firstn_length; lia).
  assert (Hval : values q ++ repeat v (n - length (values q)) = map fst (firstn n s ++ repeat (v, @None (nat * bool)) (n - length s))).
  { rewrite map_app, Q3. f_equal. rewrite map_length, firstn_length. replace (n - min n (length s)) with (n - length s) by lia.
    induction (n - length s); cbn; f_equal; auto. }
  assert (Hrep : forall m x, helpers x (repeat (v, @None (nat * bool)) m) = []) by (induction m; cbn; auto).
  destruct Q1 as (Qa & Qn & Qb). cbn [with_values animateds next block fresh] in Qa, Qn, Qb.
  assert (Qf : fresh p <= fresh q /\ block q < fresh q) by (destruct Qb as [(-> & ->)|(-> & ->)]; lia).
  apply goal_intro.
  - constructor.
    + constructor; unfold vector_resize; fold q; cbn [with_values values reserved block fresh animateds next fst snd].
      * exact Hval.
      * rewrite Qa, helpers_app, Hrep, app_nil_r. exact Hl.
      * congruence.
      * rewrite Qa, Qn. apply Forall_forall. intros a Ha. apply H4. auto.
      * rewrite Qa. auto.
      * rewrite Qa. apply Forall_forall. intros a Ha. specialize (H6 a (Hin a Ha)). lia.
      * lia.
      * rewrite app_length, firstn_length, repeat_length. lia.
    + unfold roomy, vector_resize. fold q. cbn [with_values values reserved]. rewrite app_length, repeat_length, Hlen.
      unfold q. rewrite reserve_reserved. lia.
  - intros Hr _. unfold all_right in Hr. rewrite Forall_forall in Hr. unfold uniform, all_right, right, vector_resize. fold q.
    cbn [with_values block animateds]. rewrite Qa. destruct Qb as [(-> & _)|(-> & _)].
    + left. apply Forall_forall. intros a Ha. apply Hr. auto.
    + right. apply Forall_forall. intros a Ha Hx. specialize (H6 a (Hin a Ha)). rewrite Hx in H6. cbn in H6. lia.
Qed.

Lemma NoDup_ids : forall p s l, R p s -> (exists x y, animateds p = x ++ l ++ y) -> NoDup (map aid l).
Proof.
  intros p s l HR (x & y & E). pose proof (R_nodup _ _ HR) as H. rewrite E, !map_app in H. clear E HR.
  induction x as [|z x IH]; cbn in H.
  - clear -H. induction l as [|a l IH]; [constructor|]. cbn in H. inversion H; subst. cbn. constructor; auto.
    intro. apply H2. rewrite in_app_iff. auto.
  - inversion H; auto.
Qed.

Lemma resize_grow_spec : forall p s k n v, Inv p (s, k) -> length s <= n -> (Z.of_nat n < 2147483648)%Z ->
  goal p (match (if length (values p) <? n then Some (OnInsertion (Z.of_nat (length (values p))) (Z.of_nat (n - length (values p))) (animateds p))
                 else Some (animateds p)) with
          | Some l => Some (OnPotentialSizeChange (vector_resize n v (with_values p (values p) l)))
          | None => None
          end) (firstn n s ++ repeat (v, None) (n - length s), k) True.
Proof.
  intros p s k n v HI Hn Hs. pose proof HI as [HR Hroom]. pose proof HR as [H1 H2 _ _ H5 _ _ H8]. cbn [fst] in *.
  assert (E : (if length (values p) <? n then Some (OnInsertion (Z.of_nat (length (values p))) (Z.of_nat (n - length (values p))) (animateds p))
                 else Some (animateds p)) = Some (animateds p)).
  { destruct (_ <? _); auto. rewrite H1, map_length. f_equal. apply OnInsertion_end; auto. lia. }
  rewrite E. apply resized; auto. rewrite firstn_all2 by auto. exact H2.
Qed.

Lemma resize_spec : forall p s k n, Inv p (s, k) -> (Z.of_nat (length (firstn n s ++ repeat (@None Z, @None (nat * bool)) (n - length s))) < 2147483648)%Z ->
  goal p (resize n p) (firstn n s ++ repeat (None, None) (n - length s), k) True.
Proof.
  intros p s k n HI Hs. pose proof HI as [HR Hroom]. pose proof HR as [H1 H2 _ _ H5 _ _ H8]. cbn [fst] in *.
  rewrite app_length, firstn_length, repeat_length in Hs.
  unfold resize. destruct (Nat.ltb_spec (length (values p)) n) as [E|E].
  - pose proof (resize_grow_spec p s k n None HI) as G. rewrite (proj2 (Nat.ltb_lt _ _) E) in G. apply G; rewrite H1, map_length in E; lia.
  - rewrite H1, map_length in E. destruct (Nat.ltb_spec n (length (values p))) as [E2|E2].
    + rewrite H1, map_length in E2 |- *. set (a := firstn n s). set (m := skipn n s).
      assert (Es : s = a ++ m ++ []) by (rewrite app_nil_r; symmetry; apply firstn_skipn).
      assert (La : length a = n) by (unfold a; rewrite firstn_length; lia). assert (Lm : length m = length s - n) by (unfold m; apply skipn_length).
      rewrite Es in H2. destruct (OnRemoval_spec (animateds p) a m [] (Z.of_nat n) (Z.of_nat (length s - n)) H2) as (l1 & lm & l2 & El & L1 & _ & L2 & Er).
      { lia. } { congruence. } { congruence. }
      cbn in L2. destruct l2; [|discriminate]. cbn [map] in Er. rewrite app_nil_r in Er. rewrite Er. rewrite <- H1. apply resized; auto.
      * intros x Hx. rewrite El. rewrite in_app_iff. auto.
      * eapply NoDup_ids; eauto. exists [], lm. rewrite app_nil_r in El. exact El.
      * lia.
    + rewrite H1, map_length in E2. apply resized; auto; [|lia]. rewrite firstn_all2 by lia. exact H2.
Qed.

Lemma resize_value_spec : forall p s k n v, Inv p (s, k) -> length s <= n -> (Z.of_nat n < 2147483648)%Z ->
  goal p (resize_value n v p) (firstn n s ++ repeat (plain v) (n - length s), k) True.
Proof.
  intros p s k n v HI Hn Hs. pose proof (resize_grow_spec p s k n (Some v) HI Hn Hs) as G. unfold resize_value.
  destruct (length (values p) <? n); auto. pose proof HI as [[H1 _ _ _ _ _ _ _] _]. cbn [fst] in H1.
  destruct (Nat.ltb_spec n (length (values p))) as [E|E]; auto. rewrite H1, map_length in E. lia.
Qed.
