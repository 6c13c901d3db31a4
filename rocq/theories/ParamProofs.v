(** Lemmas about animatable list parameters. *)
From Coq Require Import List ZArith Bool Arith Lia.
From Verif Require Import ParamModel ParamSpec.
Import ListNotations.

(** *** Helpers of a list of slots *)
Definition proj (a : animated) : nat * Z * bool := (aid a, element a, curve a).
Fixpoint helpers (n : nat) (s : list slot) : list (nat * Z * bool) :=
  match s with
  | [] => []
  | (_, None) :: s => helpers (S n) s
  | (_, Some (h, c)) :: s => (h, Z.of_nat n, c) :: helpers (S n) s
  end.

Lemma helpers_app : forall s1 s2 n, helpers n (s1 ++ s2) = helpers n s1 ++ helpers (n + length s1) s2.
Proof.
  induction s1 as [|(x, [(h, c)|]) s1 IH]; intros s2 n; cbn [helpers app length].
  - now rewrite Nat.add_0_r.
  - rewrite IH. cbn. do 3 f_equal. lia.
  - rewrite IH. do 2 f_equal. lia.
Qed.
Lemma helpers_shift : forall s n m, helpers (n + m) s = map (fun q => (fst (fst q), (snd (fst q) + Z.of_nat m)%Z, snd q)) (helpers n s).
Proof.
  induction s as [|(x, [(h, c)|]) s IH]; intros n m; cbn [helpers map]; auto.
  - cbn [fst snd]. rewrite <- (IH (S n) m). f_equal. f_equal. f_equal. lia.
  - apply (IH (S n) m).
Qed.
Lemma helpers_bounds : forall s n h e c, In (h, e, c) (helpers n s) -> (Z.of_nat n <= e < Z.of_nat (n + length s))%Z.
Proof.
  induction s as [|(x, [(h0, c0)|]) s IH]; intros n h e c H; cbn [helpers length] in *.
  - destruct H.
  - destruct H as [H|H]; [injection H as _ <- _; lia|]. apply IH in H. lia.
  - apply IH in H. lia.
Qed.
Lemma helpers_quiet : forall s n, quiet s -> helpers n s = [].
Proof.
  induction s as [|(x, o) s IH]; intros n H; auto. inversion H; subst. cbn in *. subst o. auto.
Qed.
Lemma helpers_plain : forall (X : list (option Z)) n, helpers n (map (fun x => (x, None)) X) = [].
Proof. induction X; intros; cbn; auto. Qed.

(** *** Binary search *)
Definition above (t : Z) (l : list animated) : Prop :=
  match l with [] => True | b :: r => (t <= element b)%Z /\ Forall (fun a => (t < element a)%Z) r end.

Lemma bs_spec : forall fuel l1 l2 start stop t, Forall (fun a => (element a < t)%Z) l1 -> above t l2 ->
  start <= length l1 <= stop -> stop <= length (l1 ++ l2) -> stop - start < fuel ->
  bs fuel (l1 ++ l2) start stop t = length l1.
Proof.
  induction fuel as [|fuel IH]; intros l1 l2 start stop t H1 H2 Hs Hl Hf; [lia|]. cbn [bs].
  destruct (Nat.ltb_spec start stop) as [H|H].
  - set (mid := (stop + start) / 2).
    assert (Hm : start <= mid < stop).
    { unfold mid. split; [apply Nat.div_le_lower_bound; lia|apply Nat.div_lt_upper_bound; lia]. }
    destruct (nth_error (l1 ++ l2) mid) as [a|] eqn:En; [|apply nth_error_None in En; lia].
    destruct (le_lt_dec (length l1) mid) as [Hml|Hml].
    + rewrite nth_error_app2 in En by auto.
      destruct l2 as [|b r]; [destruct (mid - length l1); discriminate|]. destruct H2 as (H2 & H3).
      destruct (mid - length l1) as [|q] eqn:Eq.
      * cbn in En. injection En as <-. destruct (Z.ltb_spec (element b) t); [lia|].
        destruct (Z.ltb_spec t (element b)).
        -- apply IH; auto; [split; auto|lia|lia|lia].
        -- lia.
      * cbn in En. apply nth_error_In in En. pose proof H3 as H3'. rewrite Forall_forall in H3'. specialize (H3' a En).
        destruct (Z.ltb_spec (element a) t); [lia|]. destruct (Z.ltb_spec t (element a)); [|lia].
        apply IH; auto; [split; auto|lia|lia|lia].
    + rewrite nth_error_app1 in En by auto. apply nth_error_In in En. pose proof H1 as H1'. rewrite Forall_forall in H1'.
      specialize (H1' a En). destruct (Z.ltb_spec (element a) t); [|lia]. apply IH; auto; lia.
  - replace stop with start by lia. replace (length l1) with start by lia.
    replace (start + start) with (start * 2) by lia. apply Nat.div_mul. lia.
Qed.

Lemma to_int32_id : forall z, (-2147483648 <= z < 2147483648)%Z -> to_int32 z = z.
Proof. intros z H. unfold to_int32. rewrite Z.mod_small; lia. Qed.
Lemma size_t_id : forall z, (0 <= z < 18446744073709551616)%Z -> size_t z = z.
Proof. intros z H. unfold size_t. now apply Z.mod_small. Qed.

Lemma proj_below : forall l s n t, map proj l = helpers n s -> (Z.of_nat (n + length s) <= t)%Z ->
  Forall (fun a => (element a < t)%Z) l.
Proof.
  intros l s n t H Ht. apply Forall_forall. intros a Ha. apply (in_map proj) in Ha. rewrite H in Ha.
  apply helpers_bounds in Ha. lia.
Qed.
Lemma proj_from : forall l s n t, map proj l = helpers n s -> (t <= Z.of_nat n)%Z -> Forall (fun a => (t <= element a)%Z) l.
Proof.
  intros l s n t H Ht. apply Forall_forall. intros a Ha. apply (in_map proj) in Ha. rewrite H in Ha.
  apply helpers_bounds in Ha. lia.
Qed.
Lemma proj_above : forall s l n t, map proj l = helpers n s -> (t <= Z.of_nat n)%Z -> above t l.
Proof.
  induction s as [|(x, [(h, c)|]) s IH]; intros l n t H Ht; cbn [helpers] in H.
  - destruct l; [exact I|discriminate].
  - destruct l as [|b l]; [discriminate|]. cbn [map] in H. injection H as Hh He Hc Hr. unfold above. split; [lia|].
    apply Forall_forall. intros a Ha. pose proof (proj_from _ _ _ (t + 1) Hr ltac:(lia)) as F. rewrite Forall_forall in F.
    specialize (F a Ha). lia.
  - apply (IH l (S n)); auto. lia.
Qed.

Lemma search_spec : forall l1 l2 (a b : list slot) t, map proj l1 = helpers 0 a -> map proj l2 = helpers (length a) b ->
  (Z.of_nat (length a) < 2147483648)%Z -> t = Z.of_nat (length a) -> BinarySearch (l1 ++ l2) t = length l1.
Proof.
  intros l1 l2 a b t H1 H2 Hl ->. unfold BinarySearch. rewrite to_int32_id by lia. apply bs_spec; try lia.
  - eapply proj_below; eauto. lia.
  - eapply proj_above; eauto. lia.
  - rewrite app_length. lia.
Qed.

Lemma split_helpers : forall l n s1 s2, map proj l = helpers n (s1 ++ s2) ->
  exists l1 l2, l = l1 ++ l2 /\ map proj l1 = helpers n s1 /\ map proj l2 = helpers (n + length s1) s2.
Proof.
  intros l n s1 s2 H. rewrite helpers_app in H. apply map_eq_app in H as (l1 & l2 & -> & H1 & H2). eauto.
Qed.

Definition shift (d : Z) (a : animated) : animated := SetArrayElement a (element a + d)%Z.
Lemma map_if_all : forall l t d, Forall (fun a => (t <= element a)%Z) l ->
  map (fun a => if (element a <? t)%Z then a else SetArrayElement a (element a + d)%Z) l = map (shift d) l.
Proof.
  intros l t d H. apply map_ext_in. intros a Ha. rewrite Forall_forall in H. specialize (H a Ha).
  destruct (Z.ltb_spec (element a) t); [lia|reflexivity].
Qed.
Lemma firstn_len_app : forall A (l1 l2 : list A), firstn (length l1) (l1 ++ l2) = l1.
Proof. intros. rewrite firstn_app, Nat.sub_diag, firstn_O, app_nil_r, firstn_all. reflexivity. Qed.
Lemma skipn_len_app : forall A (l1 l2 : list A), skipn (length l1) (l1 ++ l2) = l2.
Proof. intros. rewrite skipn_app, Nat.sub_diag, skipn_all. reflexivity. Qed.

Lemma proj_shift : forall l n s d m, map proj l = helpers n s -> (Z.of_nat n + d = Z.of_nat m)%Z -> map proj (map (shift d) l) = helpers m s.
Proof.
  intros l n s d m H Hd.
  assert (E : map proj (map (shift d) l) = map (fun q => (fst (fst q), (snd (fst q) + d)%Z, snd q)) (map proj l)).
  { rewrite !map_map. apply map_ext. reflexivity. }
  rewrite E, H. destruct (Z_le_gt_dec 0 d) as [Hp|Hn].
  - replace m with (n + Z.to_nat d) by lia. rewrite (helpers_shift s n (Z.to_nat d)). apply map_ext.
    intros q. rewrite Z2Nat.id by lia. reflexivity.
  - replace n with (m + Z.to_nat (- d)) by lia. rewrite (helpers_shift s m (Z.to_nat (- d))). rewrite map_map.
    rewrite <- map_id. apply map_ext. intros ((h, e), c). cbn [fst snd]. do 2 f_equal. lia.
Qed.

Lemma OnInsertion_spec : forall l (a b : list slot) n, map proj l = helpers 0 (a ++ b) -> (Z.of_nat (length a) < 2147483648)%Z ->
  (0 <= n < 2147483648)%Z ->
  exists l1 l2, l = l1 ++ l2 /\ map proj l1 = helpers 0 a /\ map proj l2 = helpers (length a) b /\
    OnInsertion (Z.of_nat (length a)) n l = l1 ++ map (shift n) l2.
Proof.
  intros l a b n H Hl Hn. destruct (split_helpers _ _ _ _ H) as (l1 & l2 & -> & H1 & H2). exists l1, l2.
  split; auto. split; auto. split; auto. unfold OnInsertion. rewrite (search_spec l1 l2 a b) by auto.
  rewrite firstn_len_app, skipn_len_app, !to_int32_id by lia. f_equal. apply map_if_all. eapply proj_from; eauto. lia.
Qed.

Lemma release_loop_spec : forall lm l2 (a m b : list slot) offset count, map proj lm = helpers (length a) m ->
  map proj l2 = helpers (length a + length m) b -> (Z.of_nat (length a + length m) < 2147483648)%Z ->
  offset = Z.of_nat (length a) -> count = Z.of_nat (length m) ->
  release_loop offset count (lm ++ l2) = Some l2.
Proof.
  intros lm l2 a m b offset count Hm H2 Hl -> ->.
  assert (F : Forall (fun x => (Z.of_nat (length a) <= element x)%Z) lm) by (eapply proj_from; eauto; lia).
  assert (G : Forall (fun x => (element x < Z.of_nat (length a + length m))%Z) lm) by (eapply proj_below; eauto; lia).
  assert (K : Forall (fun x => (Z.of_nat (length a + length m) <= element x)%Z) l2) by (eapply proj_from; eauto; lia).
  clear Hm H2. induction lm as [|x lm IH]; cbn [app].
  - destruct l2 as [|y l2]; auto. cbn [release_loop]. inversion K; subst. rewrite size_t_id, !to_int32_id by lia.
    destruct (Z.ltb_spec (element y) (Z.of_nat (length a))); [lia|].
    destruct (Z.leb_spec (Z.of_nat (length a) + Z.of_nat (length m)) (element y)); auto. lia.
  - cbn [release_loop]. inversion F; inversion G; subst. rewrite size_t_id, !to_int32_id by lia.
    destruct (Z.ltb_spec (element x) (Z.of_nat (length a))); [lia|].
    destruct (Z.leb_spec (Z.of_nat (length a) + Z.of_nat (length m)) (element x)); auto. lia.
Qed.

Lemma OnRemoval_spec : forall l (a m b : list slot) offset count, map proj l = helpers 0 (a ++ m ++ b) ->
  (Z.of_nat (length a + length m) < 2147483648)%Z -> offset = Z.of_nat (length a) -> count = Z.of_nat (length m) ->
  exists l1 lm l2, l = l1 ++ lm ++ l2 /\ map proj l1 = helpers 0 a /\ map proj lm = helpers (length a) m /\
    map proj l2 = helpers (length a + length m) b /\
    OnRemoval offset count l = Some (l1 ++ map (shift (- count)) l2).
Proof.
  intros l a m b offset count H Hl Ho Hc. destruct (split_helpers _ _ _ _ H) as (l1 & l' & -> & H1 & H').
  cbn [plus] in H'. destruct (split_helpers _ _ _ _ H') as (lm & l2 & -> & Hm & H2). exists l1, lm, l2. repeat (split; auto).
  unfold OnRemoval. rewrite (search_spec l1 (lm ++ l2) a (m ++ b)) by (auto; lia).
  rewrite skipn_len_app, firstn_len_app. rewrite (release_loop_spec lm l2 a m b) by auto.
  assert (Hs : BinarySearch (l1 ++ l2) (size_t (offset + count)) = length l1).
  { unfold BinarySearch. rewrite size_t_id, to_int32_id by lia. apply bs_spec; try lia.
    - eapply proj_below; eauto. lia.
    - eapply proj_above; eauto. lia.
    - rewrite app_length. lia. }
  rewrite Hs. rewrite firstn_len_app, skipn_len_app. do 2 f_equal. rewrite size_t_id, !to_int32_id by lia.
  transitivity (map (fun x => if (element x <? offset + count)%Z then x else SetArrayElement x (element x + - count)%Z) l2).
  - apply map_ext. intro x. destruct (element x <? offset + count)%Z; auto.
  - apply map_if_all. eapply proj_from; eauto. lia.
Qed.

(** *** The state *)
Record R (p : param) (s : slots) : Prop := {
  R_values : values p = map fst (fst s);
  R_helpers : map proj (animateds p) = helpers 0 (fst s);
  R_next : next p = snd s;
  R_ids : Forall (fun a => aid a < next p) (animateds p);
  R_nodup : NoDup (map aid (animateds p));
  R_blocks : Forall (fun a => fst (ptr a) < fresh p) (animateds p);
  R_block : block p < fresh p;
  R_size : (Z.of_nat (length (fst s)) < 2147483648)%Z }.

Definition right (p : param) (a : animated) : Prop := ptr a = (block p, Z.to_nat (element a)).
Definition all_right (p : param) : Prop := Forall (right p) (animateds p).
Definition uniform (p : param) : Prop := all_right p \/ Forall (fun a => ~ right p a) (animateds p).

Lemma set_pointers_proj : forall b n l, map proj (set_pointers b n l) = map proj l.
Proof.
  intros b n l. induction l as [|a l IH]; cbn [set_pointers]; auto. destruct ((0 <=? element a) && (element a <? Z.of_nat n))%Z; auto.
  cbn [map]. rewrite IH. reflexivity.
Qed.
Lemma map_aid_proj : forall l, map aid l = map (fun q => fst (fst q)) (map proj l).
Proof. intro l. rewrite map_map. reflexivity. Qed.
Lemma ids_of_proj : forall l l' k, map proj l = map proj l' -> Forall (fun a => aid a < k) l -> Forall (fun a => aid a < k) l'.
Proof.
  intros l l' k H. assert (E : map aid l = map aid l') by (rewrite !map_aid_proj, H; auto).
  rewrite !Forall_forall. intros F a Ha. apply (in_map aid) in Ha. rewrite <- E in Ha. apply in_map_iff in Ha as (x & <- & Hx). auto.
Qed.

Lemma set_pointers_right : forall b n l, Forall (fun a => (0 <= element a < Z.of_nat n)%Z) l ->
  Forall (fun a => ptr a = (b, Z.to_nat (element a))) (set_pointers b n l).
Proof.
  intros b n l H. induction H as [|a l (H1 & H2) H IH]; cbn [set_pointers]; auto.
  rewrite (proj2 (Z.leb_le _ _)), (proj2 (Z.ltb_lt _ _)) by lia. constructor; auto.
Qed.
Lemma set_pointers_blocks : forall b n l k, b < k -> Forall (fun a => fst (ptr a) < k) l -> Forall (fun a => fst (ptr a) < k) (set_pointers b n l).
Proof.
  intros b n l k Hb H. induction H as [|a l H1 H IH]; cbn [set_pointers]; auto.
  destruct ((0 <=? element a) && (element a <? Z.of_nat n))%Z; auto.
Qed.

Lemma opsc_R : forall p s, R p s -> R (OnPotentialSizeChange p) s.
Proof.
  intros p s [H1 H2 H3 H4 H5 H6 H7 H8]. unfold OnPotentialSizeChange. destruct (animateds p) as [|a l] eqn:E.
  - constructor; auto; rewrite E; auto.
  - destruct ((0 <=? element a) && (element a <? Z.of_nat (length (values p))))%Z; [|constructor; rewrite ?E; auto].
    destruct (_ && _); [constructor; rewrite ?E; auto|]. constructor; cbn [values reserved block fresh animateds next]; auto.
    + now rewrite set_pointers_proj.
    + eapply ids_of_proj; [|exact H4]. now rewrite set_pointers_proj.
    + rewrite map_aid_proj, set_pointers_proj, <- map_aid_proj. exact H5.
    + apply set_pointers_blocks; auto.
Qed.
Lemma R_range : forall p s, R p s -> Forall (fun a => (0 <= element a < Z.of_nat (length (values p)))%Z) (animateds p).
Proof.
  intros p s [H1 H2 _ _ _ _ _ _]. apply Forall_forall. intros a Ha. apply (in_map proj) in Ha. rewrite H2 in Ha.
  apply helpers_bounds in Ha. rewrite H1, map_length. lia.
Qed.
Lemma opsc_right : forall p s, R p s -> uniform p -> all_right (OnPotentialSizeChange p).
Proof.
  intros p s HR HU. pose proof (R_range _ _ HR) as HF. unfold OnPotentialSizeChange, all_right.
  destruct (animateds p) as [|a l] eqn:E; [rewrite E; constructor|].
  inversion HF as [|? ? (Ha1 & Ha2) Hl]; subst.
  rewrite (proj2 (Z.leb_le _ _)), (proj2 (Z.ltb_lt _ _)) by lia. cbn [andb].
  destruct (Nat.eqb_spec (fst (ptr a)) (block p)) as [E1|N1], (Nat.eqb_spec (snd (ptr a)) (Z.to_nat (element a))) as [E2|N2]; cbn [andb].
  1:{ destruct HU as [HU|HU]; [exact HU|]. exfalso. rewrite E in HU. inversion HU; subst. apply H1. unfold right.
      destruct (ptr a); cbn in *; congruence. }
  all: cbn [animateds]; unfold right; cbn [block]; apply set_pointers_right; auto.
Qed.

(** Changing the values and helpers. *)
Lemma NoDup_app_parts : forall A (l1 lm l2 : list A), NoDup (l1 ++ lm ++ l2) -> NoDup (l1 ++ l2).
Proof.
  intros A l1 lm l2 H. induction l1 as [|x l1 IH]; cbn in *.
  - induction lm; auto. cbn in H. inversion H; auto.
  - inversion H; subst. constructor; auto. intro Hx. apply H2. rewrite in_app_iff in *. rewrite in_app_iff. tauto.
Qed.
Lemma map_shift_aid : forall d l, map aid (map (shift d) l) = map aid l.
Proof. intros. rewrite map_map. reflexivity. Qed.
Lemma Forall_shift : forall (P : animated -> Prop) d l, (forall a, P a -> P (shift d a)) -> Forall P l -> Forall P (map (shift d) l).
Proof. intros P d l H F. rewrite Forall_map. eapply Forall_impl; eauto. Qed.

Lemma R_with : forall p a m b k X l1 lm l2 d, R p (a ++ m ++ b, k) -> animateds p = l1 ++ lm ++ l2 ->
  map proj l1 = helpers 0 a -> map proj l2 = helpers (length a + length m) b -> quiet X ->
  (d = Z.of_nat (length X) - Z.of_nat (length m))%Z -> (Z.of_nat (length (a ++ X ++ b)) < 2147483648)%Z ->
  R (with_values p (map fst (a ++ X ++ b)) (l1 ++ map (shift d) l2)) (a ++ X ++ b, k).
Proof.
  intros p a m b k X l1 lm l2 d [H1 H2 H3 H4 H5 H6 H7 H8] E E1 E2 HX Hd Hs. rewrite E in *.
  rewrite !Forall_app in H4, H6. destruct H4 as (A1 & A2 & A3), H6 as (B1 & B2 & B3).
  constructor; cbn [with_values values reserved block fresh animateds next fst snd]; auto.
  - rewrite map_app, E1, !helpers_app. rewrite (helpers_quiet X) by auto. cbn [app]. f_equal.
    apply (proj_shift l2 (length a + length m)); auto. lia.
  - rewrite Forall_app. split; auto. apply Forall_shift; auto.
  - rewrite map_app, map_shift_aid, <- map_app. rewrite !map_app in *. eapply NoDup_app_parts; eauto.
  - rewrite Forall_app. split; auto. apply Forall_shift; auto.
Qed.

(** Pointers after such a change, the buffer staying where it is. *)
Lemma uniform_with : forall p l1 lm l2 d vs, all_right p -> animateds p = l1 ++ lm ++ l2 -> (l1 = [] \/ l2 = []) ->
  Forall (fun a => (0 <= element a)%Z /\ (0 <= element a + d)%Z) l2 ->
  uniform (with_values p vs (l1 ++ map (shift d) l2)).
Proof.
  intros p l1 lm l2 d vs H E Hq He. unfold all_right in H. rewrite E in H. rewrite !Forall_app in H. destruct H as (A1 & _ & A3).
  destruct (Z.eq_dec d 0) as [->|Hd].
  { left. unfold all_right, right. cbn [with_values animateds block]. rewrite Forall_app. split; auto.
    apply Forall_shift; auto. intros a Ha. unfold right in Ha. cbn. now rewrite Z.add_0_r. }
  destruct Hq as [->| ->].
  - right. cbn [app with_values animateds]. rewrite Forall_map. rewrite Forall_forall in *. intros a Ha.
    unfold right. cbn [with_values block shift SetArrayElement ptr element]. specialize (A3 a Ha). unfold right in A3. rewrite A3.
    intro X. injection X as X. destruct (He a Ha). lia.
  - left. unfold all_right. cbn [map with_values animateds]. now rewrite app_nil_r.
Qed.

(** Reallocation. *)
Definition same_but_buffer (p q : param) : Prop :=
  animateds q = animateds p /\ next q = next p /\
  ((block q = block p /\ fresh q = fresh p) \/ (block q = fresh p /\ fresh q = S (fresh p))).
Lemma reserve_spec : forall n p, same_but_buffer p (reserve n p) /\
  (length (values p) <= n -> values (reserve n p) = values p) /\ (length (values p) <= reserved p -> values (reserve n p) = firstn n (values p)).
Proof.
  intros n p. unfold reserve. destruct (Nat.eqb_spec (reserved p) n) as [E|E].
  - split; [repeat split; auto|]. split; auto. intro. rewrite firstn_all2; auto. lia.
  - split; [repeat split; auto|]. split; auto. intro. cbn. apply firstn_all2. auto.
Qed.

Lemma R_move : forall p q s, R p s -> same_but_buffer p q -> values q = values p -> R q s.
Proof.
  intros p q s [H1 H2 H3 H4 H5 H6 H7 H8] (E1 & E2 & E3) Ev. constructor; rewrite ?E1, ?E2, ?Ev; auto.
  - destruct E3 as [(_ & ->)|(_ & ->)]; auto. eapply Forall_impl; [|exact H6]. cbn. intros. lia.
  - destruct E3 as [(-> & ->)|(-> & ->)]; auto.
Qed.
(** After a reallocation every pointer is wrong, otherwise nothing changed. *)
Lemma uniform_move : forall p q, Forall (fun a => fst (ptr a) < fresh p) (animateds p) -> uniform p -> same_but_buffer p q -> uniform q.
Proof.
  intros p q HB HU (E1 & _ & [(Eb & _)|(Eb & _)]).
  - destruct HU as [HU|HU]; [left|right]; unfold all_right, right in *; rewrite E1, Eb; auto.
  - right. rewrite E1. eapply Forall_impl; [|exact HB]. intros a Ha Hr. cbv beta in Ha. unfold right in Hr. rewrite Hr, Eb in Ha. cbn in Ha. lia.
Qed.

(** Capacity is no smaller than the size. *)
Definition roomy (p : param) : Prop := length (values p) <= reserved p.

Record Inv (p : param) (s : slots) : Prop := { I_R : R p s; I_room : roomy p }.

Lemma opsc_roomy : forall p, roomy p -> roomy (OnPotentialSizeChange p).
Proof.
  intros p H. unfold OnPotentialSizeChange. destruct (animateds p); auto. destruct (_ && _)%Z; auto. destruct (_ && _); auto.
Qed.
Lemma opsc_Inv : forall p s, Inv p s -> Inv (OnPotentialSizeChange p) s.
Proof. intros p s [H1 H2]. constructor; [now apply opsc_R|now apply opsc_roomy]. Qed.
