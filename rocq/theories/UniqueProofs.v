(** Proofs about the unique-string map (C14). *)
From Coq Require Import List ZArith Bool Lia Sorted.
From Verif Require Import TextModel TextSpec TextProofs UniqueSpec UniqueModel.
Import ListNotations.
Local Open Scope Z_scope.

Lemma str_eqb_eq : forall a b, str_eqb a b = true <-> a = b.
Proof.
  induction a as [|x a IH]; intros [|y b]; cbn; try (split; [discriminate|discriminate]); [tauto|].
  rewrite andb_true_iff, Z.eqb_eq, IH. split; [intros [-> ->]; auto|intro H; injection H; auto].
Qed.
Lemma str_eqb_refl : forall a, str_eqb a a = true.
Proof. intro. apply str_eqb_eq. reflexivity. Qed.
Lemma str_eqb_neq : forall a b, a <> b -> str_eqb a b = false.
Proof. intros a b H. destruct (str_eqb a b) eqn:E; auto. apply str_eqb_eq in E. congruence. Qed.

Lemma lookup_update : forall m p q ns,
  lookup (update m p ns) q = if str_eqb q p then ns else lookup m q.
Proof.
  induction m as [|[r ms] m IH]; intros p q ns; cbn.
  - destruct (str_eqb q p); reflexivity.
  - destruct (str_eqb p r) eqn:E; cbn.
    + apply str_eqb_eq in E. subst. destruct (str_eqb q r); reflexivity.
    + rewrite IH. destruct (str_eqb q r) eqn:E2; auto.
      apply str_eqb_eq in E2. subst. destruct (str_eqb r p) eqn:E3; auto.
      apply str_eqb_eq in E3. subst. rewrite str_eqb_refl in E. discriminate.
Qed.

(** *** Splitting *)
Lemma digit_iff : forall c, digit c = true <-> is_digit c.
Proof. intro. rewrite digit_range. reflexivity. Qed.
Lemma digit_false : forall c, digit c = false <-> ~ is_digit c.
Proof. intro c. rewrite <- digit_iff. destruct (digit c); split; congruence. Qed.

Lemma number_value : forall ds, number ds = value_from 0 ds.
Proof.
  intro ds. unfold number, value_from. generalize 0. induction ds as [|c ds IH]; intro v; cbn; auto.
  replace (v * 10 + (c - 48)) with (10 * v + (c - 48)) by lia. apply IH.
Qed.
Lemma number_nonneg : forall ds, Forall is_digit ds -> 0 <= number ds.
Proof.
  intros ds H. rewrite number_value. apply value_mono; [|lia].
  eapply Forall_impl; [|exact H]. intros c. apply digit_iff.
Qed.

Lemma drop_digits_spec : forall r, exists ds, r = ds ++ drop_digits r /\ Forall is_digit ds /\
  (forall c t, drop_digits r = c :: t -> ~ is_digit c).
Proof.
  induction r as [|c r IH]; cbn.
  - exists []. repeat split; auto. intros; discriminate.
  - destruct (digit c) eqn:E.
    + destruct IH as (ds & H1 & H2 & H3). exists (c :: ds). cbn. repeat split; [congruence| |auto].
      constructor; auto. apply digit_iff; auto.
    + exists []. repeat split; auto. intros c' t H. injection H as <- <-. apply digit_false; auto.
Qed.

Lemma drop_digits_app : forall ds r, Forall is_digit ds -> (forall c t, r = c :: t -> ~ is_digit c) ->
  drop_digits (ds ++ r) = r.
Proof.
  induction 1 as [|c ds Hc _ IH]; intro Hr; cbn.
  - destruct r as [|c r]; auto. cbn. rewrite (proj2 (digit_false c)); auto. apply (Hr c r); auto.
  - rewrite (proj2 (digit_iff c)) by auto. auto.
Qed.

Lemma parts_exist : forall s, exists p ds, parts s p ds.
Proof.
  intro s. destruct (drop_digits_spec (rev s)) as (ds & H1 & H2 & H3).
  exists (rev (drop_digits (rev s))), (rev ds). repeat split.
  - rewrite <- rev_app_distr, <- H1. symmetry. apply rev_involutive.
  - apply Forall_rev; auto.
  - intros q c H. apply (f_equal (@rev Z)) in H. rewrite rev_involutive, rev_app_distr in H.
    eapply H3. exact H.
Qed.

Lemma parts_rev : forall s p ds, parts s p ds -> drop_digits (rev s) = rev p.
Proof.
  intros s p ds (-> & H1 & H2). rewrite rev_app_distr. apply drop_digits_app.
  - apply Forall_rev; auto.
  - intros c t H. apply (f_equal (@rev Z)) in H. rewrite rev_involutive in H. cbn in H. eauto.
Qed.

Lemma parts_unique : forall s p ds q es, parts s p ds -> parts s q es -> p = q /\ ds = es.
Proof.
  intros s p ds q es H1 H2. pose proof (parts_rev _ _ _ H1) as E. rewrite (parts_rev _ _ _ H2) in E.
  apply (f_equal (@rev Z)) in E. rewrite !rev_involutive in E. subst q. split; auto.
  destruct H1 as (-> & _), H2 as (H & _). apply app_inv_head in H. auto.
Qed.

Definition key (p ds : list Z) : list Z * Z := (p, match ds with [] => NO_SUFFIX | _ => number ds end).

Lemma split_parts : forall s p ds, parts s p ds -> number ds < 4294967296 -> SplitString s = key p ds.
Proof.
  intros s p ds H Hn. unfold SplitString. rewrite (parts_rev _ _ _ H), rev_involutive.
  destruct H as (-> & H1 & H2). unfold key. rewrite app_length. f_equal.
  destruct ds as [|c ds].
  - cbn [length]. rewrite Nat.add_0_r, Nat.eqb_refl. reflexivity.
  - rewrite (proj2 (Nat.eqb_neq _ _)) by (cbn; lia).
    rewrite skipn_app, Nat.sub_diag, skipn_all. cbn [app skipn].
    pose proof (to_uint32_spec [] (c :: ds) []) as E. cbn [app] in E. rewrite app_nil_r in E.
    rewrite E.
    + cbn [fst]. symmetry. apply number_value.
    + constructor.
    + discriminate.
    + eapply Forall_impl; [|exact H1]. intro. apply digit_iff.
    + exact I.
    + rewrite number_value in Hn. exact Hn.
Qed.

Lemma modest_parts : forall b s, modest b s -> exists p ds, parts s p ds /\ 0 <= number ds < b.
Proof.
  intros b s H. destruct (parts_exist s) as (p & ds & P). exists p, ds. split; auto. split.
  - apply number_nonneg. apply P.
  - eapply H; eauto.
Qed.
Lemma modest_intro : forall b s p ds, parts s p ds -> number ds < b -> modest b s.
Proof. intros b s p ds H Hn q es H2. destruct (parts_unique _ _ _ _ _ H H2) as [-> ->]. auto. Qed.
Lemma modest_le : forall a b s, modest a s -> a <= b -> modest b s.
Proof. intros a b s H Hl p ds P. specialize (H p ds P). lia. Qed.

(** Equal keys mean the same name. *)
Lemma key_same : forall s t, modest 4294967295 s -> modest 4294967295 t ->
  (SplitString s = SplitString t <-> same_name s t).
Proof.
  intros s t Hs Ht. destruct (modest_parts _ _ Hs) as (p & ds & P & Hd).
  destruct (modest_parts _ _ Ht) as (q & es & Q & He).
  rewrite (split_parts _ _ _ P), (split_parts _ _ _ Q) by lia. unfold key. split.
  - intro H. injection H as <- H. exists p, ds, es. repeat split; try apply P; try apply Q.
    unfold NO_SUFFIX in H.
    destruct ds as [|d ds], es as [|e es]; [left; auto| | |right; repeat split; auto; discriminate]; lia.
  - intros (r & ds' & es' & P' & Q' & H).
    destruct (parts_unique _ _ _ _ _ P P') as [-> ->]. destruct (parts_unique _ _ _ _ _ Q Q') as [-> ->].
    destruct H as [[-> ->]|(H1 & H2 & H3)]; [reflexivity|].
    destruct ds'; [congruence|]. destruct es'; [congruence|]. rewrite H3. reflexivity.
Qed.

(** *** Number sets *)
Definition ascending (ns : numbers) : Prop := StronglySorted Z.lt ns.

Lemma num_mem_iff : forall n ns, num_mem n ns = true <-> In n ns.
Proof.
  intros. unfold num_mem. rewrite existsb_exists. split.
  - intros (x & H & E). apply Z.eqb_eq in E. subst. auto.
  - intro H. exists n. rewrite Z.eqb_refl. auto.
Qed.
Lemma num_insert_in : forall n ns k, In k (num_insert n ns) <-> k = n \/ In k ns.
Proof.
  induction ns as [|x ns IH]; intro k; cbn; [intuition|].
  destruct (n <? x); [cbn; intuition|]. destruct (Z.eqb_spec n x); cbn; [subst; intuition|].
  rewrite IH. intuition.
Qed.
Lemma num_insert_asc : forall n ns, ascending ns -> ascending (num_insert n ns).
Proof.
  induction 1 as [|x ns H IH Hx]; cbn; [repeat constructor|].
  destruct (Z.ltb_spec n x).
  - constructor; [constructor; auto|]. constructor; auto. eapply Forall_impl; [|exact Hx]. cbn. lia.
  - destruct (Z.eqb_spec n x); [constructor; auto|]. constructor; [exact IH|].
    rewrite Forall_forall in *. intros y Hy. apply num_insert_in in Hy. destruct Hy; [lia|auto].
Qed.
Lemma num_erase_in : forall n ns k, In k (num_erase n ns) <-> k <> n /\ In k ns.
Proof.
  intros. unfold num_erase. rewrite filter_In, negb_true_iff, Z.eqb_neq. intuition.
Qed.
Lemma num_erase_asc : forall n ns, ascending ns -> ascending (num_erase n ns).
Proof.
  induction 1 as [|x ns H IH Hx]; cbn; [constructor|]. destruct (negb (n =? x)); auto.
  constructor; auto. rewrite Forall_forall in *. intros y Hy. apply num_erase_in in Hy. apply Hx, Hy.
Qed.

Definition num_ok (b n : Z) : Prop := 0 <= n < b \/ n = NO_SUFFIX.

Lemma asc_last : forall ns x, ascending (ns ++ [x]) -> (forall y, In y ns -> y < x) /\ ascending ns.
Proof.
  induction ns as [|a ns IH]; intros x H; cbn in *.
  - split; [tauto|constructor].
  - inversion H as [|? ? H1 H2]; subst. destruct (IH x H1) as [A B]. rewrite Forall_forall in H2. split.
    + intros y [<-|Hy]; auto. apply H2. apply in_or_app. right. left. auto.
    + constructor; auto. rewrite Forall_forall. intros y Hy. apply H2, in_or_app. auto.
Qed.

Lemma fresh_ok : forall b ns, ascending ns -> Forall (num_ok b) ns -> 1 <= b < NO_SUFFIX -> ns <> [] ->
  1 <= fresh_suffix ns <= b /\ ~ In (fresh_suffix ns) ns.
Proof.
  intros b ns Ha Hf Hb Hne. unfold fresh_suffix.
  destruct (exists_last Hne) as (ms & x & ->). rewrite rev_app_distr. cbn [rev app].
  apply asc_last in Ha. destruct Ha as [Hl Ha]. rewrite Forall_app in Hf. destruct Hf as [Hf Hx].
  inversion Hx as [|? ? Hx' _]; subst. clear Hx. unfold NO_SUFFIX in *. rewrite Forall_forall in Hf.
  destruct (Z.eqb_spec x 4294967295) as [->|Hn]; cbn [negb].
  - destruct ms as [|m0 ms0] eqn:Ems.
    + cbn. unfold u32. split; [lia|]. intros [|[]]; lia.
    + rewrite <- Ems in *. assert (Hms : ms <> []) by (subst; discriminate). clear Ems.
      destruct (exists_last Hms) as (ks & y & E). subst ms. rewrite rev_app_distr. cbn [rev app].
      apply asc_last in Ha. destruct Ha as [Hl2 _].
      assert (Hy : y < 4294967295) by (apply Hl, in_or_app; right; left; auto).
      assert (Hy2 : num_ok b y) by (apply Hf, in_or_app; right; left; auto).
      unfold num_ok, NO_SUFFIX in Hy2. unfold u32. rewrite Z.mod_small by lia. split; [lia|].
      intro Hin. apply in_app_or in Hin. destruct Hin as [Hin|[Hin|[]]]; [|lia].
      apply in_app_or in Hin. destruct Hin as [Hin|[Hin|[]]]; [|lia]. apply Hl2 in Hin. lia.
  - unfold num_ok, NO_SUFFIX in Hx'. unfold u32. rewrite Z.mod_small by lia. split; [lia|].
    intro Hin. apply in_app_or in Hin. destruct Hin as [Hin|[Hin|[]]]; [|lia]. apply Hl in Hin. lia.
Qed.

(** *** The map *)
Definition map_ok (b : Z) (m : names) : Prop :=
  forall p, ascending (lookup m p) /\ Forall (num_ok b) (lookup m p).

Lemma num_ok_le : forall a b n, num_ok a n -> a <= b -> num_ok b n.
Proof. unfold num_ok. intuition. Qed.
Lemma map_ok_le : forall a b m, map_ok a m -> a <= b -> map_ok b m.
Proof.
  intros a b m H Hl p. destruct (H p). split; auto. eapply Forall_impl; [|eassumption].
  intros n Hn. eapply num_ok_le; eauto.
Qed.
Lemma map_ok_nil : forall b, map_ok b [].
Proof. intros b p. cbn. split; constructor. Qed.

Lemma contains_key : forall m s p n, SplitString s = (p, n) -> contains m s = num_mem n (lookup m p).
Proof. intros m s p n H. unfold contains. rewrite H. reflexivity. Qed.

Lemma map_ok_update : forall b m p ns, map_ok b m -> ascending ns -> Forall (num_ok b) ns ->
  map_ok b (update m p ns).
Proof. intros b m p ns H H1 H2 q. rewrite lookup_update. destruct (str_eqb q p); auto. Qed.

Lemma insert_num_ok : forall b n ns, Forall (num_ok b) ns -> num_ok b n -> Forall (num_ok b) (num_insert n ns).
Proof.
  intros b n ns H Hn. rewrite Forall_forall in *. intros k Hk. apply num_insert_in in Hk.
  destruct Hk as [->|]; auto.
Qed.

Lemma mem_insert : forall n ns k, num_mem k (num_insert n ns) = (k =? n) || num_mem k ns.
Proof.
  intros. apply eq_true_iff_eq. rewrite orb_true_iff, !num_mem_iff, num_insert_in, Z.eqb_eq. reflexivity.
Qed.
Lemma mem_erase : forall n ns k, num_mem k (num_erase n ns) = negb (k =? n) && num_mem k ns.
Proof.
  intros. apply eq_true_iff_eq.
  rewrite andb_true_iff, !num_mem_iff, num_erase_in, negb_true_iff, Z.eqb_neq. reflexivity.
Qed.

Lemma parts_dec : forall p n, 0 <= n -> (forall q c, p = q ++ [c] -> ~ is_digit c) ->
  parts (p ++ dec n) p (dec n) /\ number (dec n) = n /\ dec n <> [].
Proof.
  intros p n Hn Hp. destruct (dec_spec n Hn) as (H1 & H2 & H3). repeat split; auto.
  - eapply Forall_impl; [|exact H2]. intro. apply digit_iff.
  - rewrite number_value. exact H3.
Qed.

Lemma key_num_ok : forall p ds b, Forall is_digit ds -> number ds < b -> num_ok b (snd (key p ds)).
Proof.
  intros p ds b H Hn. unfold key, num_ok. cbn. destruct ds; [right; auto|left].
  pose proof (number_nonneg _ H). lia.
Qed.

(** The step lemma for [insert]. *)
Lemma insert_step : forall b m s, map_ok b m -> modest b s -> 1 <= b < NO_SUFFIX ->
  let '(s', m') := insert m s in
  map_ok (b + 1) m' /\ modest (b + 1) s' /\
  contains m s' = false /\ contains m' s' = true /\
  (contains m s = false -> s' = s) /\
  (forall t, SplitString t <> SplitString s' -> contains m' t = contains m t) /\
  (exists p ds es, parts s p ds /\ parts s' p es /\ (contains m s = true -> es = dec (number es) /\ es <> [])).
Proof.
  intros b m s Hm Hs Hb. destruct (modest_parts _ _ Hs) as (p & ds & P & Hd).
  assert (Hb' : b < 4294967295) by (unfold NO_SUFFIX in Hb; lia).
  pose proof (split_parts s p ds P ltac:(lia)) as K.
  unfold insert. rewrite K. unfold key.
  set (n := match ds with [] => NO_SUFFIX | _ => number ds end) in *.
  assert (Hn : num_ok b n) by (apply (key_num_ok p ds); [apply P|lia]).
  destruct (Hm p) as [Ha Hf].
  assert (Frame : forall k t s', SplitString s' = (p, k) -> SplitString t <> SplitString s' ->
            contains (update m p (num_insert k (lookup m p))) t = contains m t).
  { intros k t s' E Ht. unfold contains. destruct (SplitString t) as [q j]. rewrite lookup_update.
    destruct (str_eqb q p) eqn:Eq; auto. apply str_eqb_eq in Eq. subst q.
    rewrite mem_insert, (proj2 (Z.eqb_neq j k)); auto. intro. subst. congruence. }
  destruct (num_mem n (lookup m p)) eqn:Mem.
  - assert (Hne : lookup m p <> []) by (intro E; rewrite E in Mem; discriminate).
    destruct (fresh_ok b _ Ha Hf Hb Hne) as [Hr Hnew].
    set (k := fresh_suffix (lookup m p)) in *. unfold append_u32.
    destruct (parts_dec p k ltac:(lia) ltac:(apply P)) as (P' & Hk & Hkne).
    assert (K' : SplitString (p ++ dec k) = (p, k)).
    { rewrite (split_parts _ _ _ P') by lia. unfold key. rewrite Hk. destruct (dec k); congruence. }
    split; [|split; [|split; [|split; [|split; [|split]]]]].
    + apply map_ok_update.
      * apply map_ok_le with b; auto. lia.
      * apply num_insert_asc; auto.
      * apply insert_num_ok; [|left; lia]. eapply Forall_impl; [|exact Hf].
        intros x Hx. eapply num_ok_le; [exact Hx|lia].
    + apply (modest_intro _ _ _ _ P'). lia.
    + rewrite (contains_key _ _ _ _ K'). destruct (num_mem k (lookup m p)) eqn:E; auto.
      apply num_mem_iff in E. contradiction.
    + rewrite (contains_key _ _ _ _ K'), lookup_update, str_eqb_refl, mem_insert, Z.eqb_refl. reflexivity.
    + intro H. rewrite (contains_key _ _ p n K) in H. congruence.
    + intros t Ht. eapply Frame; eauto.
    + exists p, ds, (dec k). split; [auto|]. split; [auto|]. intros _. rewrite Hk. auto.
  - split; [|split; [|split; [|split; [|split; [|split]]]]].
    + apply map_ok_update.
      * apply map_ok_le with b; auto. lia.
      * apply num_insert_asc; auto.
      * apply insert_num_ok.
        -- eapply Forall_impl; [|exact Hf]. intros x Hx. eapply num_ok_le; [exact Hx|lia].
        -- eapply num_ok_le; [exact Hn|lia].
    + eapply modest_le; [exact Hs|lia].
    + rewrite (contains_key _ _ p n K). exact Mem.
    + rewrite (contains_key _ _ p n K), lookup_update, str_eqb_refl, mem_insert, Z.eqb_refl. reflexivity.
    + auto.
    + intros t Ht. eapply Frame; eauto.
    + exists p, ds, ds. split; [auto|]. split; [auto|]. intro H.
      rewrite (contains_key _ _ p n K) in H. congruence.
Qed.

Lemma erase_step : forall b m s, map_ok b m ->
  map_ok b (erase m s) /\ contains (erase m s) s = false /\
  (forall t, SplitString t <> SplitString s -> contains (erase m s) t = contains m t).
Proof.
  intros b m s Hm. unfold erase, contains. destruct (SplitString s) as [p n] eqn:K.
  destruct (lookup m p) as [|x xs] eqn:L.
  - split; auto. split; [rewrite L; reflexivity|auto].
  - rewrite <- L in *. destruct (Hm p) as [Ha Hf]. split; [|split].
    + apply map_ok_update; auto; [apply num_erase_asc; auto|].
      rewrite Forall_forall in *. intros k Hk. apply num_erase_in in Hk. apply Hf, Hk.
    + rewrite lookup_update, str_eqb_refl, mem_erase, Z.eqb_refl. reflexivity.
    + intros t Ht. destruct (SplitString t) as [q j]. rewrite lookup_update.
      destruct (str_eqb q p) eqn:Eq; auto. apply str_eqb_eq in Eq. subst q.
      rewrite mem_erase, (proj2 (Z.eqb_neq j n)); auto. congruence.
Qed.

(** Histories. *)
Definition op_modest (b : Z) (o : map_op) : Prop :=
  match o with Insert s => modest b s | Erase s => modest 4294967295 s end.

Lemma run_ok : forall h m b, map_ok b m -> 1 <= b -> Forall (op_modest b) h ->
  b + Z.of_nat (length h) < NO_SUFFIX -> map_ok (b + Z.of_nat (length h)) (fold_left apply_op h m).
Proof.
  induction h as [|o h IH]; intros m b Hm Hb Hh Hl; cbn [fold_left length].
  - rewrite Z.add_0_r. auto.
  - inversion Hh as [|? ? Ho Hr]; subst. cbn [length] in Hl. rewrite Nat2Z.inj_succ in *.
    replace (b + Z.succ (Z.of_nat (length h))) with (b + 1 + Z.of_nat (length h)) by lia.
    apply IH; [|lia| |lia].
    + destruct o as [s|s]; cbn [apply_op].
      * pose proof (insert_step b m s Hm Ho ltac:(lia)) as H. destruct (insert m s). apply H.
      * apply map_ok_le with b; [|lia]. apply (erase_step b m s Hm).
    + eapply Forall_impl; [|exact Hr]. intros [s|s] H; cbn in *; auto. eapply modest_le; [exact H|lia].
Qed.

(** *** Names without superfluous zeros *)
Definition nlz (ds : list Z) : Prop := forall es, ds = 48 :: es -> es = [].

Lemma number_app1 : forall ds c, number (ds ++ [c]) = 10 * number ds + (c - 48).
Proof. intros. unfold number. rewrite fold_left_app. reflexivity. Qed.

Lemma number_zero_head : forall c ds, Forall is_digit (c :: ds) -> number (c :: ds) = 0 -> c = 48.
Proof.
  intros c ds H Hz. inversion H as [|? ? Hc Hd]; subst. rewrite number_value in Hz.
  unfold value_from in Hz. cbn [fold_left] in Hz. change (0 * 10 + (c - 48)) with (0 + (c - 48)) in Hz.
  assert (E : Forall (fun c => digit c = true) ds) by (eapply Forall_impl; [|exact Hd]; intro; apply digit_iff).
  unfold is_digit in Hc. pose proof (value_mono ds (0 + (c - 48)) E ltac:(lia)) as M. unfold value_from in M. lia.
Qed.

Lemma nlz_unique : forall ds es, Forall is_digit ds -> Forall is_digit es -> nlz ds -> nlz es ->
  ds <> [] -> es <> [] -> number ds = number es -> ds = es.
Proof.
  assert (Z0 : forall ds c, Forall is_digit (ds ++ [c]) -> nlz (ds ++ [c]) -> number ds = 0 -> ds = []).
  { intros [|x ds] c H Hn H0; auto. apply Forall_app in H. destruct H as [H _].
    apply number_zero_head in H0; auto. subst x. cbn in Hn. specialize (Hn _ eq_refl).
    destruct ds; discriminate. }
  induction ds as [|c ds IH] using rev_ind; intros es Hd He Nd Ne Hdn Hen Hv; [congruence|].
  destruct (exists_last Hen) as (es' & e & ->). clear Hen.
  rewrite !number_app1 in Hv.
  pose proof (proj1 (Forall_app _ _ _) Hd) as [Hd1 Hc]. pose proof (proj1 (Forall_app _ _ _) He) as [He1 Hce].
  inversion Hc as [|? ? Hc' _]; subst. inversion Hce as [|? ? He' _]; subst. unfold is_digit in Hc', He'.
  assert (c = e /\ number ds = number es') as [-> Hv'] by lia. f_equal.
  destruct ds as [|x ds].
  - symmetry. eapply Z0; eauto.
  - destruct es' as [|y es'].
    + exfalso. enough (x :: ds = []) by discriminate. eapply Z0; eauto.
    + apply IH; auto; try discriminate.
      * intros fs E. injection E as -> ->. specialize (Nd _ eq_refl). destruct fs; discriminate.
      * intros fs E. injection E as -> ->. specialize (Ne _ eq_refl). destruct fs; discriminate.
Qed.

Lemma same_name_eq : forall s t, no_leading_zero s -> no_leading_zero t -> same_name s t -> s = t.
Proof.
  intros s t Hs Ht (p & ds & es & P & Q & H). pose proof (Hs _ _ P) as N1. pose proof (Ht _ _ Q) as N2.
  destruct P as (-> & P1 & _), Q as (-> & Q1 & _). f_equal.
  destruct H as [[-> ->]|(H1 & H2 & H3)]; auto. apply nlz_unique; auto.
Qed.

Lemma same_name_sym : forall s t, same_name s t -> same_name t s.
Proof. intros s t (p & ds & es & P & Q & H). exists p, es, ds. repeat split; try apply P; try apply Q. intuition. Qed.

(** Strings handed out by successive insertions. *)
Lemma insert_all_fresh : forall ss m b, map_ok b m -> 1 <= b -> Forall (modest b) ss ->
  b + Z.of_nat (length ss) < NO_SUFFIX ->
  NoDup (map SplitString (insert_all m ss)) /\
  forall s, In s (insert_all m ss) -> contains m s = false.
Proof.
  induction ss as [|s ss IH]; intros m b Hm Hb Hs Hl; cbn [insert_all].
  - split; [constructor|intros s []].
  - inversion Hs as [|? ? H1 H2]; subst. cbn [length] in Hl. rewrite Nat2Z.inj_succ in Hl.
    pose proof (insert_step b m s Hm H1 ltac:(lia)) as St. destruct (insert m s) as [s' m'].
    destruct St as (S1 & S2 & S3 & S4 & S5 & S6 & _).
    destruct (IH m' (b + 1) S1 ltac:(lia)) as [I1 I2]; [|lia|].
    { eapply Forall_impl; [|exact H2]. intros x Hx. eapply modest_le; [exact Hx|lia]. }
    assert (N : forall t, In t (insert_all m' ss) -> SplitString t <> SplitString s').
    { intros t Ht E. specialize (I2 t Ht). unfold contains in *. rewrite E in I2. congruence. }
    split.
    + cbn. constructor; auto. intro Hin. apply in_map_iff in Hin. destruct Hin as (t & Et & Ht).
      apply (N t Ht Et).
    + intros t [<-|Ht]; auto. rewrite <- S6 by (apply N; auto). apply I2; auto.
Qed.

(** Deciding [modest] by computation (for examples). *)
Lemma modest_compute : forall b s,
  (number (skipn (length (drop_digits (rev s))) s) <? b) = true -> modest b s.
Proof.
  intros b s H p ds P. pose proof (parts_rev _ _ _ P) as E. rewrite E, rev_length in H.
  destruct P as (-> & _). rewrite skipn_app, Nat.sub_diag, skipn_all in H. cbn in H. apply Z.ltb_lt. exact H.
Qed.
