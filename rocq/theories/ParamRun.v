(** Helpers, evaluation and histories of animatable list parameters. *)
From Coq Require Import List ZArith Bool Arith Lia.
From Verif Require Import ParamModel ParamSpec ParamProofs ParamSteps.
Import ListNotations.

Lemma set_nth_mid : forall A (pre : list A) x post y, set_nth (pre ++ x :: post) (length pre) y = pre ++ y :: post.
Proof. induction pre; intros; cbn; f_equal; auto. Qed.

Lemma helpers_value : forall a x y h b n, helpers n (a ++ (x, h) :: b) = helpers n (a ++ (y, h) :: b).
Proof. intros. rewrite !helpers_app. reflexivity. Qed.

(** New values at one place. *)
Lemma R_value : forall p a x y h b k, R p (a ++ (x, h) :: b, k) ->
  R (with_values p (set_nth (values p) (length a) y) (animateds p)) (a ++ (y, h) :: b, k).
Proof.
  intros p a x y h b k [H1 H2 H3 H4 H5 H6 H7 H8]. cbn [fst snd] in *. constructor; cbn [with_values values animateds next fresh block fst snd]; auto.
  - rewrite H1, map_app. cbn [map fst]. rewrite <- (map_length fst a) at 1. rewrite set_nth_mid, map_app. reflexivity.
  - now rewrite (helpers_value a y x).
  - rewrite app_length in *. cbn [length] in *. exact H8.
Qed.
Lemma set_nth_length : forall A (l : list A) i x, length (set_nth l i x) = length l.
Proof. induction l; destruct i; cbn; auto. Qed.
Lemma Inv_value : forall p a x y h b k, Inv p (a ++ (x, h) :: b, k) ->
  Inv (with_values p (set_nth (values p) (length a) y) (animateds p)) (a ++ (y, h) :: b, k).
Proof.
  intros p a x y h b k [H1 H2]. constructor; [eapply R_value; eauto|]. unfold roomy in *. cbn. now rewrite set_nth_length.
Qed.

Lemma set_spec : forall p a x h b k v, Inv p (a ++ (x, h) :: b, k) -> goal p (set (length a) v p) (a ++ (Some v, h) :: b, k) True.
Proof.
  intros p a x h b k v HI. pose proof HI as [[H1 _ _ _ _ _ _ _] _]. cbn [fst] in H1. unfold set.
  rewrite (proj2 (Nat.ltb_lt _ _)) by (rewrite H1, map_length, app_length; cbn; lia).
  eexists. split; [reflexivity|]. split; [eapply Inv_value; eauto|]. intros Hr _. exact Hr.
Qed.

Lemma split_helper : forall p a x h c b k, R p (a ++ (x, Some (h, c)) :: b, k) -> exists l1 y l2,
  animateds p = l1 ++ y :: l2 /\ map proj l1 = helpers 0 a /\ aid y = h /\ element y = Z.of_nat (length a) /\ curve y = c /\
  map proj l2 = helpers (S (length a)) b /\ Forall (fun z => aid z <> h) l1 /\ Forall (fun z => aid z <> h) l2.
Proof.
  intros p a x h c b k HR. pose proof HR as [_ H2 _ _ H5 _ _ _]. cbn [fst] in H2.
  destruct (split_helpers _ _ _ _ H2) as (l1 & l & E & E1 & E2). cbn [helpers plus] in E2.
  destruct l as [|y l2]; [discriminate|]. cbn [map] in E2. injection E2 as Eh Ee Ec E2.
  exists l1, y, l2. rewrite E, map_app in H5. cbn [map] in H5. pose proof (NoDup_remove_2 _ _ _ H5) as Hn. rewrite in_app_iff in Hn.
  repeat (split; auto); apply Forall_forall; intros z Hz Hzh; apply Hn; [left|right]; rewrite Eh, <- Hzh; now apply in_map.
Qed.

Lemma existsb_helper : forall l1 y l2 h, aid y = h -> existsb (fun a => Nat.eqb (aid a) h) (l1 ++ y :: l2) = true.
Proof. intros l1 y l2 h H. rewrite existsb_app. cbn [existsb]. rewrite H, Nat.eqb_refl. now rewrite orb_true_r. Qed.
Lemma map_not : forall h f l, Forall (fun z => aid z <> h) l -> map (fun a => if Nat.eqb (aid a) h then f a else a) l = l.
Proof.
  intros h f l H. induction H as [|z l Hz H IH]; cbn; auto. rewrite (proj2 (Nat.eqb_neq _ _) Hz). now f_equal.
Qed.
Lemma filter_not : forall h l, Forall (fun z => aid z <> h) l -> filter (fun a => negb (Nat.eqb (aid a) h)) l = l.
Proof.
  intros h l H. induction H as [|z l Hz H IH]; cbn; auto. rewrite (proj2 (Nat.eqb_neq _ _) Hz). cbn. now f_equal.
Qed.

Lemma curve_spec : forall p a x h c b k, Inv p (a ++ (x, Some (h, c)) :: b, k) ->
  goal p (AddCurve h p) (a ++ (x, Some (h, true)) :: b, k) True.
Proof.
  intros p a x h c b k [HR Hroom]. destruct (split_helper _ _ _ _ _ _ _ HR) as (l1 & y & l2 & E & E1 & Eh & Ee & Ec & E2 & N1 & N2).
  pose proof HR as [H1 H2 H3 H4 H5 H6 H7 H8]. cbn [fst snd] in *. unfold AddCurve, on_helper. rewrite E.
  rewrite existsb_helper by auto. rewrite map_app. cbn [map]. rewrite !map_not by auto. rewrite Eh, Nat.eqb_refl.
  set (y' := {| aid := h; element := element y; ptr := ptr y; curve := true |}).
  rewrite E in H4, H5, H6. rewrite map_app in H5. cbn [map] in H5. rewrite Forall_app in H4, H6. destruct H4 as (A1 & A2), H6 as (B1 & B2).
  inversion A2; inversion B2; subst. eexists. split; [reflexivity|]. split; [constructor|].
  - constructor; cbn [with_values values animateds next fresh block fst snd]; auto.
    + now rewrite H1, !map_app.
    + rewrite map_app. cbn [map]. rewrite E1, E2, helpers_app. unfold y', proj. cbn [aid element curve helpers plus]. now rewrite Ee.
    + rewrite Forall_app. auto.
    + rewrite map_app. exact H5.
    + rewrite Forall_app. auto.
    + rewrite app_length in *. exact H8.
  - exact Hroom.
  - intros Hr _. unfold all_right, right in *. rewrite E, Forall_app in Hr. cbn [with_values animateds block]. rewrite Forall_app. destruct Hr as (Ra & Rb).
    inversion Rb; subst. split; auto.
Qed.

Lemma free_spec : forall p a x h c b k, Inv p (a ++ (x, Some (h, c)) :: b, k) ->
  goal p (Release h p) (a ++ (x, None) :: b, k) True.
Proof.
  intros p a x h c b k [HR Hroom]. destruct (split_helper _ _ _ _ _ _ _ HR) as (l1 & y & l2 & E & E1 & Eh & Ee & Ec & E2 & N1 & N2).
  pose proof HR as [H1 H2 H3 H4 H5 H6 H7 H8]. cbn [fst snd] in *. unfold Release. rewrite E.
  rewrite existsb_helper by auto. rewrite filter_app. cbn [filter]. rewrite !filter_not by auto. rewrite Eh, Nat.eqb_refl. cbn [negb].
  rewrite E in H4, H5, H6. rewrite map_app in H5. cbn [map] in H5. rewrite Forall_app in H4, H6. destruct H4 as (A1 & A2), H6 as (B1 & B2).
  inversion A2; inversion B2; subst. eexists. split; [reflexivity|]. split; [constructor|].
  - constructor; cbn [with_values values animateds next fresh block fst snd]; auto.
    + now rewrite H1, !map_app.
    + rewrite map_app. rewrite E1, E2, helpers_app. reflexivity.
    + rewrite Forall_app. auto.
    + rewrite map_app. eapply NoDup_remove_1; eauto.
    + rewrite Forall_app. auto.
    + rewrite app_length in *. exact H8.
  - exact Hroom.
  - intros Hr _. unfold all_right, right in *. rewrite E, Forall_app in Hr. cbn [with_values animateds block]. rewrite Forall_app. destruct Hr as (Ra & Rb).
    inversion Rb; subst. split; auto.
Qed.

Lemma find_helper : forall l1 y l2 h, Forall (fun z => aid z <> h) l1 -> aid y = h -> List.find (fun a => Nat.eqb (aid a) h) (l1 ++ y :: l2) = Some y.
Proof.
  intros l1 y l2 h H Hy. induction H as [|z l Hz H IH]; cbn [app List.find].
  - now rewrite Hy, Nat.eqb_refl.
  - now rewrite (proj2 (Nat.eqb_neq _ _) Hz).
Qed.

Lemma eval_spec : forall p a x h b k v, Inv p (a ++ (x, Some (h, true)) :: b, k) -> all_right p ->
  goal p (Evaluate h v p) (a ++ (Some v, Some (h, true)) :: b, k) True.
Proof.
  intros p a x h b k v HI Hr. pose proof HI as [HR Hroom]. destruct (split_helper _ _ _ _ _ _ _ HR) as (l1 & y & l2 & E & E1 & Eh & Ee & Ec & E2 & N1 & N2).
  pose proof HR as [H1 _ _ _ _ _ _ _]. cbn [fst] in H1. unfold Evaluate. rewrite E. rewrite find_helper by auto. rewrite Ec.
  assert (Hy : ptr y = (block p, length a)).
  { unfold all_right in Hr. rewrite E, Forall_app in Hr. destruct Hr as (_ & Hr). inversion Hr; subst. unfold right in *. rewrite Ee, Nat2Z.id in *. auto. }
  rewrite Hy. cbn [fst snd]. rewrite Nat.eqb_refl. rewrite (proj2 (Nat.ltb_lt _ _)) by (rewrite H1, map_length, app_length; cbn; lia).
  cbn [andb]. rewrite <- E. eexists. split; [reflexivity|]. split; [eapply Inv_value; eauto|]. intros Hr' _. exact Hr'.
Qed.
Lemma eval_none_spec : forall p a x h b k v, Inv p (a ++ (x, Some (h, false)) :: b, k) ->
  goal p (Evaluate h v p) (a ++ (x, Some (h, false)) :: b, k) True.
Proof.
  intros p a x h b k v HI. pose proof HI as [HR Hroom]. destruct (split_helper _ _ _ _ _ _ _ HR) as (l1 & y & l2 & E & E1 & Eh & Ee & Ec & E2 & N1 & N2).
  unfold Evaluate. rewrite E. rewrite find_helper by auto. rewrite Ec. exists p. auto.
Qed.

(** *** GetAnimated *)
Lemma search_at : forall p a x o b k, R p (a ++ (x, o) :: b, k) ->
  exists l1 l2, animateds p = l1 ++ l2 /\ map proj l1 = helpers 0 a /\ map proj l2 = helpers (length a) ((x, o) :: b) /\
    BinarySearch (animateds p) (Z.of_nat (length a)) = length l1 /\ to_int32 (Z.of_nat (length a)) = Z.of_nat (length a).
Proof.
  intros p a x o b k [_ H2 _ _ _ _ _ H8]. cbn [fst] in *. destruct (split_helpers _ _ _ _ H2) as (l1 & l2 & E & E1 & E2). cbn [plus] in E2.
  rewrite app_length in H8. cbn [length] in H8. exists l1, l2. repeat (split; auto).
  - rewrite E. eapply search_spec; eauto. lia.
  - apply to_int32_id. lia.
Qed.

Lemma helper_old_spec : forall p a x h c b k, R p (a ++ (x, Some (h, c)) :: b, k) -> GetAnimated (length a) p = Some (p, h).
Proof.
  intros p a x h c b k HR. destruct (search_at _ _ _ _ _ _ HR) as (l1 & l2 & E & E1 & E2 & Es & Ei).
  unfold GetAnimated. rewrite Es, E, Ei. cbn [helpers] in E2. destruct l2 as [|y l2]; [discriminate|]. cbn [map] in E2. injection E2 as Eh Ee Ec E2.
  rewrite nth_error_app2 by auto. rewrite Nat.sub_diag. cbn [nth_error]. rewrite Ee, Z.eqb_refl. now rewrite Eh.
Qed.

Lemma helper_new_spec : forall p a x b k, Inv p (a ++ (x, None) :: b, k) ->
  exists p', GetAnimated (length a) p = Some (p', k) /\ Inv p' (a ++ (x, Some (k, false)) :: b, S k) /\ (all_right p -> all_right p').
Proof.
  intros p a x b k [HR Hroom]. destruct (search_at _ _ _ _ _ _ HR) as (l1 & l2 & E & E1 & E2 & Es & Ei).
  pose proof HR as [H1 H2 H3 H4 H5 H6 H7 H8]. cbn [fst snd helpers] in *. subst k.
  unfold GetAnimated. rewrite Es, Ei.
  assert (En : match nth_error (animateds p) (length l1) with Some z => (element z =? Z.of_nat (length a))%Z | None => false end = false).
  { rewrite E. rewrite nth_error_app2 by auto. rewrite Nat.sub_diag. destruct l2 as [|z l2]; auto. cbn [nth_error].
    apply Z.eqb_neq. pose proof (proj_from _ _ _ (Z.of_nat (S (length a))) E2 ltac:(lia)) as F. inversion F; subst. lia. }
  rewrite (proj2 (Nat.ltb_lt _ _)) by (rewrite H1, map_length, app_length; cbn; lia).
  set (y := {| aid := next p; element := Z.of_nat (length a); ptr := (block p, length a); curve := false |}).
  assert (Hfin : forall z : option (param * nat), z = Some ({| values := values p; reserved := reserved p; block := block p; fresh := fresh p;
               animateds := l1 ++ y :: l2; next := S (next p) |}, next p) ->
     exists p', z = Some (p', next p) /\ Inv p' (a ++ (x, Some (next p, false)) :: b, S (next p)) /\ (all_right p -> all_right p')).
  { intros z ->. eexists. split; [reflexivity|]. rewrite E in H4, H5, H6.
    assert (Ha : Forall (fun z => aid z < S (next p)) (l1 ++ l2)) by (eapply Forall_impl; [|exact H4]; cbn; intros; lia).
    rewrite Forall_app in Ha, H6. destruct Ha as (A1 & A2), H6 as (B1 & B2). split; [constructor|].
    - constructor; cbn [values animateds next fresh block fst snd]; auto.
      + now rewrite H1, !map_app.
      + rewrite map_app. cbn [map]. rewrite E1, E2, helpers_app. unfold y, proj. cbn [aid element curve helpers plus]. reflexivity.
      + rewrite Forall_app. split; auto.
      + rewrite map_app. cbn [map]. apply NoDup_Add with (a := next p) (l := map aid l1 ++ map aid l2); [apply Add_app|].
        rewrite <- map_app. split; auto. intro Hin. apply in_map_iff in Hin as (z & Hz & Hi). rewrite Forall_forall in H4. specialize (H4 z Hi). lia.
      + rewrite Forall_app. split; auto.
      + rewrite app_length in *. exact H8.
    - exact Hroom.
    - intros Hr. unfold all_right, right in *. rewrite E, Forall_app in Hr. cbn [animateds block]. rewrite Forall_app. destruct Hr as (Ra & Rb).
      split; auto. constructor; auto. cbn. now rewrite Nat2Z.id. }
  apply Hfin. rewrite E in *. rewrite firstn_len_app, skipn_len_app.
  destruct (nth_error (l1 ++ l2) (length l1)) as [z|]; [rewrite En|]; reflexivity.
Qed.

(** *** Erasing a value *)
Lemma find_at : forall v (a : list slot) h b, Forall (fun y => exists w, fst y = Some w /\ w <> v) a ->
  find v (map fst (a ++ (Some v, h) :: b)) = Some (length a).
Proof.
  intros v a h b H. induction H as [|y a (w & Ey & Hw) H IH]; cbn.
  - now rewrite Z.eqb_refl.
  - rewrite Ey. rewrite (proj2 (Z.eqb_neq _ _) Hw). now rewrite IH.
Qed.
Lemma find_not : forall v (a : list slot), Forall (fun y => exists w, fst y = Some w /\ w <> v) a -> find v (map fst a) = Some (length a).
Proof.
  intros v a H. induction H as [|y a (w & Ey & Hw) H IH]; cbn; auto. rewrite Ey. rewrite (proj2 (Z.eqb_neq _ _) Hw). now rewrite IH.
Qed.

Lemma goal_weaken : forall p o s (c c' : Prop), goal p o s c -> (c' -> c) -> goal p o s c'.
Proof. intros p o s c c' (q & E & I1 & H) Hc. exists q. auto. Qed.

(** *** One operation *)
Lemma step_spec : forall p s o s', Inv p s -> change s o s' -> (Z.of_nat (length (fst s')) < 2147483648)%Z -> grows (fst s) o ->
  (evaluates o -> all_right p) -> goal p (step p o) s' (calm (fst s) o).
Proof.
  intros p s o s' HI Hc Hs Hg He. destruct Hc; cbn [step fst calm grows] in *.
  - eapply goal_weaken; [eapply set_spec; eauto|auto].
  - rewrite firstn_len_app, skipn_len_app. apply (insert_spec room_one p a b k [plain v]); auto; [apply room_one_ok; apply HI|repeat constructor].
  - rewrite firstn_len_app, skipn_len_app. replace (map Some vs) with (map fst (map plain vs)) by (rewrite map_map; apply map_ext; auto).
    apply insert_spec; auto.
    + rewrite map_length. apply room_list_ok. apply HI.
    + apply Forall_map. apply Forall_forall. auto.
  - rewrite firstn_len_app, skipn_len_app. replace (repeat (Some v) n) with (map fst (repeat (plain v) n)) by (clear; induction n; cbn; f_equal; auto).
    apply insert_spec; auto.
    + rewrite repeat_length. apply room_count_ok. apply HI.
    + apply Forall_forall. intros y Hy. apply repeat_spec in Hy. now subst y.
  - rewrite firstn_len_app. replace (skipn (S (length a)) (a ++ x :: b)) with b.
    2:{ change (a ++ x :: b) with (a ++ [x] ++ b). rewrite app_assoc. replace (S (length a)) with (length (a ++ [x])) by (rewrite app_length; cbn; lia).
        now rewrite skipn_len_app. }
    apply (erase_range_spec p a [x] b k HI).
  - pose proof HI as [[H1 _ _ _ _ _ _ _] _]. cbn [fst] in H1. unfold erase_value. rewrite H1, (find_at v a h b H).
    rewrite (proj2 (Nat.ltb_lt _ _)) by (rewrite map_length, app_length; cbn; lia).
    destruct (erase_range_spec p a [(Some v, h)] b k HI) as (q & E & I1 & H2). cbn [length] in E. rewrite E.
    eexists. split; [reflexivity|]. split; [now apply opsc_Inv|]. intros Hr Hq. apply (opsc_right q (a ++ b, k)); [apply I1|]. left. apply H2; auto.
    eapply Hq; [reflexivity|]. eapply Forall_impl; [|exact H]. intros y (w & Ey & Hw). congruence.
  - pose proof HI as [[H1 _ _ _ _ _ _ _] _]. cbn [fst] in H1. unfold erase_value. rewrite H1, (find_not v s H).
    rewrite map_length, Nat.ltb_irrefl. apply goal_intro; auto. intros Hr _. now left.
  - rewrite firstn_len_app. replace (skipn (length a + length m) (a ++ m ++ b)) with b.
    2:{ rewrite app_assoc, <- app_length. now rewrite skipn_len_app. }
    apply erase_range_spec. exact HI.
  - eapply clear_spec; eauto.
  - apply push_back_spec; auto.
  - eapply goal_weaken; [apply (insert_spec room_one p [] s k [plain v]); auto; [apply room_one_ok; apply HI|repeat constructor]|].
    intros _. left. constructor.
  - apply pop_back_spec; auto.
  - destruct s as [|x s].
    + pose proof HI as [[H1 H2 _ _ _ _ _ _] _]. cbn in H1, H2. exists p. split; auto. unfold erase_range, vector_erase. rewrite H1. cbn [length Nat.ltb Nat.leb andb].
      destruct (animateds p) as [|y l] eqn:El; [|discriminate]. cbn.
      f_equal. rewrite <- El. apply param_eta.
    + eapply goal_weaken; [apply (erase_range_spec p [] [x] s k HI)|]. intros _. left. constructor.
  - apply resize_spec; auto.
  - apply resize_value_spec; auto. rewrite app_length, firstn_length, repeat_length in Hs. lia.
  - destruct h as (h, c). rewrite (helper_old_spec _ _ _ _ _ _ _ (I_R _ _ HI)). exists p. auto.
  - destruct (helper_new_spec _ _ _ _ _ HI) as (q & E & I1 & H1). rewrite E. exists q. auto.
  - eapply goal_weaken; [eapply curve_spec; eauto|auto].
  - eapply goal_weaken; [eapply free_spec; eauto|auto].
  - eapply goal_weaken; [eapply eval_spec; eauto; apply He; exact I|auto].
  - eapply goal_weaken; [eapply eval_none_spec; eauto|auto].
Qed.

Lemma empty_start : Inv empty_param no_slots /\ all_right empty_param.
Proof. split; [apply empty_Inv; auto|constructor]. Qed.

Lemma run_follow : forall os p s s', Inv p s -> changes (fun s o => grows s o /\ ~ evaluates o) s os s' ->
  exists p', run p os = Some p' /\ Inv p' s'.
Proof.
  induction os as [|o os IH]; intros p s s' HI Hc; inversion Hc as [|X1 X2 s1 X3 X4 A B (C1 & C2) D]; subst.
  - exists p. auto.
  - destruct (step_spec p s o s1 HI A B C1) as (q & E & I1 & _); [tauto|]. cbn [run]. rewrite E. eauto.
Qed.
Lemma run_calm : forall os p s s', Inv p s -> all_right p -> changes (fun s o => grows s o /\ calm s o) s os s' ->
  exists p', run p os = Some p' /\ Inv p' s' /\ all_right p'.
Proof.
  induction os as [|o os IH]; intros p s s' HI Hr Hc; inversion Hc as [|X1 X2 s1 X3 X4 A B (C1 & C2) D]; subst.
  - exists p. auto.
  - destruct (step_spec p s o s1 HI A B C1) as (q & E & I1 & Hq); [auto|]. cbn [run]. rewrite E. eauto.
Qed.
