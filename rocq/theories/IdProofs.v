(** Proofs about object ids (C15). *)
From Coq Require Import List ZArith Bool Lia.
From Verif Require Import TextModel TextProofs UniqueSpec UniqueModel UniqueProofs IdModel.
Import ListNotations.
Local Open Scope Z_scope.

Lemma nth_set : forall os i j o, nth_error (set_nth os i o) j =
  if (i =? j)%nat then match nth_error os j with Some _ => Some o | None => None end else nth_error os j.
Proof.
  induction os as [|x os IH]; intros [|i] [|j] o; cbn; auto.
  destruct (i =? j)%nat; reflexivity.
Qed.

Lemma at_put : forall d m i o j, object_at d i <> None -> object_at (put d m i o) j =
  if (i =? j)%nat then if alive o then Some o else None else object_at d j.
Proof.
  intros d m i o j H. unfold object_at, put in *. cbn. rewrite nth_set.
  destruct (Nat.eqb_spec i j); auto. subst. destruct (nth_error (objects d) j); congruence.
Qed.
Lemma at_put_eq : forall d m i o, object_at d i <> None -> alive o = true -> object_at (put d m i o) i = Some o.
Proof. intros. rewrite at_put by auto. rewrite Nat.eqb_refl, H0. reflexivity. Qed.
Lemma at_put_neq : forall d m i o j, i <> j -> object_at (put d m i o) j = object_at d j.
Proof.
  intros d m i o j H. unfold object_at, put. cbn. rewrite nth_set.
  rewrite (proj2 (Nat.eqb_neq i j)); auto.
Qed.
Lemma names_put : forall d m i o, doc_names (put d m i o) = m.
Proof. reflexivity. Qed.
Lemma at_alive : forall d i o, object_at d i = Some o -> alive o = true.
Proof.
  intros d i o. unfold object_at. destruct (nth_error (objects d) i) as [x|]; [|discriminate].
  destruct (alive x) eqn:E; [|discriminate]. congruence.
Qed.

(** The invariant. *)
Record ids_ok (b : Z) (d : document) : Prop := {
  ok_map : map_ok b (doc_names d);
  ok_modest : forall i o, object_at d i = Some o -> modest b (daeId o);
  ok_in : forall i o, object_at d i = Some o -> unique o = true -> contains (doc_names d) (daeId o) = true;
  ok_diff : forall i j o p, object_at d i = Some o -> object_at d j = Some p -> i <> j ->
    unique o = true -> unique p = true -> SplitString (daeId o) <> SplitString (daeId p) }.

Lemma ids_ok_le : forall a b d, ids_ok a d -> a <= b -> ids_ok b d.
Proof.
  intros a b d [H1 H2 H3 H4] Hl. split; auto.
  - eapply map_ok_le; eauto.
  - intros i o Ho. eapply modest_le; eauto.
Qed.

Lemma contains_split : forall m s t, SplitString s = SplitString t -> contains m s = contains m t.
Proof. intros m s t H. unfold contains. rewrite H. reflexivity. Qed.

(** Registering an id for an unregistered object. *)
Lemma register_ok : forall b d i o w, ids_ok b d -> object_at d i = Some o -> unique o = false ->
  modest b w -> 1 <= b < NO_SUFFIX ->
  let '(s, m) := insert (doc_names d) w in
  ids_ok (b + 1) (put d m i {| daeId := s; unique := true; alive := true |}).
Proof.
  intros b d i o w [H1 H2 H3 H4] Ho Hu Hw Hb.
  pose proof (insert_step b _ w H1 Hw Hb) as St. destruct (insert (doc_names d) w) as [s m].
  destruct St as (S1 & S2 & S3 & S4 & _ & S6 & _).
  assert (Hn : object_at d i <> None) by congruence.
  assert (New : forall j p, object_at d j = Some p -> unique p = true -> SplitString (daeId p) <> SplitString s).
  { intros j p Hp Hup E. pose proof (H3 j p Hp Hup) as C. rewrite (contains_split _ _ _ E) in C. congruence. }
  split.
  - rewrite names_put. auto.
  - intros j p. rewrite at_put by auto. destruct (i =? j)%nat.
    + cbn. intro E. injection E as <-. auto.
    + intro Hp. eapply modest_le; [eapply H2; eauto|lia].
  - intros j p. rewrite at_put by auto. rewrite names_put. destruct (Nat.eqb_spec i j).
    + cbn. intro E. injection E as <-. auto.
    + intros Hp Hup. rewrite S6; eauto.
  - intros j k p q. rewrite !at_put by auto.
    destruct (Nat.eqb_spec i j), (Nat.eqb_spec i k); cbn [alive]; intros Hp Hq Hjk Up Uq; try congruence.
    + injection Hp as <-. cbn. intro E. apply (New k q); auto.
    + injection Hq as <-. cbn. eapply New; eauto.
    + eapply H4 with (i := j) (j := k); eauto.
Qed.

Lemma remove_ok : forall b d i, ids_ok b d -> ids_ok b (RemoveDaeId d i) /\
  (forall o, object_at (RemoveDaeId d i) i = Some o -> unique o = false).
Proof.
  intros b d i H. unfold RemoveDaeId. destruct (object_at d i) as [o|] eqn:Ho.
  2:{ split; auto. congruence. }
  destruct (unique o) eqn:Hu. 2:{ split; auto. congruence. }
  assert (Hn : object_at d i <> None) by congruence.
  destruct H as [H1 H2 H3 H4]. destruct (erase_step b _ (daeId o) H1) as (E1 & E2 & E3).
  split; [split|].
  - rewrite names_put. auto.
  - intros j p. rewrite at_put by auto. destruct (i =? j)%nat; [|eauto].
    cbn. intro E. injection E as <-. cbn. eauto.
  - intros j p. rewrite at_put by auto. rewrite names_put. destruct (Nat.eqb_spec i j).
    + cbn. intro E. injection E as <-. discriminate.
    + intros Hp Hup. rewrite E3; eauto.
  - intros j k p q. rewrite !at_put by auto.
    destruct (Nat.eqb_spec i j), (Nat.eqb_spec i k); cbn [alive]; intros Hp Hq Hjk Up Uq; try congruence.
    + injection Hp as <-. discriminate.
    + injection Hq as <-. discriminate.
    + eapply H4 with (i := j) (j := k); eauto.
  - intro p. rewrite at_put by auto. rewrite Nat.eqb_refl. cbn. intro E. injection E as <-. reflexivity.
Qed.

Lemma modest_unknown : forall b, 1 <= b -> modest b unknown_object.
Proof.
  intros b Hb. assert (P : parts unknown_object unknown_object []).
  { split; [symmetry; apply app_nil_r|]. split; [constructor|]. intros q c H.
    change unknown_object with (firstn 13 unknown_object ++ [116]) in H. apply app_inj_tail in H.
    destruct H as [_ <-]. unfold is_digit. lia. }
  apply (modest_intro _ _ _ _ P). unfold number. cbn. lia.
Qed.

Lemma get_ok : forall b d i, ids_ok b d -> 1 <= b < NO_SUFFIX -> ids_ok (b + 1) (snd (GetDaeId d i)).
Proof.
  intros b d i H Hb. assert (Hle : ids_ok (b + 1) d) by (eapply ids_ok_le; [exact H|lia]).
  unfold GetDaeId. destruct (object_at d i) as [o|] eqn:Ho; [|exact Hle].
  destruct (unique o) eqn:Hu; [exact Hle|].
  set (w := match daeId o with [] => unknown_object | s => s end).
  assert (Hw : modest b w).
  { unfold w. destruct (daeId o) as [|c s] eqn:E; [apply modest_unknown; lia|].
    rewrite <- E. eapply ok_modest; eauto. }
  pose proof (register_ok b d i o w H Ho Hu Hw Hb) as R. destruct (insert (doc_names d) w). exact R.
Qed.

(** What a call may ask for: modest numbers. *)
Definition call_modest (b : Z) (c : call) : Prop :=
  match c with New s => modest b s | Set_ _ s => modest b (CleanId s) | _ => True end.
(** Object [j] has a registered id. *)
Definition registered (d : document) (j : nat) : bool :=
  match object_at d j with Some o => unique o | None => false end.
Definition call_fresh (d : document) (c : call) : Prop :=
  match c with Clone _ j => registered d j = false | _ => True end.

Lemma call_ok : forall b d c, ids_ok b d -> 1 <= b < NO_SUFFIX -> call_modest b c -> call_fresh d c ->
  ids_ok (b + 1) (do_call d c).
Proof.
  intros b d c H Hb Hm Hf. assert (Hle : ids_ok (b + 1) d) by (eapply ids_ok_le; [exact H|lia]).
  destruct c as [s|i|i id|i|i j|i]; cbn [do_call].
  - assert (X : forall j o, object_at (NewObject d s) j = Some o ->
               object_at d j = Some o \/ o = {| daeId := s; unique := false; alive := true |}).
    { intros j o. unfold object_at, NewObject. cbn. intro E.
      destruct (Nat.lt_ge_cases j (length (objects d))).
      - left. rewrite nth_error_app1 in E by auto. exact E.
      - rewrite nth_error_app2 in E by auto.
        destruct (j - length (objects d))%nat as [|[|k]]; cbn in E; try discriminate. right. congruence. }
    destruct Hle as [H1 H2 H3 H4]. split; auto.
    + intros j o Ho. destruct (X _ _ Ho) as [Ho'| ->]; [eauto|]. cbn. eapply modest_le; [exact Hm|lia].
    + intros j o Ho Hu. destruct (X _ _ Ho) as [Ho'| ->]; [|discriminate]. exact (H3 j o Ho' Hu).
    + intros j k o p Ho Hp Hjk Uo Up. destruct (X _ _ Ho) as [Ho'| ->]; [|discriminate].
      destruct (X _ _ Hp) as [Hp'| ->]; [|discriminate]. eapply H4; eauto.
  - apply get_ok; auto.
  - unfold SetDaeId. destruct (remove_ok b d i H) as [R1 R2].
    destruct (object_at (RemoveDaeId d i) i) as [o|] eqn:Ho; [|eapply ids_ok_le; [exact R1|lia]].
    pose proof (register_ok b _ i o (CleanId id) R1 Ho (R2 o eq_refl) Hm Hb) as R.
    destruct (insert (doc_names (RemoveDaeId d i)) (CleanId id)). exact R.
  - eapply ids_ok_le; [apply remove_ok; exact H|lia].
  - unfold CloneObject. destruct (object_at d i) as [src|] eqn:Hi; [|exact Hle].
    destruct (object_at d j) as [dst|] eqn:Hj; [|exact Hle].
    apply remove_ok. cbn in Hf. unfold registered in Hf. rewrite Hj in Hf. rewrite Hf.
    assert (Hn : object_at d j <> None) by congruence.
    destruct Hle as [H1 H2 H3 H4]. split; auto.
    + intros k o. rewrite at_put by auto. destruct (j =? k)%nat; [|eauto].
      cbn. intro E. injection E as <-. cbn. eauto.
    + intros k o. rewrite at_put by auto. destruct (j =? k)%nat; [|intros; apply (H3 k o); auto].
      cbn. intro E. injection E as <-. discriminate.
    + intros k l o p. rewrite !at_put by auto.
      destruct (Nat.eqb_spec j k), (Nat.eqb_spec j l); cbn [alive]; intros Ho Hp Hkl Uo Up; try congruence.
      * injection Ho as <-. discriminate.
      * injection Hp as <-. discriminate.
      * eapply H4 with (i := k) (j := l); eauto.
  - unfold ReleaseObject. destruct (remove_ok b d i H) as [R1 R2].
    apply ids_ok_le with (b := b + 1) in R1; [|lia].
    destruct (object_at (RemoveDaeId d i) i) as [o|] eqn:Ho; [|exact R1].
    assert (Hn : object_at (RemoveDaeId d i) i <> None) by congruence.
    destruct R1 as [H1 H2 H3 H4]. split; auto.
    + intros k p. rewrite at_put by auto. destruct (i =? k)%nat; [cbn; discriminate|eauto].
    + intros k p. rewrite at_put by auto. destruct (i =? k)%nat; [cbn; discriminate|]. intros; apply (H3 k p); auto.
    + intros k l p q. rewrite !at_put by auto.
      destruct (i =? k)%nat, (i =? l)%nat; cbn [alive]; try discriminate.
      intros. eapply H4 with (i := k) (j := l); eauto.
Qed.

(** An object is registered only after GetDaeId or SetDaeId was called on it. *)
Lemma reg_put_neq : forall d m i o j, i <> j -> registered (put d m i o) j = registered d j.
Proof. intros. unfold registered. rewrite at_put_neq by auto. reflexivity. Qed.
Lemma reg_remove : forall d i j, registered (RemoveDaeId d i) j = true -> registered d j = true.
Proof.
  intros d i j. unfold RemoveDaeId. destruct (object_at d i) as [o|] eqn:Ho; auto.
  destruct (unique o) eqn:U; auto. destruct (Nat.eq_dec i j) as [->|]; [|rewrite reg_put_neq; auto].
  unfold registered. rewrite at_put by congruence. rewrite Nat.eqb_refl. cbn. discriminate.
Qed.
Lemma reg_call : forall d c j, registered (do_call d c) j = true ->
  registered d j = true \/ c = Get j \/ exists id, c = Set_ j id.
Proof.
  intros d c j H. destruct c as [s|i|i id|i|i k|i]; cbn [do_call] in H.
  - left. unfold registered, object_at, NewObject in *. cbn in H.
    destruct (Nat.lt_ge_cases j (length (objects d))).
    + rewrite nth_error_app1 in H by auto. exact H.
    + rewrite nth_error_app2 in H by auto.
      destruct (j - length (objects d))%nat as [|[|x]]; cbn in H; discriminate.
  - destruct (Nat.eq_dec i j) as [->|N]; [auto|]. left. unfold GetDaeId in H.
    destruct (object_at d i) as [o|] eqn:Ho; auto. destruct (unique o); auto.
    destruct (insert _ _) in H. cbn in H. rewrite reg_put_neq in H; auto.
  - destruct (Nat.eq_dec i j) as [->|N]; [eauto|]. left. unfold SetDaeId in H.
    destruct (object_at (RemoveDaeId d i) i); [|eapply reg_remove; eauto].
    destruct (insert _ _) in H. rewrite reg_put_neq in H by auto. eapply reg_remove; eauto.
  - left. eapply reg_remove; eauto.
  - left. unfold CloneObject in H. destruct (object_at d i) as [src|] eqn:Hi; auto.
    destruct (object_at d k) as [dst|] eqn:Hk; auto. apply reg_remove in H.
    destruct (Nat.eq_dec k j) as [->|N]; [|rewrite reg_put_neq in H; auto].
    unfold registered in H. rewrite at_put in H by congruence. rewrite Nat.eqb_refl in H. cbn in H.
    unfold registered. rewrite Hk. exact H.
  - left. unfold ReleaseObject in H. destruct (object_at (RemoveDaeId d i) i) as [o|] eqn:Ho; [|eapply reg_remove; eauto].
    destruct (Nat.eq_dec i j) as [->|N].
    + unfold registered in H. rewrite at_put in H by congruence. rewrite Nat.eqb_refl in H. cbn in H. discriminate.
    + rewrite reg_put_neq in H by auto. eapply reg_remove; eauto.
Qed.
Lemma reg_calls : forall h d j, registered (calls d h) j = true ->
  registered d j = true \/ In (Get j) h \/ exists id, In (Set_ j id) h.
Proof.
  induction h as [|c h IH]; intros d j H; [auto|]. cbn in H. apply IH in H. cbn.
  destruct H as [H|[H|(id & H)]]; [|auto|eauto].
  apply reg_call in H. destruct H as [H|[->|(id & ->)]]; eauto.
Qed.

Lemma calls_app : forall h1 h2 d, calls d (h1 ++ h2) = calls (calls d h1) h2.
Proof. intros. unfold calls. apply fold_left_app. Qed.

Lemma calls_ok : forall h b d, ids_ok b d -> 1 <= b -> Forall (call_modest b) h ->
  b + Z.of_nat (length h) < NO_SUFFIX ->
  (forall h1 c h2, h = h1 ++ c :: h2 -> call_fresh (calls d h1) c) ->
  ids_ok (b + Z.of_nat (length h)) (calls d h).
Proof.
  induction h as [|c h IH]; intros b d H Hb Hm Hl Hf; cbn [calls fold_left length].
  - rewrite Z.add_0_r. auto.
  - inversion Hm as [|? ? M1 M2]; subst. cbn [length] in Hl. rewrite Nat2Z.inj_succ in *.
    replace (b + Z.succ (Z.of_nat (length h))) with (b + 1 + Z.of_nat (length h)) by lia.
    apply IH; [|lia| |lia|].
    + apply call_ok; auto; [lia|]. exact (Hf [] c h eq_refl).
    + eapply Forall_impl; [|exact M2]. intros [] X; cbn in *; auto; eapply modest_le; [exact X|lia|exact X|lia].
    + intros h1 c' h2 E. subst h. exact (Hf (c :: h1) c' h2 eq_refl).
Qed.

(** *** Stability *)
Definition untouched (i : nat) (c : call) : Prop :=
  match c with
  | Set_ j _ | Remove j | Release j => j <> i
  | Clone j k => j <> i /\ k <> i
  | _ => True
  end.

Lemma at_remove_neq : forall d i j, i <> j -> object_at (RemoveDaeId d i) j = object_at d j.
Proof.
  intros d i j H. unfold RemoveDaeId. destruct (object_at d i) as [o|]; auto.
  destruct (unique o); auto. apply at_put_neq; auto.
Qed.

Lemma call_keeps : forall d c i o, object_at d i = Some o -> unique o = true -> untouched i c ->
  object_at (do_call d c) i = Some o.
Proof.
  intros d c i o Ho Hu Hc. destruct c as [s|k|k id|k|k j|k]; cbn [do_call untouched] in *.
  - unfold object_at, NewObject in *. cbn. destruct (nth_error (objects d) i) as [x|] eqn:E; [|discriminate].
    rewrite nth_error_app1 by (apply nth_error_Some; congruence). rewrite E. exact Ho.
  - unfold GetDaeId. destruct (Nat.eq_dec k i) as [->|N].
    + rewrite Ho, Hu. cbn. exact Ho.
    + destruct (object_at d k) as [p|]; auto. destruct (unique p); auto.
      destruct (insert _ _). cbn. rewrite at_put_neq; auto.
  - unfold SetDaeId. destruct (object_at (RemoveDaeId d k) k); [|rewrite at_remove_neq; auto].
    destruct (insert _ _). rewrite at_put_neq, at_remove_neq; auto.
  - rewrite at_remove_neq; auto.
  - destruct Hc as [H1 H2]. unfold CloneObject. destruct (object_at d k); auto. destruct (object_at d j); auto.
    rewrite at_remove_neq, at_put_neq; auto.
  - unfold ReleaseObject. destruct (object_at (RemoveDaeId d k) k); [|rewrite at_remove_neq; auto].
    rewrite at_put_neq, at_remove_neq; auto.
Qed.

Lemma get_registers : forall d i a d1, GetDaeId d i = (Some a, d1) ->
  object_at d1 i = Some {| daeId := a; unique := true; alive := true |}.
Proof.
  intros d i a d1. unfold GetDaeId. destruct (object_at d i) as [o|] eqn:Ho; [|discriminate].
  pose proof (at_alive _ _ _ Ho) as Ha.
  destruct (unique o) eqn:Hu.
  - intro E. injection E as <- <-. rewrite Ho. destruct o; cbn in *; subst; reflexivity.
  - destruct (insert _ _). intro E. injection E as <- <-. apply at_put_eq; [congruence|reflexivity].
Qed.

Lemma calls_keep : forall h d i o, object_at d i = Some o -> unique o = true ->
  Forall (untouched i) h -> object_at (calls d h) i = Some o.
Proof.
  induction h as [|c h IH]; intros d i o Ho Hu Hc; cbn; auto.
  inversion Hc; subst. apply IH; auto. apply call_keeps; auto.
Qed.
