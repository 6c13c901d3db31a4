(** Loading a light or camera does not fail. *)
From Coq Require Import String List ZArith QArith Bool Lia.
From Verif Require Import TextModel TextSpec StringModel StringProofs XmlModel FloatModel FloatSpec FloatProofs FloatProps DaeModel DaeSpec DaeProofs ExtraModel NodeSpec NodeSafeProofs CustomModel CustomSpec CustomProofs CustomNoteProofs LampModel LampSpec LampProofs.
Import ListNotations.
Local Open Scope list_scope.

Definition has_default (e : extra) : Prop := exists ts, find default_type e = Some ([], ts).
Lemma then_default f (e : extra) e' : (forall ts, fst (f ([], ts)) = []) -> default_then f e = Some e' -> has_default e'.
Proof.
  intros Hf H. destruct (default_find _ _ _ H) as (b & ts & c & _ & N & -> & _). specialize (Hf ts). destruct (f ([], ts)) as [n us]. cbn in Hf. subst n. exists us. now apply find_middle.
Qed.
Lemma first_found (t : etype) r : fst t = [] -> find default_type (t :: r) = Some ([], snd t).
Proof. destruct t as [n us]. cbn [fst snd find]. intros ->. reflexivity. Qed.
Lemma first_skipped (t : etype) r : fst t <> [] -> find default_type (t :: r) = find default_type r.
Proof. destruct t as [n us]. cbn [fst find]. intro N. unfold default_type at 1. cbn [fst]. destruct (str_eq_dec n []); [contradiction|reflexivity]. Qed.
Lemma add_default k f (e : extra) : (forall t, fst (f t) = fst t) -> has_default e -> has_default (AddType_then k f e).
Proof.
  intros Hf (ts & H). unfold has_default, AddType_then. induction e as [|t r IH]; [discriminate|]. rewrite ?add_then_cons.
  destruct (str_eq_dec (fst t) k) as [E|M].
  - destruct (str_eq_dec (fst t) []) as [E0|N]; [eexists; apply first_found; now rewrite Hf|]. exists ts. rewrite first_skipped in * by (rewrite ?Hf; exact N). exact H.
  - destruct (str_eq_dec (fst t) []) as [E0|N]; [eexists; now apply first_found|]. rewrite first_skipped in * by exact N. exact (IH H).
Qed.
Lemma extra_default n e : has_default e -> exists e', LoadExtra n e = Some e' /\ has_default e'.
Proof.
  intros H. unfold LoadExtra. destruct (named n "extra"); [eexists; split; [reflexivity|]; now apply add_default|]. destruct H as (ts & H).
  destruct (find_then (LoadExtraType n) e ts H) as (e' & E). exists e'. split; [exact E|]. eapply then_default; [|exact E]. reflexivity.
Qed.
Lemma note_default e note : has_default e -> exists e' note', ExtractNote e note = Some (e', note') /\ has_default e'.
Proof.
  intros (ts & H). unfold ExtractNote. destruct (find_then (fun t => t) e ts H) as (e0 & ->).
  match goal with |- context [find ?g e] => change (find g e) with (find default_type e) end. rewrite H.
  destruct (take_notes_of (tx "MAYA") ts note) as [t1 n1]. destruct (take_notes_of (tx "MAX3D") t1 n1) as [t2 n2]. destruct (take_notes_of (tx "FCOLLADA") t2 n2) as [t3 n3].
  destruct (find_then (fun t => (fst t, t3)) e ts H) as (e' & E). rewrite E. cbn [option_map]. do 2 eexists. split; [reflexivity|]. eapply then_default; [|exact E]. reflexivity.
Qed.
Lemma entity_total n : exists e note target, LoadTargetedEntity n = Some (e, note, target).
Proof.
  unfold LoadTargetedEntity.
  assert (L : exists e note, LoadEntityExtra (children_of n) new_extra [] = Some (e, note) /\ has_default e).
  { cut (forall l e note, has_default e -> exists e' note', fold_left (fun r n => match r with
          | Some (e, note) => match LoadExtra n e with Some e' => ExtractNote e' note | None => None end | None => None end) l (Some (e, note)) = Some (e', note') /\ has_default e').
    { intro G. apply (G (filter (fun n => named n "extra") (children_of n)) new_extra []). exists []. reflexivity. }
    induction l as [|c l IH]; intros e note D; cbn [fold_left]; [eauto|].
    destruct (extra_default c e D) as (e1 & -> & D1). destruct (note_default e1 note D1) as (e2 & n2 & -> & D2). now apply IH. }
  destruct L as (e & note & -> & ts & H). destruct (find_then (LoadExtraType n) e ts H) as (e1 & E). rewrite E.
  destruct (then_default (LoadExtraType n) e e1 (fun _ => eq_refl) E) as (us & F).
  match goal with |- context [find ?g e1] => change (find g e1) with (find default_type e1) end. rewrite F.
  destruct (take_root (tx "target") us) as [[v ts']|]; [|eauto]. destruct (find_then (fun t => (fst t, ts')) e1 us F) as (e2 & ->). cbn. eauto.
Qed.
(** The texts. *)
Lemma calm_content c : calm c -> ~ In 73%Z (ReadNodeContentDirect c).
Proof.
  intro H. unfold ReadNodeContentDirect. destruct c as [n a ch|t]; cbn [children_of]; [|intros []]. inversion H as [|? ? ? F]; subst.
  destruct ch as [|[? ? ?|t] ch]; try (intros []). apply Forall_inv in F. now inversion F.
Qed.
Lemma calm_children c d : calm c -> In d (children_of c) -> calm d.
Proof. intros H Hd. destruct H as [|n a ch F]; [destruct Hd|]. rewrite Forall_forall in F. now apply F. Qed.
Lemma float_safe t : ~ In 73%Z t -> exists q s, ToFloat Wrapping t = Some (q, s).
Proof. intro H. destruct t as [|c t]; [cbn; eauto|]. destruct (C78_safe (c :: t) H) as (q & s & E & _); [discriminate|eauto]. Qed.
Lemma vector_safe t : ~ In 73%Z t -> exists v s, ToVector3 Wrapping t = Some (v, s).
Proof.
  intro H. unfold ToVector3. destruct t as [|c t]; [eauto|]. destruct (floats_safe 3 _ H) as (l & s & E). rewrite E.
  assert (List.length l = 3%nat). { clear -E. revert E. generalize (c :: t) as u. assert (G : forall n u l s, ToFloats Wrapping n u = Some (l, s) -> List.length l = n).
    { induction n as [|n IH]; intros u l0 s0 E; cbn [ToFloats] in E; [now injection E as <- _|]. destruct (ToFloat Wrapping u) as [[q u1]|]; [|discriminate].
      destruct (ToFloats Wrapping n u1) as [[l1 s1]|] eqn:E1; [|discriminate]. injection E as <- _. cbn. f_equal. eauto. }
    intros u E. eauto. }
  destruct l as [|x [|y [|z [|]]]]; try discriminate. eauto.
Qed.
Lemma common_safe l n : calm n -> exists l', LoadCommon Wrapping l n = Some l'.
Proof.
  intro H. apply calm_content in H. unfold LoadCommon. destruct (named n "color"); [destruct (vector_safe _ H) as (v & s & ->); eauto|].
  destruct (find _ _); [|eauto]. destruct (float_safe _ H) as (q & s & ->). eauto.
Qed.
Lemma parameter_safe x p : ~ In 73%Z (snd p) -> exists y, LoadParameter Wrapping x p = Some y.
Proof.
  destruct p as [k t]. cbn [snd]. intro H. unfold LoadParameter. cbn [fst snd]. destruct (field_of k); [destruct (float_safe _ H) as (q & s & ->); eauto|]. destruct (text_eq _ _); eauto.
Qed.
Lemma camera_safe c n : calm n -> exists c', LoadCameraParameter Wrapping c n = Some c'.
Proof.
  intro H. apply calm_content in H. unfold LoadCameraParameter. destruct (find _ _) as [[k set]|]; [|eauto]. destruct (float_safe _ H) as (q & s & ->). eauto.
Qed.
Lemma parameters_calm p c : calm p -> In c (FindParameters p) -> calm c.
Proof. intros H Hc. unfold FindParameters in Hc. apply filter_In in Hc. eapply calm_children; [exact H|apply Hc]. Qed.
Lemma find_kind_in l k p : find_kind l = Some (k, p) -> In p l.
Proof.
  induction l as [|c l IH]; cbn [find_kind]; [discriminate|]. repeat (destruct (named c _); [intro H; injection H as _ <-; left; reflexivity|]). intro H. right. auto.
Qed.
Lemma penumbra_text a tree l1 l2 t : fold_option (LoadParameter a) tree (Some (l1, None)) = Some (l2, Some t) -> exists k, In (k, t) tree.
Proof.
  unfold fold_option.
  assert (G : forall tree l1 o l2 t, fold_left (fun r b => match r with Some x => LoadParameter a x b | None => None end) tree (Some (l1, o)) = Some (l2, Some t) -> o = Some t \/ exists k, In (k, t) tree).
  { induction tree0 as [|[k u] r IH]; intros m1 o m2 v E; cbn [fold_left] in E; [injection E as _ ->; auto|].
    destruct (LoadParameter a (m1, o) (k, u)) as [[m3 o3]|] eqn:E3; [|exfalso; revert E; clear; induction r; cbn; [discriminate|assumption]].
    destruct (IH _ _ _ _ E) as [->|(k' & H)]; [|right; exists k'; right; exact H]. unfold LoadParameter in E3. cbn [fst snd] in E3.
    destruct (field_of k); [destruct (ToFloat a u) as [[q s]|]; [injection E3 as _ <-; auto|discriminate]|].
    destruct (text_eq k _); injection E3 as _ E3; [right; exists k; left; congruence|auto]. }
  intro E. destruct (G _ _ _ _ _ E) as [X|X]; [discriminate|exact X].
Qed.
