(** Reading the elements of a camera. *)
From Coq Require Import String List ZArith QArith Bool Lia.
From Verif Require Import TextModel TextSpec StringModel StringProofs XmlModel FloatModel FloatSpec FloatProofs FloatProps DaeModel DaeSpec DaeProofs ExtraModel RigSpec CustomModel CustomSpec CustomProofs CustomNoteProofs LampModel LampSpec LampProofs LampWriteProofs.
Import ListNotations.
Local Open Scope list_scope.

Inductive group := GX | GY | GA | GN | GF | GO.
Definition group_of (k : str) : group :=
  if text_eq k (tx "xfov") || text_eq k (tx "xmag") then GX else if text_eq k (tx "yfov") || text_eq k (tx "ymag") then GY
  else if text_eq k (tx "aspect_ratio") then GA else if text_eq k (tx "znear") then GN else if text_eq k (tx "zfar") then GF else GO.
Definition group_eq (g h : group) : bool := match g, h with GX, GX | GY, GY | GA, GA | GN, GN | GF, GF | GO, GO => true | _, _ => false end.
Lemma group_eq_iff g h : group_eq g h = true <-> g = h. Proof. destruct g, h; cbn; split; congruence. Qed.
Lemma group_eq_not g h : group_eq g h = false <-> g <> h. Proof. destruct g, h; cbn; split; congruence. Qed.
Definition words (g : group) : list str :=
  match g with GX => [tx "xfov"; tx "xmag"] | GY => [tx "yfov"; tx "ymag"] | GA => [tx "aspect_ratio"] | GN => [tx "znear"] | GF => [tx "zfar"] | GO => [] end.
Lemma group_words g k : g <> GO -> (group_of k = g <-> In k (words g)).
Proof.
  intro Hg. split.
  - unfold group_of. intro E.
    repeat match type of E with context [text_eq k ?w] => let H := fresh in destruct (text_eq k w) eqn:H; cbn [orb] in E; [apply eq_text_iff in H; subst; cbn; auto; fail|] end.
    congruence.
  - destruct g; [..|congruence]; cbn [words In]; intuition; subst; vm_compute; reflexivity.
Qed.
Definition set_group (g : group) : Q -> camera -> camera :=
  match g with GX => SetFovX | GY => SetFovY | GA => SetAspectRatio | GN => SetNearZ | GF => SetFarZ | GO => fun _ c => c end.
Definition camera_step (a : arith) (c : camera) (p : str * str) : option camera :=
  match group_of (fst p) with
  | GO => Some c
  | g => match ToFloat a (snd p) with Some (v, _) => Some (set_group g v c) | None => None end
  end.
Lemma camera_pairs a x c p attrs ch : c = Elem (fst p) attrs ch -> ReadNodeContentDirect c = snd p -> LoadCameraParameter a x c = camera_step a x p.
Proof.
  intros -> E. unfold LoadCameraParameter, camera_step, group_of. rewrite E. destruct p as [k t]. cbn [fst snd named find].
  destruct (text_eq k (tx "znear")) eqn:E1; [apply eq_text_iff in E1; subst k; reflexivity|].
  destruct (text_eq k (tx "zfar")) eqn:E2; [apply eq_text_iff in E2; subst k; reflexivity|].
  destruct (text_eq k (tx "xfov")) eqn:E3; [apply eq_text_iff in E3; subst k; reflexivity|].
  destruct (text_eq k (tx "yfov")) eqn:E4; [apply eq_text_iff in E4; subst k; reflexivity|].
  destruct (text_eq k (tx "xmag")) eqn:E5; [apply eq_text_iff in E5; subst k; reflexivity|].
  destruct (text_eq k (tx "ymag")) eqn:E6; [apply eq_text_iff in E6; subst k; reflexivity|].
  destruct (text_eq k (tx "aspect_ratio")) eqn:E7; [apply eq_text_iff in E7; subst k; reflexivity|]. reflexivity.
Qed.
Definition in_group (g : group) (p : str * str) : bool := group_eq (group_of (fst p)) g.
(** One step: nothing, or one of the setters with the number. *)
Lemma step_form a c p c' : camera_step a c p = Some c' ->
  group_of (fst p) = GO /\ c' = c \/ exists v rest, ToFloat a (snd p) = Some (v, rest) /\ c' = set_group (group_of (fst p)) v c.
Proof.
  unfold camera_step. destruct (group_of (fst p)); try (destruct (ToFloat a (snd p)) as [[v rest]|]; [|discriminate]; intro H; injection H as <-; right; eauto; fail).
  intro H. injection H as <-. auto.
Qed.
Definition number_read (a : arith) (p : str * str) (q : Q) : Prop := exists rest, ToFloat a (snd p) = Some (q, rest).
Lemma near_hit a x b y : camera_step a x b = Some y -> in_group GN b = true -> number_read a b (nearZ y).
Proof. intros H G. apply group_eq_iff in G. destruct (step_form _ _ _ _ H) as [(X & _)|(v & rest & E & ->)]; [congruence|]. rewrite G. exists rest. exact E. Qed.
Lemma near_miss a x b y : camera_step a x b = Some y -> in_group GN b = false -> nearZ y = nearZ x.
Proof. intros H G. apply group_eq_not in G. destruct (step_form _ _ _ _ H) as [(X & ->)|(v & rest & E & ->)]; [reflexivity|]. destruct (group_of (fst b)); congruence || reflexivity. Qed.
Lemma far_hit a x b y : camera_step a x b = Some y -> in_group GF b = true -> number_read a b (farZ y).
Proof. intros H G. apply group_eq_iff in G. destruct (step_form _ _ _ _ H) as [(X & _)|(v & rest & E & ->)]; [congruence|]. rewrite G. exists rest. exact E. Qed.
Lemma far_miss a x b y : camera_step a x b = Some y -> in_group GF b = false -> farZ y = farZ x.
Proof. intros H G. apply group_eq_not in G. destruct (step_form _ _ _ _ H) as [(X & ->)|(v & rest & E & ->)]; [reflexivity|]. destruct (group_of (fst b)); congruence || reflexivity. Qed.
Lemma x_hit a x b y : camera_step a x b = Some y -> in_group GX b = true -> number_read a b (viewX y) /\ hasX y = true.
Proof. intros H G. apply group_eq_iff in G. destruct (step_form _ _ _ _ H) as [(X & _)|(v & rest & E & ->)]; [congruence|]. rewrite G. split; [exists rest; exact E|reflexivity]. Qed.
Lemma x_miss a x b y : camera_step a x b = Some y -> in_group GX b = false -> (viewX y, hasX y) = (viewX x, hasX x).
Proof. intros H G. apply group_eq_not in G. destruct (step_form _ _ _ _ H) as [(X & ->)|(v & rest & E & ->)]; [reflexivity|]. destruct (group_of (fst b)); congruence || reflexivity. Qed.
Lemma y_hit a x b y : camera_step a x b = Some y -> in_group GY b = true -> number_read a b (viewY y) /\ hasY y = true.
Proof. intros H G. apply group_eq_iff in G. destruct (step_form _ _ _ _ H) as [(X & _)|(v & rest & E & ->)]; [congruence|]. rewrite G. split; [exists rest; exact E|reflexivity]. Qed.
Lemma y_miss a x b y : camera_step a x b = Some y -> in_group GY b = false -> (viewY y, hasY y) = (viewY x, hasY x).
Proof. intros H G. apply group_eq_not in G. destruct (step_form _ _ _ _ H) as [(X & ->)|(v & rest & E & ->)]; [reflexivity|]. destruct (group_of (fst b)); congruence || reflexivity. Qed.
Lemma proj_same a x b y : camera_step a x b = Some y -> proj y = proj x.
Proof. intros H. destruct (step_form _ _ _ _ H) as [(X & ->)|(v & rest & E & ->)]; [reflexivity|]. destruct (group_of (fst b)); reflexivity. Qed.
Lemma none_in_group g s : g <> GO -> none_among s (words g) -> forall b, In b s -> in_group g b = false.
Proof. intros Hg H b Hb. apply group_eq_not. intro E. apply (group_words g _ Hg) in E. exact (H _ E (in_map fst _ _ Hb)). Qed.
Lemma step_total a s : (forall k t, In k camera_words -> In (k, t) s -> exists q, one_number t q) -> forall x p, In p s -> exists y, camera_step a x p = Some y.
Proof.
  intros H x [k t] Hp. unfold camera_step. cbn [fst snd].
  assert (G : group_of k <> GO -> exists q rest, ToFloat a t = Some (q, rest)).
  { intro N. assert (W : In k (words (group_of k))) by (now apply group_words).
    destruct (H k t) as (q & Hq); [unfold camera_words, view_words; revert W; destruct (group_of k); cbn; tauto|exact Hp|].
    destruct (read_one a t q Hq) as (r & rest & E & _). eauto. }
  destruct (group_of k) eqn:E; try (destruct G as (q & rest & ->); [congruence|eauto]). eauto.
Qed.
(** Which group a part of the list has. *)
Lemma split_fold a before b after x y : fold_option (camera_step a) (before ++ b :: after) (Some x) = Some y ->
  exists c0 c1, fold_option (camera_step a) before (Some x) = Some c0 /\ camera_step a c0 b = Some c1 /\ fold_option (camera_step a) after (Some c1) = Some y.
Proof.
  unfold fold_option. rewrite fold_left_app. cbn [fold_left].
  destruct (fold_left _ before (Some x)) as [c0|]; [|intro H; exfalso; revert H; induction after; cbn; [discriminate|assumption]].
  destruct (camera_step a c0 b) as [c1|] eqn:E; [|intro H; exfalso; revert H; clear; induction after; cbn; [discriminate|assumption]]. eauto 6.
Qed.
(** Where no element is of a view or an aspect ratio. *)
Lemma aspect_still a s : (forall b, In b s -> group_of (fst b) <> GX /\ group_of (fst b) <> GY /\ group_of (fst b) <> GA) -> forall x y, fold_option (camera_step a) s (Some x) = Some y ->
  aspect y = aspect x.
Proof.
  intros H. induction s as [|b s IH]; intros x y E; [injection E as ->; reflexivity|]. rewrite fold_cons in E. destruct (camera_step a x b) as [z|] eqn:Ez; [|rewrite fold_none in E; discriminate].
  rewrite (IH (fun b Hb => H b (or_intror Hb)) z y E). destruct (H b (or_introl eq_refl)) as (N1 & N2 & N3).
  destruct (step_form _ _ _ _ Ez) as [(_ & ->)|(v & rest & _ & ->)]; [reflexivity|]. destruct (group_of (fst b)); congruence || reflexivity.
Qed.
(** Where one of the views never comes. *)
Lemma aspect_one_view a g s : g = GX \/ g = GY -> (forall b, In b s -> group_of (fst b) <> g /\ group_of (fst b) <> GA) -> forall x y,
  (if group_eq g GX then hasX x else hasY x) = false -> fold_option (camera_step a) s (Some x) = Some y ->
  aspect y = aspect x /\ (if group_eq g GX then hasX y else hasY y) = false.
Proof.
  intros Hg H. induction s as [|b s IH]; intros x y F E; [injection E as ->; auto|]. rewrite fold_cons in E. destruct (camera_step a x b) as [z|] eqn:Ez; [|rewrite fold_none in E; discriminate].
  destruct (H b (or_introl eq_refl)) as (N1 & N3). assert (S : aspect z = aspect x /\ (if group_eq g GX then hasX z else hasY z) = false).
  { destruct (step_form _ _ _ _ Ez) as [(_ & ->)|(v & rest & _ & ->)]; [auto|].
    destruct Hg as [-> | ->]; cbn [group_eq] in *; destruct (group_of (fst b)); try congruence; cbn [set_group SetFovX SetFovY SetNearZ SetFarZ aspect hasX hasY]; rewrite ?F; auto. }
  destruct S as (S1 & S2). destruct (IH (fun b Hb => H b (or_intror Hb)) z y S2 E) as (T1 & T2). rewrite T1. auto.
Qed.
Lemma flag_of a s x y : fold_option (camera_step a) s (Some x) = Some y ->
  (hasX y = true <-> hasX x = true \/ exists b, In b s /\ in_group GX b = true) /\ (hasY y = true <-> hasY x = true \/ exists b, In b s /\ in_group GY b = true).
Proof.
  revert x. induction s as [|b s IH]; intros x E; [injection E as ->; split; split; auto; intros [H|(b & [] & _)]; exact H|].
  rewrite fold_cons in E. destruct (camera_step a x b) as [z|] eqn:Ez; [|rewrite fold_none in E; discriminate]. destruct (IH z E) as (X & Y). split.
  - rewrite X. destruct (in_group GX b) eqn:G.
    + destruct (x_hit a x b z Ez G) as (_ & ->). split; [intros _|auto]. right. exists b. split; [left; reflexivity|exact G].
    + assert (M := x_miss a x b z Ez G). injection M as _ ->. split; (intros [H|(d & Hd & G')]; [auto|]); right; exists d; (split; [|exact G']); [right; exact Hd|].
      destruct Hd as [<-|Hd]; [congruence|exact Hd].
  - rewrite Y. destruct (in_group GY b) eqn:G.
    + destruct (y_hit a x b z Ez G) as (_ & ->). split; [intros _|auto]. right. exists b. split; [left; reflexivity|exact G].
    + assert (M := y_miss a x b z Ez G). injection M as _ ->. split; (intros [H|(d & Hd & G')]; [auto|]); right; exists d; (split; [|exact G']); [right; exact Hd|].
      destruct Hd as [<-|Hd]; [congruence|exact Hd].
Qed.
Lemma still_views a s x y : (forall b, In b s -> group_of (fst b) <> GX /\ group_of (fst b) <> GY) -> fold_option (camera_step a) s (Some x) = Some y ->
  viewX y = viewX x /\ viewY y = viewY x.
Proof.
  intros H E.
  destruct (fold_last (camera_step a) (fun c => (viewX c, hasX c)) (in_group GX) (fun b o => True) (fun _ _ _ _ _ => I) (x_miss a) s x y E) as (_ & X).
  destruct (fold_last (camera_step a) (fun c => (viewY c, hasY c)) (in_group GY) (fun b o => True) (fun _ _ _ _ _ => I) (y_miss a) s x y E) as (_ & Y).
  assert (X' := X (fun b Hb => proj2 (group_eq_not _ _) (proj1 (H b Hb)))). assert (Y' := Y (fun b Hb => proj2 (group_eq_not _ _) (proj2 (H b Hb)))).
  injection X' as -> _. injection Y' as -> _. auto.
Qed.
