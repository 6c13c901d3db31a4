(** C83: chains of controllers end.  C84: the targets of a morpher and the influences of a skin fit the base. *)
From Coq Require Import List Arith Lia.
From Verif Require Import ControlModel ControlSpec ControlProofs ControlSteps.
Import ListNotations.

(** *** C83 *)
(** In every document built by calls with existing arguments, as long as no skin that ever had a target is given
    itself or a controller based on it, and a target is set by URI only on a skin that never had one: every call returns, no entity is based on
    itself, and GetBaseGeometry returns the geometry the chain of base targets leads to, or NULL if it leads to none. *)
Theorem C83_chains_partial : forall os, good (fun w o => proper w o /\ forward w o) start os ->
  exists w, run start os = Some w /\ (forall e, ~ based_on w e e) /\
  forall c k, control_of w c = Some k ->
    exists r, GetBaseGeometry w c = Some r /\ forall g, r = Some g <-> exists s, deforms w c g s.
Proof.
  intros os H. destruct (run_Inv os start start_Inv H) as (w & E & HI). exists w. split; auto. split; [intro e; now apply not_self|].
  intros c k Hk. assert (Hc : ent w c <> None) by (apply control_ent in Hk as (y & X); congruence).
  destruct (I_path _ HI c Hc) as (l & r & Hp). exists r. split; [eapply GetBaseGeometry_path; eauto|]. intro g. split.
  - intros ->. destruct (path_end _ _ _ _ Hp) as (s & Hs). exists s. split; auto. eapply path_based; eauto.
  - intros (s & Hd). destruct (deforms_path _ _ _ _ Hd) as (l' & Hq). now destruct (path_unique _ _ _ _ Hp _ _ Hq).
Qed.

(** A morpher of a skin of a mesh, and a skin of that morpher. *)
Definition tower := [NewGeometry true (Mesh (Some 4)); NewController true; CreateSkin 1; OpSetTarget 1 (Some 0);
  NewController true; CreateMorph 2; OpSetBaseTarget 2 (Some 1); NewGeometry false (Mesh (Some 4)); OpAddTarget 2 (Some 3);
  NewController true; CreateSkin 4; OpSetTarget 4 (Some 2)].
Ltac known := repeat match goal with
  | H : step _ _ = Some _ |- _ => vm_compute in H; injection H as <-
  | |- _ /\ _ => split
  | |- forall w', step _ _ = Some w' -> _ => intros ? ?
  end.
Ltac both := repeat match goal with |- _ /\ _ => split end.
Ltac walk := cbn [good]; known; cbn [proper forward settled]; unfold is_skin, is_morph, alive, geometry; both; try exact I;
  try (intros x Ex; injection Ex as <-; cbn; first [discriminate|eexists; reflexivity]);
  try (left; eexists; reflexivity); try (eexists; reflexivity); try (do 2 eexists; reflexivity); try (do 3 eexists; reflexivity);
  try (intros; discriminate); try (match goal with |- forall d : nat, _ => intros d; unfold GetBaseTarget, control_of; cbn; repeat (destruct d as [|d]; cbn; try discriminate) end).
Lemma tower_good : good (fun w o => proper w o /\ forward w o /\ settled w o) start tower.
Proof. unfold tower. walk. Qed.
Lemma good_weaken : forall (p q : world -> op -> Prop) os w, (forall w o, p w o -> q w o) -> good p w os -> good q w os.
Proof. induction os as [|o os IH]; cbn; auto. intros w Hpq (H1 & H2). split; auto. Qed.
(** Reading a file sets targets by URI (FAXControllerImport.cpp:85-87). *)
Definition read := [NewController true; CreateSkin 0; NewGeometry true Empty; OpSetTargetUri 0 1; SetShape 1 (Mesh (Some 3)); OpSetInfluenceCount 0 3].
Example C83_read_demo : good (fun w o => proper w o /\ forward w o) start read /\ exists w, run start read = Some w /\ GetBaseGeometry w 0 = Some (Some 1).
Proof.
  split; [|eexists; split; reflexivity]. unfold read. walk. intro X. inversion X as [? ? Y|? ? ? Y Z]; discriminate.
Qed.
Example C83_demo : good (fun w o => proper w o /\ forward w o) start tower /\
  exists w, run start tower = Some w /\ GetBaseTarget w 4 = Some 2 /\ GetBaseGeometry w 4 = Some (Some 0).
Proof. split; [eapply good_weaken; [|exact tower_good]; cbv beta; tauto|]. eexists. split; [reflexivity|]. split; reflexivity. Qed.

(** SetBaseTarget gives a morpher the base if it leads to a geometry and not to the morpher itself, otherwise none; it
    keeps exactly the targets that are like the new base geometry, and changes nothing else. *)
Theorem C83_base : forall os w c b ts e, good (fun w o => proper w o /\ forward w o) start os -> run start os = Some w ->
  is_morph w c b ts -> alive w e ->
  exists w' b' ts', step w (OpSetBaseTarget c e) = Some w' /\ is_morph w' c b' ts' /\ GetBaseTarget w' c = b' /\
    (forall d, d <> c -> ent w' d = ent w d) /\
    (forall x, b' = Some x <-> e = Some x /\ x <> c /\ ~ based_on w x c /\ exists g s, deforms w x g s) /\
    (forall y, In y ts' <-> In y ts /\ exists x g s t, y = Some x /\ deforms w' c g s /\ shape_of w' x = Some t /\ alike s t).
Proof.
  intros os w c b ts e H E Hk He. destruct (run_Inv os start start_Inv H) as (w0 & E' & HI). rewrite E in E'. injection E' as <-.
  destruct (set_base_exact w c b ts e HI Hk He) as (w' & b' & ts' & H1 & H2 & H3 & H4 & H5). exists w', b', ts'.
  split; auto. split; auto. split; auto. unfold GetBaseTarget, is_morph in *. now rewrite H2.
Qed.
Example C83_base_demo : exists w w', run start tower = Some w /\ is_morph w 2 (Some 1) [Some 3] /\ based_on w 4 2 /\
  step w (OpSetBaseTarget 2 (Some 4)) = Some w' /\ is_morph w' 2 None [].
Proof. do 2 eexists. split; [reflexivity|]. split; [reflexivity|]. split; [apply B_direct; reflexivity|]. split; reflexivity. Qed.

(** SetTarget gives a skin the target if it leads to a geometry and not to the skin itself, with one influence for each
    vertex, and changes nothing else. *)
Theorem C83_target : forall os w c e g s, good (fun w o => proper w o /\ forward w o) start os -> run start os = Some w ->
  is_skin w c -> e <> c -> ~ based_on w e c -> deforms w e g s ->
  exists w' n, step w (OpSetTarget c (Some e)) = Some w' /\ (forall d, d <> c -> ent w' d = ent w d) /\
    GetBaseTarget w' c = Some e /\ control_of w' c = Some (Skin (Some e) (Some e) n) /\ vertices s n.
Proof.
  intros os w c e g s H E Hk Hec Hb Hd. destruct (run_Inv os start start_Inv H) as (w0 & E' & HI). rewrite E in E'. injection E' as <-.
  destruct (set_target_exact w c e g s HI Hk Hec Hb Hd) as (w' & n & H1 & H2 & H3 & H4). exists w', n.
  split; auto. split; auto. split; auto. unfold GetBaseTarget. now rewrite H3.
Qed.
Example C83_target_demo : exists w w', run start tower = Some w /\ is_skin w 4 /\ deforms w 1 0 (Mesh (Some 4)) /\ ~ based_on w 1 4 /\
  step w (OpSetTarget 4 (Some 1)) = Some w' /\ GetBaseTarget w' 4 = Some 1.
Proof.
  do 2 eexists. split; [reflexivity|]. split; [do 3 eexists; reflexivity|]. split; [split; [reflexivity|right; apply B_direct; reflexivity]|].
  split; [|split; reflexivity]. intro X. inversion X as [? ? Y|? ? ? Y Z]; subst; cbn in Y; [discriminate|]. injection Y as <-. inversion Z; subst; discriminate.
Qed.

(** The full claim fails: a skin with a target accepts itself as its target, because SetEntity(NULL) keeps the id and
    the old target is found again; from then on GetBaseGeometry of the skin does not end, whatever the number of
    steps. *)
Theorem C83_self_refuted : ~ forall os w c, good proper start os -> (forall o, In o os -> forall c e, o <> OpSetTargetUri c e) ->
  run start os = Some w -> exists n r, base_loop w n (GetBaseTarget w c) = Some r.
Proof.
  intro H. set (os := [NewGeometry true (Mesh (Some 4)); NewController true; CreateSkin 1; OpSetTarget 1 (Some 0); OpSetTarget 1 (Some 1)]).
  assert (X : exists w, run start os = Some w /\ GetBaseTarget w 1 = Some 1 /\ exists y k, ent w 1 = Some (Item y (Controller k))).
  { eexists. split; [vm_compute; reflexivity|]. split; [reflexivity|]. do 2 eexists. reflexivity. }
  destruct X as (w & E & Hb & y & k & He).
  destruct (H os w 1) as (n & r & Hn); auto.
  - unfold os. walk.
  - intros o Ho c e ->. unfold os in Ho. cbn in Ho. intuition discriminate.
  - rewrite Hb in Hn. clear -Hn Hb He. induction n as [|n IH]; cbn in Hn; rewrite He in Hn; [discriminate|]. rewrite Hb in Hn. auto.
Qed.

(** Nor with targets given by URI: a skin that never had a target is given its own id. *)
Theorem C83_uri_refuted : ~ forall os w c, good (fun w o => proper w o /\ forall c e, o = OpSetTarget c e -> forward w o) start os ->
  run start os = Some w -> exists n r, base_loop w n (GetBaseTarget w c) = Some r.
Proof.
  intro H. set (os := [NewController true; CreateSkin 0; OpSetTargetUri 0 0]).
  assert (X : exists w, run start os = Some w /\ GetBaseTarget w 0 = Some 0 /\ exists y k, ent w 0 = Some (Item y (Controller k))).
  { eexists. split; [vm_compute; reflexivity|]. split; [reflexivity|]. do 2 eexists. reflexivity. }
  destruct X as (w & E & Hb & y & k & He).
  destruct (H os w 0) as (n & r & Hn); auto.
  - unfold os. walk.
  - rewrite Hb in Hn. clear -Hn Hb He. induction n as [|n IH]; cbn in Hn; rewrite He in Hn; [discriminate|]. rewrite Hb in Hn. auto.
Qed.

(** And a target that is in a library is never taken away: SetTarget(NULL) leaves GetTarget as it was, in every
    document in which the skin has it. *)
Theorem C83_clear_refuted : forall os, good (fun w o => proper w o /\ forward w o) start os ->
  forall w c e x n, run start os = Some w -> control_of w c = Some (Skin (Some e) (Some e) n) -> ent w e = Some x -> listed x = true ->
  exists w', SetTarget w c None = Some w' /\ GetBaseTarget w' c = Some e.
Proof.
  intros os H w c e x n E Hk He Hl. unfold SetTarget. rewrite Hk. cbn [actual_base]. eexists. split; [reflexivity|].
  rewrite (put_base _ _ _ _ Hk). cbn. unfold FindEntity. now rewrite He, Hl.
Qed.

(** *** C84 *)
(** If besides no base is changed under other controllers, no used geometry is changed, no number of influences is
    set by hand on a skin with a target and no target is set by URI: every target of a morpher that deforms a geometry is like that geometry,
    and every skin that deforms a geometry has one influence for each of its vertices. *)
Theorem C84_fit_partial : forall os, good (fun w o => proper w o /\ forward w o /\ settled w o) start os ->
  exists w, run start os = Some w /\ forall c g s, deforms w c g s ->
    (forall b ts x, control_of w c = Some (Morph b ts) -> In (Some x) ts -> exists t, shape_of w x = Some t /\ alike s t) /\
    (forall e i n, control_of w c = Some (Skin e i n) -> vertices s n).
Proof.
  intros os H. destruct (run_Fit os start start_Inv start_Fit H) as (w & E & HI & HF). exists w. split; auto.
  intros c g s Hd. destruct (deforms_path _ _ _ _ Hd) as (l & Hp). destruct Hd as (Hs & _). destruct (HF _ _ _ _ Hp Hs) as (F1 & F2). split.
  - intros b ts x Hk Hx. destruct (I_targets _ HI _ _ _ _ Hk Hx) as (t & Ht). exists t. split; auto. specialize (F1 _ _ _ _ Hk Hx Ht).
    destruct s as [[m|]|m|], t as [[p|]|p|]; cbn [similar vertex_count] in F1; try discriminate; try (apply Nat.eqb_eq in F1; subst); eauto using alike.
  - intros e i n Hk. rewrite (F2 _ _ _ Hk). destruct s as [[m|]|m|]; constructor.
Qed.
Example C84_demo : good (fun w o => proper w o /\ forward w o /\ settled w o) start tower /\
  exists w, run start tower = Some w /\ deforms w 2 0 (Mesh (Some 4)) /\ control_of w 2 = Some (Morph (Some 1) [Some 3]) /\
            deforms w 4 0 (Mesh (Some 4)) /\ control_of w 4 = Some (Skin (Some 2) (Some 2) 4).
Proof.
  split; [exact tower_good|]. eexists. split; [reflexivity|].
  split; [split; [reflexivity|right; eapply B_chain; [reflexivity|apply B_direct; reflexivity]]|]. split; [reflexivity|]. split; [|reflexivity].
  split; [reflexivity|]. right. eapply B_chain; [reflexivity|]. eapply B_chain; [reflexivity|]. apply B_direct. reflexivity.
Qed.

(** AddTarget and SetGeometry: a geometry that is like the base geometry, or any if there is no base, becomes the new
    target or takes the place of the target; other geometries change nothing. *)
Theorem C84_targets : forall os w c b ts g, good (fun w o => proper w o /\ forward w o) start os -> run start os = Some w ->
  is_morph w c b ts -> geometry w g ->
  (exists w', step w (OpAddTarget c g) = Some w' /\ (forall d, d <> c -> ent w' d = ent w d) /\
     (welcome w c b g -> is_morph w' c b (ts ++ [g])) /\ (~ welcome w c b g -> w' = w)) /\
  forall i old, nth_error ts i = Some old -> (forall o, old = Some o -> trackers w o <> 1) ->
    exists w', step w (OpSetGeometry c i g) = Some w' /\ (forall d, d <> c -> ent w' d = ent w d) /\
      (welcome w c b g -> is_morph w' c b (firstn i ts ++ g :: skipn (S i) ts)) /\ (~ welcome w c b g -> w' = w).
Proof.
  intros os w c b ts g H E Hk Hg. destruct (run_Inv os start start_Inv H) as (w0 & E' & HI). rewrite E in E'. injection E' as <-. split.
  - now apply add_exact.
  - intros i old Hn Ho. eapply set_geometry_exact; eauto.
Qed.
Definition pair := [NewGeometry true (Spline 3); NewGeometry true (Spline 3); NewController true; CreateMorph 2; OpSetBaseTarget 2 (Some 0); OpAddTarget 2 (Some 1)].
Example C84_targets_demo : exists w w', run start pair = Some w /\ is_morph w 2 (Some 0) [Some 1] /\ trackers w 1 <> 1 /\ welcome w 2 (Some 0) (Some 0) /\
  step w (OpSetGeometry 2 0 (Some 0)) = Some w' /\ is_morph w' 2 (Some 0) [Some 0].
Proof.
  do 2 eexists. split; [reflexivity|]. split; [reflexivity|]. split; [discriminate|]. split; [|split; reflexivity].
  right. exists 0, (Spline 3), 0, (Spline 3). split; [reflexivity|]. split; [reflexivity|]. split; [|constructor]. split; [reflexivity|]. right. apply B_direct. reflexivity.
Qed.

(** The full claim fails when the base of a controller in the middle of a chain is changed: the morpher above it keeps
    its targets. *)
Theorem C84_middle_refuted : ~ forall os w c g s b ts x t, good (fun w o => proper w o /\ forward w o /\ (forall c n, o <> OpSetInfluenceCount c n) /\ forall g s, o <> SetShape g s) start os ->
  run start os = Some w -> deforms w c g s -> control_of w c = Some (Morph b ts) -> In (Some x) ts -> shape_of w x = Some t -> alike s t.
Proof.
  intro H. set (os := [NewGeometry true (Mesh (Some 4)); NewGeometry true (Mesh (Some 5)); NewController true; CreateMorph 2; OpSetBaseTarget 2 (Some 0);
    NewController true; CreateMorph 3; OpSetBaseTarget 3 (Some 2); OpAddTarget 3 (Some 0); OpSetBaseTarget 2 (Some 1)]).
  assert (X : exists w, run start os = Some w /\ deforms w 3 1 (Mesh (Some 5)) /\ control_of w 3 = Some (Morph (Some 2) [Some 0]) /\ shape_of w 0 = Some (Mesh (Some 4))).
  { eexists. split; [vm_compute; reflexivity|]. split; [|split; reflexivity]. split; [reflexivity|]. right. eapply B_chain; [reflexivity|apply B_direct; reflexivity]. }
  destruct X as (w & E & Hd & Hk & Hs).
  assert (A : alike (Mesh (Some 5)) (Mesh (Some 4))).
  { eapply (H os w 3 1); eauto; [|now left]. unfold os. walk. }
  inversion A.
Qed.
(** Nor when the geometry is changed: a skin keeps its influences, a morpher its targets. *)
Theorem C84_mesh_refuted : ~ forall os w c g s e i n, good (fun w o => proper w o /\ forward w o /\ forall c n, o <> OpSetInfluenceCount c n) start os ->
  run start os = Some w -> deforms w c g s -> control_of w c = Some (Skin e i n) -> vertices s n.
Proof.
  intro H. set (os := [NewGeometry true (Mesh (Some 4)); NewController true; CreateSkin 1; OpSetTarget 1 (Some 0); SetShape 0 (Mesh (Some 5))]).
  assert (X : exists w, run start os = Some w /\ deforms w 1 0 (Mesh (Some 5)) /\ control_of w 1 = Some (Skin (Some 0) (Some 0) 4)).
  { eexists. split; [vm_compute; reflexivity|]. split; [|reflexivity]. split; [reflexivity|]. right. apply B_direct. reflexivity. }
  destruct X as (w & E & Hd & Hk).
  assert (A : vertices (Mesh (Some 5)) 4).
  { eapply (H os w 1 0); eauto. unfold os. walk. }
  inversion A.
Qed.
(** And a target that is given the geometry it already has, if that geometry is in no library, releases it and goes
    on with it. *)
Theorem C84_geometry_refuted : forall os w c b ts i g x, good (fun w o => proper w o /\ forward w o) start os -> run start os = Some w ->
  is_morph w c b ts -> nth_error ts i = Some (Some g) -> ent w g = Some x -> listed x = false -> trackers w g = 1 ->
  step w (OpSetGeometry c i (Some g)) = None.
Proof.
  intros os w c b ts i g x H E Hk Hn Hx Hl Ht. unfold is_morph in Hk. cbn [step]. unfold SetGeometry. rewrite Hk, Hn, Ht. cbn [Nat.eqb].
  destruct (control_of (release w g) c) as [[| |b' ts']|]; auto. rewrite release_ent, Nat.eqb_refl. reflexivity.
Qed.
Example C84_geometry_demo : exists w, run start tower = Some w /\ trackers w 3 = 1 /\ step w (OpSetGeometry 2 0 (Some 3)) = None.
Proof. eexists. split; [reflexivity|]. split; reflexivity. Qed.

Print Assumptions C83_chains_partial.
Print Assumptions C83_base.
Print Assumptions C83_target.
Print Assumptions C83_self_refuted.
Print Assumptions C83_uri_refuted.
Print Assumptions C83_clear_refuted.
Print Assumptions C84_fit_partial.
Print Assumptions C84_targets.
Print Assumptions C84_middle_refuted.
Print Assumptions C84_mesh_refuted.
Print Assumptions C84_geometry_refuted.
