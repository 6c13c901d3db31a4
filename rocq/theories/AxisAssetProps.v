(** Theorems about the assets that the change of the up-axis and the unit of a document takes into account, and about doing it
    again. *)
From Coq Require Import List Arith Reals Lra Lia Bool.
From Verif Require Import IdModel MatrixModel MatrixProps QuatModel QuatProps RotModel SceneModel SceneSpec SceneProofs SceneProps TransformModel TransformProps AxisModel AxisSpec AxisProofs AxisNodeProofs AxisSceneProofs AxisWorldProofs AxisEntityProofs AxisProps.
Import ListNotations.
Local Open Scope R_scope.

(** *** C88: the asset in force *)
Lemma standardized fuel d up unit ht d' : StandardizeUpAxisAndLength fuel d up unit ht = Done d' -> In up [XAxis; YAxis; ZAxis] -> FLT_TOLERANCE <= unit ->
  exists ns d1, visited fuel (scene d) (roots d) = Done ns /\ convert_nodes fuel unit (ConvertVector up) ht d ns = Done d1 /\
    d' = Doc (Asset true unit true up) (scene_library d1) (controller_library d1) (geometry_library d1) (camera_library d1) (scene d1) (roots d1) (node_asset d1) (stack d1) (kinds d1)
       (map (convert_controller unit (ConvertVector up) (base d1) (controller_library d1)) (controllers d1))
       (map (convert_geometry_entity unit (ConvertVector up) (base d1) (geometry_library d1)) (geometries d1))
       (map (convert_camera unit (base d1) (camera_library d1)) (cameras d1)).
Proof.
  intros E Hup Hu. unfold StandardizeUpAxisAndLength in E. pose proof tolerance_pos as Tol.
  assert (Eu : wanted_unit (base d) unit = unit).
  { unfold wanted_unit. rewrite IsEquivalent_far by (rewrite Rminus_0_r, Rabs_pos_eq; lra). destruct (Rlt_dec unit 0); [lra|]. reflexivity. }
  assert (Ea : wanted_axis (base d) up = up) by (unfold wanted_axis; now rewrite axis_not_zero).
  rewrite Eu, Ea in E. destruct (visited fuel (scene d) (roots d)) as [ns| |]; try discriminate. destruct (convert_nodes fuel unit (ConvertVector up) ht d ns) as [d1| |] eqn:C; try discriminate.
  injection E as <-. exists ns, d1. auto.
Qed.
(** The loop over the nodes leaves everything else alone, whatever the assets. *)
Lemma pivot_instances_rest t c ht n a : forall l d d' m, pivot_instances t c ht d n a l = (d', m) -> rest d' = rest d.
Proof.
  induction l as [|i l IH]; intros d d' m E; cbn [pivot_instances] in E; [now injection E as <- _|]. destruct i as [b|].
  - destruct a; [destruct (pivot_instances t c ht (set_nodes d (scene d) (node_asset d) (upd (stack d) n (SetPivotTransform t c (ht && b) (stack d n))) (kinds d)) n true l) as [d2 m2] eqn:P |
                 destruct (pivot_instances t c ht (add_pivot d n (Pivoted b) (SetPivotTransform t c (ht && b) [])) n false l) as [d2 m2] eqn:P]; injection E as <- _; apply IH in P; rewrite P; reflexivity.
  - destruct (pivot_instances t c ht d n a l) as [d2 m2] eqn:P. injection E as <- _. now apply IH in P.
Qed.
Lemma convert_node_rest fuel unit t ht d n d' : convert_node fuel unit t ht d n = Done d' -> rest d' = rest d.
Proof.
  unfold convert_node. destruct (node_assets fuel d n) as [l| |]; try discriminate. destruct (GetAssetFunctors unit l (scene_library d)) as [factor current]. intros [= <-]. unfold pivot_node.
  destruct (has_swap (PrepareFunctor t current)); [|reflexivity]. match goal with |- context [pivot_instances ?a ?b ?c ?d ?e ?f ?g] => destruct (pivot_instances a b c d e f g) as [d2 m2] eqn:P end.
  apply pivot_instances_rest in P. unfold rest in *. cbn in *. exact P.
Qed.
Lemma convert_nodes_rest fuel unit t ht : forall l d d', convert_nodes fuel unit t ht d l = Done d' -> rest d' = rest d.
Proof.
  induction l as [|n l IH]; intros d d' E; cbn [convert_nodes] in E; [now injection E as <-|]. destruct (convert_node fuel unit t ht d n) as [d1| |] eqn:C; try discriminate. rewrite (IH _ _ E). eapply convert_node_rest; eauto.
Qed.

(** An entity is converted from the unit and the up-axis that its own asset gives; if it has no asset, from those of the
    document's asset; and if this does not give them, from those of the library's asset.  Its own asset does not give any
    afterwards. *)
Theorem C88_entities_partial : forall fuel d d' up unit handleTargets, In up [XAxis; YAxis; ZAxis] -> FLT_TOLERANCE <= unit ->
  StandardizeUpAxisAndLength fuel d up unit handleTargets = Done d' ->
  Forall2 (fun g g' => forall a, In (upAxis a) [XAxis; YAxis; ZAxis] -> ~ x_and_z (upAxis a) up -> hasUnits a = true -> hasUpAxis a = true -> 0 < unitFactor a ->
             let s := unitFactor a / unit in s = 1 \/ FLT_TOLERANCE <= Rabs (s - 1) ->
             fst g = Some a \/ fst g = None /\ base d = a \/ fst g = None /\ hasUnits (base d) = false /\ hasUpAxis (base d) = false /\ geometry_library d = Some a ->
             (exists t, rotation t /\ TransformVector t (upAxis a) = up /\ geometry_converted t s (snd g) (snd g')) /\ quiet (fst g'))
          (geometries d) (geometries d') /\
  Forall2 (fun c c' => forall a, In (upAxis a) [XAxis; YAxis; ZAxis] -> ~ x_and_z (upAxis a) up -> hasUnits a = true -> hasUpAxis a = true -> 0 < unitFactor a ->
             let s := unitFactor a / unit in s = 1 \/ FLT_TOLERANCE <= Rabs (s - 1) ->
             fst c = Some a \/ fst c = None /\ base d = a \/ fst c = None /\ hasUnits (base d) = false /\ hasUpAxis (base d) = false /\ controller_library d = Some a ->
             (exists t, rotation t /\ TransformVector t (upAxis a) = up /\ controller_converted t s (snd c) (snd c')) /\ (snd c <> Morph -> quiet (fst c')))
          (controllers d) (controllers d') /\
  Forall2 (fun c c' => forall a, hasUnits a = true -> 0 < unitFactor a ->
             let s := unitFactor a / unit in s = 1 \/ FLT_TOLERANCE <= Rabs (s - 1) ->
             fst c = Some a \/ fst c = None /\ base d = a \/ fst c = None /\ hasUnits (base d) = false /\ camera_library d = Some a ->
             snd c' = (fst (snd c) * s, snd (snd c) * s) /\ quiet (fst c'))
          (cameras d) (cameras d').
Proof.
  intros fuel d d' up unit ht Hup Hu E. destruct (standardized _ _ _ _ _ _ E Hup Hu) as (ns & d1 & V & C & ->). pose proof tolerance_pos as Tol.
  apply convert_nodes_rest in C. unfold rest in C. injection C as R1 R2 R3 R4 R5 R6 R7 R8 R9. cbn [geometries controllers cameras]. rewrite R1, R3, R4, R5, R7, R8, R9.
  assert (U : forall a own lib, hasUnits a = true -> 0 < unitFactor a -> own = Some a \/ own = None /\ base d = a \/ own = None /\ hasUnits (base d) = false /\ lib = Some a ->
    fst (GetAssetFunctors unit (entity_assets (base d) own) lib) = unitFactor a / unit).
  { intros a own lib H1 H2 H. unfold GetAssetFunctors, first_unit. cbn [fst].
    assert (F : find hasUnits (entity_assets (base d) own ++ match lib with Some x => [x] | None => [] end) = Some a).
    { destruct H as [->|[(-> & ->)|(-> & Hb & ->)]]; cbn [entity_assets app find]; rewrite ?Hb; cbn [find]; now rewrite H1. }
    rewrite F. unfold SetCurrent. destruct (Rle_dec (unitFactor a) 0); [lra | reflexivity]. }
  assert (X : forall a own lib, hasUpAxis a = true -> own = Some a \/ own = None /\ base d = a \/ own = None /\ hasUpAxis (base d) = false /\ lib = Some a ->
    snd (GetAssetFunctors unit (entity_assets (base d) own) lib) = ConvertVector (upAxis a)).
  { intros a own lib H1 H. unfold GetAssetFunctors, first_axis. cbn [snd].
    assert (F : find hasUpAxis (entity_assets (base d) own ++ match lib with Some x => [x] | None => [] end) = Some a).
    { destruct H as [->|[(-> & ->)|(-> & Hb & ->)]]; cbn [entity_assets app find]; rewrite ?Hb; cbn [find]; now rewrite H1. }
    now rewrite F. }
  assert (Hl : forall s, s = 1 \/ FLT_TOLERANCE <= Rabs (s - 1) -> s = 1 \/ has_length s = true) by (intros s [->|H]; [now left | right; unfold has_length; now rewrite IsEquivalent_far]).
  split; [|split]; apply Forall2_map_self.
  - intros [own g] _. cbv beta. intros a Ia Nx H1 H2 H3 Hs H; set (s := unitFactor a / unit) in *. cbn [fst snd] in *. unfold convert_geometry_entity. cbn [fst snd].
    specialize (U a own (geometry_library d) H1 H3 ltac:(tauto)). specialize (X a own (geometry_library d) H2 ltac:(tauto)). destruct (GetAssetFunctors _ _ _) as [factor current]. cbn [fst snd] in U, X |- *. subst factor current.
    split; [|apply quiet_reset]. exists (turning (PrepareFunctor (ConvertVector up) (ConvertVector (upAxis a)))). split; [apply turning_rotation|]. split; [now apply turning_up|]. apply converted_geometry. now apply Hl.
  - intros [own c] _; cbv beta; intros a Ia Nx H1 H2 H3 Hs H; set (s := unitFactor a / unit) in *. cbn [fst snd] in *. unfold convert_controller. cbn [fst snd].
    specialize (U a own (controller_library d) H1 H3 ltac:(tauto)). specialize (X a own (controller_library d) H2 ltac:(tauto)).
    assert (H0 : s <> 0) by (apply Rgt_not_eq; unfold s, Rdiv; apply Rmult_lt_0_compat; [exact H3 | apply Rinv_0_lt_compat; lra]).
    assert (T := turning_up (upAxis a) up Ia Hup Nx). destruct c as [b j|].
    + destruct (GetAssetFunctors _ _ _) as [factor current]. cbn [fst snd] in U, X |- *. subst factor current. split; [|intros _; apply quiet_reset].
      exists (turning (PrepareFunctor (ConvertVector up) (ConvertVector (upAxis a)))). split; [apply turning_rotation|]. split; [exact T|]. apply converted_skin; [now apply Hl | exact H0].
    + split; [|intro N; now elim N]. exists (turning (PrepareFunctor (ConvertVector up) (ConvertVector (upAxis a)))). split; [apply turning_rotation|]. split; [exact T | exact I].
  - intros [own c] _; cbv beta; intros a H1 H3 Hs H; set (s := unitFactor a / unit) in *. cbn [fst snd] in *. unfold convert_camera. cbn [fst snd]. specialize (U a own (camera_library d) H1 H3 ltac:(tauto)). destruct (GetAssetFunctors _ _ _) as [factor current]. cbn [fst snd] in U |- *. subst factor. fold s.
    split; [|apply quiet_reset]. destruct (has_length s) eqn:Hh; [reflexivity|]. destruct (Hl s Hs) as [-> |]; [|congruence]. destruct c as [x y]. cbn [fst snd]. now rewrite !Rmult_1_r.
Qed.
Print Assumptions C88_entities_partial.
Example C88_demo : let d := Doc (Asset true 1 true YAxis) None None None None no_nodes [] (fun _ => None) (fun _ => []) (fun _ => []) []
    [(Some (Asset true (1 / 100) true ZAxis), Spline [[V3 1 2 3]]); (None, Spline [[V3 1 2 3]])] [] in
  exists d', StandardizeUpAxisAndLength 1 d YAxis 1 false = Done d' /\ FLT_TOLERANCE <= 1 /\ ~ x_and_z ZAxis YAxis /\ FLT_TOLERANCE <= Rabs (1 / 100 / 1 - 1) /\ geometries d' <> geometries d.
Proof.
  intro d. pose proof tolerance_pos as Tol. assert (Q : FLT_TOLERANCE <= Rabs (1 / 100 / 1 - 1)) by (rewrite Rabs_left by lra; unfold FLT_TOLERANCE; lra).
  destruct (StandardizeUpAxisAndLength 1 d YAxis 1 false) as [d'| |] eqn:E; try (unfold StandardizeUpAxisAndLength in E; discriminate E). exists d'. split; [reflexivity|]. split; [lra|].
  assert (N : ~ x_and_z ZAxis YAxis) by (unfold x_and_z; intros [[X _]|[_ X]]; injection X; lra). split; [exact N|]. split; [exact Q|].
  destruct (C88_entities_partial 1 d d' YAxis 1 false) as (G & _); [right; now left | lra | exact E|]. intro Eq. rewrite Eq in G. cbn [geometries d] in G. inversion G as [|? ? ? ? G1 _]; subst.
  destruct (G1 (Asset true (1 / 100) true ZAxis)) as (_ & X & _); [right; right; now left | exact N | reflexivity | reflexivity | cbn; lra | right; exact Q | now left|]. discriminate X.
Qed.
(** Finding: the asset of a parent node is reset before the children are converted (FCDocumentTools.cpp:549), so the unit of a
    node that inherits it from a parent node is not converted. *)
Definition inherit_document : document :=
  Doc (Asset true 1 true YAxis) None None None None (add new6 0 1) [0%nat]
      (fun n => match n with 0%nat => Some (Asset true (1 / 100) false (V3 0 0 0)) | _ => None end)
      (fun n => match n with 1%nat => [(TTranslation (V3 1 0 0), [])] | _ => [] end) (fun _ => []) [] [] [].
Theorem C88_inherited_refuted : ~ forall fuel d d' unit handleTargets n u v, proper d -> (forall x a, node_asset d x = Some a -> hasUpAxis a = false) ->
  upAxis (base d) = YAxis -> hasUpAxis (base d) = true -> FLT_TOLERANCE <= unit -> in_scene d n -> node_unit d n u -> 0 < u -> FLT_TOLERANCE <= Rabs (u / unit - 1) ->
  StandardizeUpAxisAndLength fuel d YAxis unit handleTargets = Done d' -> stack d n = [(TTranslation v, [])] -> stack d' n = [(TTranslation (vscale (u / unit) v), [])].
Proof.
  intro H. pose proof tolerance_pos as Tol. destruct convert_axes as (Cx & Cy & Cz & C0).
  assert (P : proper inherit_document).
  { split; [eapply history_add; [| reflexivity | reflexivity | reflexivity]; repeat constructor|]. split; [repeat constructor; intros []|]. intros r [<-|[]]. split; reflexivity. }
  assert (I1 : in_scene inherit_document 1). { apply in_scene_climb; [now apply proper_sound|]. exists 0%nat. split; [now left|]. econstructor; [reflexivity | constructor]. }
  assert (U : node_unit inherit_document 1 (1 / 100)).
  { eapply unit_parent; [intros a; discriminate | reflexivity|]. change (1 / 100) with (unitFactor (Asset true (1 / 100) false (V3 0 0 0))). now apply unit_own. }
  assert (V : visited 20 (scene inherit_document) (roots inherit_document) = Done [0; 1]%nat) by reflexivity.
  assert (C : exists d1, convert_nodes 20 1 AY false inherit_document [0; 1]%nat = Done d1 /\ stack d1 1%nat = [(TTranslation (V3 1 0 0), [])]).
  { cbn [convert_nodes]. unfold convert_node at 1. replace (node_assets 20 inherit_document 0) with (Done [Asset true (1 / 100) false (V3 0 0 0); Asset true 1 true YAxis]) by reflexivity.
    unfold GetAssetFunctors. cbn [scene_library inherit_document app first_unit first_axis find hasUnits hasUpAxis unitFactor upAxis]. unfold first_axis. cbn [find hasUpAxis upAxis]. rewrite Cy. cbn [PrepareFunctor]. unfold pivot_node at 1. cbn [PrepareFunctor has_swap].
    set (st := upd _ _ _). unfold convert_node. match goal with |- context [node_assets 20 ?x 1] => replace (node_assets 20 x 1) with (Done [Asset false (1 / 100) false (V3 0 0 0); Asset true 1 true YAxis]) by reflexivity end.
    unfold GetAssetFunctors, first_unit, first_axis. cbn [scene_library set_nodes inherit_document app find hasUnits hasUpAxis unitFactor upAxis]. rewrite Cy. cbn [PrepareFunctor].
    unfold pivot_node. cbn [PrepareFunctor has_swap]. eexists. split; [reflexivity|]. cbn [stack set_nodes]. rewrite upd_eq. unfold convert_stack. replace (SetCurrent 1 1) with 1 by (unfold SetCurrent; destruct (Rle_dec 1 0); [lra | field]).
    unfold has_length. rewrite IsEquivalent_refl. cbn [negb orb has_swap]. subst st. reflexivity. }
  destruct C as (d1 & C & St). destruct (StandardizeUpAxisAndLength 20 inherit_document YAxis 1 false) as [d'| |] eqn:E.
  - assert (Q : FLT_TOLERANCE <= Rabs (1 / 100 / 1 - 1)) by (rewrite Rabs_left by lra; unfold FLT_TOLERANCE; lra).
    assert (Nx : forall x a, node_asset inherit_document x = Some a -> hasUpAxis a = false) by (intros [|x] a; [intros [= <-]; reflexivity | discriminate]).
    assert (K := H 20%nat inherit_document d' 1 false 1%nat (1 / 100) (V3 1 0 0) P Nx eq_refl eq_refl ltac:(lra) I1 U ltac:(lra) Q E eq_refl).
    apply standardized in E as (ns & d2 & V2 & C2 & ->); [|right; now left | lra]. rewrite V in V2. injection V2 as <-. rewrite Cy in C2. rewrite C in C2. injection C2 as <-.
    cbn [stack] in K. rewrite K in St. injection St. lra.
  - exfalso. unfold StandardizeUpAxisAndLength in E. rewrite V in E. destruct (convert_nodes _ _ _ _ _ _) eqn:E3 in E; try discriminate E.
    assert (Eu : wanted_unit (base inherit_document) 1 = 1) by (unfold wanted_unit; destruct far_01 as [_ ->]; destruct (Rlt_dec 1 0); [lra | reflexivity]).
    assert (Ea : wanted_axis (base inherit_document) YAxis = YAxis) by (unfold wanted_axis; rewrite axis_not_zero by (right; now left); reflexivity).
    rewrite Eu, Ea, Cy, C in E3. discriminate.
  - exfalso. unfold StandardizeUpAxisAndLength in E. rewrite V in E. destruct (convert_nodes _ _ _ _ _ _) eqn:E3 in E; try discriminate E.
    assert (Eu : wanted_unit (base inherit_document) 1 = 1) by (unfold wanted_unit; destruct far_01 as [_ ->]; destruct (Rlt_dec 1 0); [lra | reflexivity]).
    assert (Ea : wanted_axis (base inherit_document) YAxis = YAxis) by (unfold wanted_axis; rewrite axis_not_zero by (right; now left); reflexivity).
    rewrite Eu, Ea, Cy, C in E3. discriminate.
Qed.
Print Assumptions C88_inherited_refuted.
(** Finding: the asset of a library comes after the asset of the document (FCDocumentTools.cpp:237-238), and an entity with an
    asset that gives no unit is not converted at all (FCDEntity.cpp:104-108). *)
Definition camera_document (b : asset) (library own : option asset) : document :=
  Doc b None None None library no_nodes [] (fun _ => None) (fun _ => []) (fun _ => []) [] [] [(own, (1, 1))].
Lemma camera_document_result u0 library own d' : StandardizeUpAxisAndLength 1 (camera_document (Asset true u0 true YAxis) library own) YAxis 1 false = Done d' ->
  cameras d' = [convert_camera 1 (Asset true u0 true YAxis) library (own, (1, 1))].
Proof.
  intro E. pose proof tolerance_pos as Tol. apply standardized in E as (ns & d1 & V & C & ->); [|right; now left | lra]. cbn in V. injection V as <-. cbn in C. injection C as <-. reflexivity.
Qed.
Theorem C88_library_refuted : ~ forall fuel d d' up unit handleTargets, proper d -> In up [XAxis; YAxis; ZAxis] -> FLT_TOLERANCE <= unit ->
  StandardizeUpAxisAndLength fuel d up unit handleTargets = Done d' ->
  Forall2 (fun c c' => let u := library_unit d (fst c) (camera_library d) in fst c = None -> 0 < u -> FLT_TOLERANCE <= Rabs (u / unit - 1) -> fst (snd c') * unit = fst (snd c) * u) (cameras d) (cameras d').
Proof.
  intro H. pose proof tolerance_pos as Tol. set (lib := Asset true (1 / 100) false (V3 0 0 0)). set (d := camera_document (Asset true 1 true YAxis) (Some lib) None).
  destruct (StandardizeUpAxisAndLength 1 d YAxis 1 false) as [d'| |] eqn:E; try (unfold StandardizeUpAxisAndLength in E; discriminate E).
  assert (P : proper d) by (split; [constructor|]; split; [constructor | intros r []]).
  specialize (H 1%nat d d' YAxis 1 false P ltac:(right; now left) ltac:(lra) E). apply camera_document_result in E. rewrite E in H. inversion H as [|? ? ? ? H1 _]; subst. clear H.
  change (library_unit d (fst (None, (1, 1))) (camera_library d)) with (1 / 100) in H1.
  assert (Q : FLT_TOLERANCE <= Rabs (1 / 100 / 1 - 1)) by (rewrite Rabs_left by lra; unfold FLT_TOLERANCE; lra). specialize (H1 eq_refl ltac:(lra) Q). revert H1.
  unfold convert_camera, GetAssetFunctors. cbn [fst snd entity_assets app first_unit find hasUnits unitFactor]. unfold first_unit. cbn [find hasUnits unitFactor].
  replace (SetCurrent 1 1) with 1 by (unfold SetCurrent; destruct (Rle_dec 1 0); [lra | field]). unfold has_length. rewrite IsEquivalent_refl. cbn [negb fst snd]. lra.
Qed.
Print Assumptions C88_library_refuted.
Theorem C88_own_asset_refuted : ~ forall fuel d d' up unit handleTargets, proper d -> In up [XAxis; YAxis; ZAxis] -> FLT_TOLERANCE <= unit -> camera_library d = None ->
  StandardizeUpAxisAndLength fuel d up unit handleTargets = Done d' ->
  Forall2 (fun c c' => let u := library_unit d (fst c) None in 0 < u -> FLT_TOLERANCE <= Rabs (u / unit - 1) -> fst (snd c') * unit = fst (snd c) * u) (cameras d) (cameras d').
Proof.
  intro H. pose proof tolerance_pos as Tol. set (own := Asset false 1 false (V3 0 0 0)). set (d := camera_document (Asset true (1 / 100) true YAxis) None (Some own)).
  destruct (StandardizeUpAxisAndLength 1 d YAxis 1 false) as [d'| |] eqn:E; try (unfold StandardizeUpAxisAndLength in E; discriminate E).
  assert (P : proper d) by (split; [constructor|]; split; [constructor | intros r []]).
  specialize (H 1%nat d d' YAxis 1 false P ltac:(right; now left) ltac:(lra) eq_refl E). apply camera_document_result in E. rewrite E in H. inversion H as [|? ? ? ? H1 _]; subst. clear H.
  change (library_unit d (fst (Some own, (1, 1))) None) with (1 / 100) in H1.
  assert (Q : FLT_TOLERANCE <= Rabs (1 / 100 / 1 - 1)) by (rewrite Rabs_left by lra; unfold FLT_TOLERANCE; lra). specialize (H1 ltac:(lra) Q). revert H1.
  unfold convert_camera, GetAssetFunctors. cbn [fst snd entity_assets app first_unit find hasUnits unitFactor]. unfold first_unit. cbn [find hasUnits unitFactor own].
  replace (SetCurrent 1 (-1)) with 1 by (unfold SetCurrent; destruct (Rle_dec (-1) 0); [reflexivity | lra]). unfold has_length. rewrite IsEquivalent_refl. cbn [negb fst snd]. lra.
Qed.
Print Assumptions C88_own_asset_refuted.
