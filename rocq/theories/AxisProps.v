(** Theorems about the change of the up-axis and the unit of a document (FCDocumentTools::StandardizeUpAxisAndLength). *)
From Coq Require Import List Arith Reals Lra Lia Bool.
From Verif Require Import IdModel MatrixModel MatrixProps QuatModel QuatProps RotModel SceneModel SceneSpec SceneProofs SceneProps TransformModel TransformProps AxisModel AxisSpec AxisProofs AxisNodeProofs AxisSceneProofs AxisWorldProofs AxisEntityProofs.
Import ListNotations.
Local Open Scope R_scope.

Lemma tolerance_pos : 0 < FLT_TOLERANCE < 1 / 8.
Proof. unfold FLT_TOLERANCE. lra. Qed.
Lemma IsEquivalent_far a b : FLT_TOLERANCE <= Rabs (a - b) -> IsEquivalent a b = false.
Proof. intro H. unfold IsEquivalent. destruct (Rlt_dec (a - b) FLT_TOLERANCE); [|reflexivity]. destruct (Rlt_dec (b - a) FLT_TOLERANCE); [|reflexivity]. exfalso. revert H. unfold Rabs. destruct (Rcase_abs (a - b)); lra. Qed.
Lemma IsEquivalent_refl a : IsEquivalent a a = true.
Proof. pose proof tolerance_pos. unfold IsEquivalent. destruct (Rlt_dec (a - a) _); lra. Qed.
Lemma far_01 : IsEquivalent 0 1 = false /\ IsEquivalent 1 0 = false.
Proof. pose proof tolerance_pos. split; apply IsEquivalent_far; unfold Rabs; destruct (Rcase_abs _); lra. Qed.
Lemma convert_axes : ConvertVector XAxis = AX /\ ConvertVector YAxis = AY /\ ConvertVector ZAxis = AZ /\ ConvertVector (V3 0 0 0) = UNKNOWN.
Proof. destruct far_01 as [A B]. unfold ConvertVector, IsEquivalent3. cbn [XAxis YAxis ZAxis x3 y3 z3]. rewrite ?A, ?B, ?IsEquivalent_refl. cbn [andb]. repeat split. Qed.
Lemma axis_not_zero v : In v [XAxis; YAxis; ZAxis] -> IsEquivalent3 v (V3 0 0 0) = false.
Proof. destruct far_01 as [A B]. intros [<-|[<-|[<-|[]]]]; unfold IsEquivalent3; cbn [XAxis YAxis ZAxis x3 y3 z3]; rewrite ?A, ?B, ?IsEquivalent_refl; reflexivity. Qed.
Lemma turning_up a b : In a [XAxis; YAxis; ZAxis] -> In b [XAxis; YAxis; ZAxis] -> ~ x_and_z a b -> TransformVector (turning (PrepareFunctor (ConvertVector b) (ConvertVector a))) a = b.
Proof.
  destruct convert_axes as (Cx & Cy & Cz & _). unfold x_and_z.
  intros [<-|[<-|[<-|[]]]] [<-|[<-|[<-|[]]]] N; try (exfalso; tauto); rewrite ?Cx, ?Cy, ?Cz; cbn [PrepareFunctor]; apply vec3_ext; vopen; ring.
Qed.
Lemma moved_turn f s p : vscale s (turn f p false) = moved (turning f) s p.
Proof. unfold moved. now rewrite turning_vector. Qed.
Lemma carries_carried s f m m' : affine m -> carries (frame s f) m m' -> carried (turning f) s m m'.
Proof. intros A C p. unfold moved. now apply carries_point. Qed.
Lemma Forall2_map_self {A B} (R : A -> B -> Prop) (g : A -> B) l : (forall a, In a l -> R a (g a)) -> Forall2 R l (map g l).
Proof. induction l as [|a l IH]; intro H; constructor; [apply H; now left | apply IH; intros; apply H; now right]. Qed.
Lemma converted_geometry s f g : s = 1 \/ has_length s = true -> geometry_converted (turning f) s g (convert_geometry s f g).
Proof.
  intro Hs. unfold convert_geometry. destruct (has_length s || has_swap f)%bool eqn:E.
  - destruct g as [l|l|]; cbn [geometry_converted]; [| |exact I].
    + apply Forall2_map_self. intros a _. unfold source_converted.
      assert (G : stype (convert_source s f a) = stype a /\ stride (convert_source s f a) = stride a /\ (stype a = OTHER -> convert_source s f a = a)).
      { unfold convert_source. destruct (stype a) eqn:Ty; (split; [first [reflexivity | exact Ty]|]); (split; [reflexivity|]); intro Q; first [discriminate | reflexivity]. }
      destruct G as (G1 & G2 & G3). split; [exact G1|]. split; [exact G2|]. split; [|split; [exact G3|]].
      * destruct (le_lt_dec 3 (stride a)) as [H3|H3]; [now apply (convert_source_spec s f a Hs H3)|].
        unfold convert_source. destruct (Nat.leb_spec 3 (stride a)); [lia|]. rewrite andb_false_r. destruct (stype a); cbn [data]; try reflexivity. destruct (has_length s); [|reflexivity].
        rewrite app_length, map_length, <- app_length, firstn_skipn. reflexivity.
      * intros H3 j Hj. destruct (convert_source_spec s f a Hs H3) as (_ & _ & _ & V). rewrite (V j Hj). split; intros ->; [apply moved_turn | now rewrite turning_vector].
    + apply map_ext. intro c. apply map_ext. intro p. apply moved_turn.
  - apply orb_false_iff in E as [E1 E2]. destruct Hs as [->|]; [|congruence]. destruct f; try discriminate. rewrite turning_same.
    assert (M : forall p, TransformVector Identity p = p) by (intros [x y z]; apply vec3_ext; vopen; ring).
    assert (M1 : forall p, moved Identity 1 p = p) by (intros [x y z]; apply vec3_ext; unfold moved; rewrite M; cbn; ring).
    destruct g as [l|l|]; cbn [geometry_converted]; [| |exact I].
    + induction l as [|a l IH]; constructor; [|exact IH]. repeat split; intros; auto; now rewrite ?M, ?M1.
    + symmetry. rewrite (map_ext _ (fun c => c)); [apply map_id|]. intro c. rewrite (map_ext _ (fun p => p)); [apply map_id | exact M1].
Qed.
Lemma converted_skin s f b j : s = 1 \/ has_length s = true -> s <> 0 -> controller_converted (turning f) s (Skin b j) (convert_skin s f b j).
Proof.
  intros Hs H0. unfold convert_skin. destruct (has_length s || has_swap f)%bool eqn:E; cbn [controller_converted].
  - split; [intro A; apply carries_carried; auto; now apply convert_matrix_carries|]. apply Forall2_map_self. intros m _ A D1 D2. apply carries_carried; auto. now apply pose_carries.
  - pose proof (has_nothing s f E Hs) as Fr. assert (C : forall m, carries (frame s f) m m) by (intro m; unfold carries; rewrite Fr; destruct (C42_identity m) as [-> ->]; reflexivity).
    split; [intro A; now apply carries_carried|]. induction j as [|m j IH]; constructor; [|exact IH]. intros A _ _. now apply carries_carried.
Qed.
Lemma entity_functors d unit lib : quiet lib -> GetAssetFunctors unit (entity_assets (base d) None) lib = (SetCurrent unit (current_unit d), current_axis d).
Proof. intro Q. apply (functors_quiet d unit [] lib (Forall_nil _) Q). Qed.

(** *** C87: everything keeps its place *)
(** The document's asset alone gives unit and up-axis, the wanted up-axis is one of the three axes and the wanted unit is not
    near zero; the old unit, if it is given, is positive, and the quotient of the units is 1 or not near 1; no
    transformation of the scenes is a look-at, a rotation about the zero vector or a matrix that is not affine.  Then the
    conversion succeeds.  There is a rotation t, which takes the old up-axis to the new one (but not from X to Z or back),
    such that with the factor s everything is carried: nodes, cameras and the like, geometries, skins, and the planes of
    cameras; nodes outside of the visual scenes are left alone; the asset then tells the wanted values. *)
Theorem C87_placement_partial : forall d up unit handleTargets, proper d -> one_asset d ->
  In up [XAxis; YAxis; ZAxis] -> FLT_TOLERANCE <= unit -> (hasUnits (base d) = true -> 0 < unitFactor (base d)) ->
  (forall n, in_scene d n -> Forall (fun e : entry => plain (fst e)) (stack d n)) ->
  let s := if hasUnits (base d) then unitFactor (base d) / unit else 1 in s = 1 \/ FLT_TOLERANCE <= Rabs (s - 1) ->
  exists t fuel0, rotation t /\
    (hasUpAxis (base d) = false -> t = Identity) /\
    (hasUpAxis (base d) = true -> In (upAxis (base d)) [XAxis; YAxis; ZAxis] -> ~ x_and_z (upAxis (base d)) up ->
     TransformVector t (upAxis (base d)) = up) /\
    forall fuel, (fuel0 <= fuel)%nat -> exists d', StandardizeUpAxisAndLength fuel d up unit handleTargets = Done d' /\
      base d' = Asset true unit true up /\ nodes_converted t s handleTargets d d' /\ entities_converted t s d d' /\
      (forall n, (n < next (scene d))%nat -> ~ in_scene d n -> stack d' n = stack d n /\ kinds d' n = kinds d n /\ chi (scene d') n = chi (scene d) n) /\
      (forall n, (n < next (scene d))%nat -> par (scene d') n = par (scene d) n) /\
      roots d' = roots d /\ one_asset d'.
Proof.
  intros d up unit ht P0 (Qn & Qs & Qc & Qg & Qm & Oc & Og & Om) Hup Hu Hold Hpl s Hs.
  pose proof (proper_sound d P0) as P. pose proof tolerance_pos as Tol.
  assert (Eu : wanted_unit (base d) unit = unit).
  { unfold wanted_unit. rewrite IsEquivalent_far by (rewrite Rminus_0_r, Rabs_pos_eq; lra). destruct (Rlt_dec unit 0); [lra|]. reflexivity. }
  assert (Ea : wanted_axis (base d) up = up) by (unfold wanted_axis; now rewrite axis_not_zero).
  set (target := ConvertVector up). set (current := current_axis d).
  assert (Es : SetCurrent unit (current_unit d) = s).
  { unfold SetCurrent, current_unit, s in *. destruct (hasUnits (base d)); destruct (Rle_dec _ 0); try reflexivity; [specialize (Hold eq_refl)|]; lra. }
  assert (Hs2 : s = 1 \/ has_length s = true) by (destruct Hs as [Hs|Hs]; [now left | right; unfold has_length; now rewrite IsEquivalent_far]).
  assert (Hs0 : s <> 0).
  { unfold s. destruct (hasUnits (base d)); [|lra]. specialize (Hold eq_refl). apply Rgt_not_eq. unfold Rdiv. apply Rmult_lt_0_compat; [exact Hold|]. apply Rinv_0_lt_compat. lra. }
  destruct (scene_converted d unit target ht P Qn Qs) as [fuel0 Sc]. rewrite Es in Sc. fold current in Sc.
  exists (turning (PrepareFunctor target current)), fuel0. split; [apply turning_rotation|]. split; [|split].
  - intro H. unfold current, current_axis. rewrite H. destruct convert_axes as (_ & _ & _ & ->). destruct target; apply turning_same.
  - intros H I N. unfold current, current_axis. rewrite H. now apply turning_up.
  - intros fuel Hf. destruct (Sc fuel Hf) as (ns & d1 & V & C & R & A & _). unfold StandardizeUpAxisAndLength. rewrite Eu, Ea. fold target. rewrite V, C.
    unfold rest in R. injection R as R1 R2 R3 R4 R5 R6 R7 R8 R9. eexists. split; [reflexivity|]. cbn [base scene stack kinds roots]. rewrite R1, R2, R3, R4, R5, R6, R7, R8, R9.
    split; [reflexivity|]. split; [|split; [|split; [|split; [|split]]]].
    + intros k n m I W. cbn [scene stack kinds]. split.
      * intro Np. destruct (world_carried s target current ht d d1 P A Hs2 Hpl k n m I W (or_intror Np)) as (Am & m' & W' & Cm). exists m'. split; [exact W'|]. now apply carries_carried.
      * intro Dn. destruct (instances_shown s target current ht d d1 k n m P A Hs2 Hpl Dn I W) as (ks & K1 & K2). exists ks. split; [exact K1 | exact K2].
    + unfold entities_converted. cbn [geometries controllers cameras]. split; [|split]; apply Forall2_map_self.
      * intros [a g] Ia. rewrite Forall_forall in Og. specialize (Og _ Ia). cbn in Og. subst a. unfold convert_geometry_entity. cbn [fst snd]. rewrite (entity_functors d unit _ Qg), Es. fold current. now apply converted_geometry.
      * intros [a c] Ia. rewrite Forall_forall in Oc. specialize (Oc _ Ia). cbn in Oc. subst a. unfold convert_controller. cbn [fst snd]. destruct c as [b j|]; [|exact I].
        rewrite (entity_functors d unit _ Qc), Es. fold current. now apply converted_skin.
      * intros [a c] Ia. rewrite Forall_forall in Om. specialize (Om _ Ia). cbn in Om. subst a. unfold convert_camera. cbn [fst snd]. rewrite (entity_functors d unit _ Qm), Es. destruct (has_length s) eqn:Hl; [reflexivity|].
        destruct Hs2 as [->|]; [|discriminate]. cbn [snd]. destruct c as [x y]. cbn [fst snd]. now rewrite !Rmult_1_r.
    + apply (after_out _ _ _ _ _ _ A).
    + apply (after_par _ _ _ _ _ _ A).
    + reflexivity.
    + unfold one_asset. cbn [node_asset scene_library controller_library geometry_library camera_library controllers geometries cameras].
      split; [apply (after_quiet _ _ _ _ _ _ A)|]. repeat (split; [assumption|]).
      split; [|split]; apply Forall_map; (eapply Forall_impl; [|eassumption]); cbv beta; intros [a c]; cbn [fst]; intros ->.
      * unfold convert_controller. cbn [fst snd]. destruct c; [|reflexivity]. destruct (GetAssetFunctors _ _ _). reflexivity.
      * unfold convert_geometry_entity. cbn [fst snd]. destruct (GetAssetFunctors _ _ _). reflexivity.
      * unfold convert_camera. cbn [fst snd]. destruct (GetAssetFunctors _ _ _). reflexivity.
Qed.
Print Assumptions C87_placement_partial.
(** A document with two nodes, cameras on both, a mesh, a skin and a camera. *)
Definition demo_stack (n : nat) : list entry :=
  match n with 0%nat => [(TTranslation (V3 1 2 3), [])] | 1%nat => [(TRotation (V3 1 0 0) (-90), []); (TScale (V3 1 2 3), [])] | _ => [] end.
Definition demo_document : document :=
  Doc (Asset true 1 true YAxis) None None None None (add new6 0 1) [0%nat] (fun _ => None) demo_stack
      (fun n => match n with 0%nat => [Pivoted true; Other] | 1%nat => [Pivoted false] | _ => [] end)
      [(None, Skin (TranslationMatrix (V3 1 2 3)) [Identity; TranslationMatrix (V3 4 5 6)])]
      [(None, Mesh [Source POSITION 3 [1; 2; 3; 4; 5; 6]; Source DIRECTION 3 [0; 1; 0]]); (None, Spline [[V3 1 2 3]])]
      [(None, (1000, 1))].
Example C87_demo : proper demo_document /\ one_asset demo_document /\ In ZAxis [XAxis; YAxis; ZAxis] /\ FLT_TOLERANCE <= 1 / 100 /\
  (forall n, in_scene demo_document n -> Forall (fun e : entry => plain (fst e)) (stack demo_document n)) /\
  FLT_TOLERANCE <= Rabs (1 / (1 / 100) - 1) /\ ~ x_and_z YAxis ZAxis /\
  in_scene demo_document 1 /\ only_pivoted demo_document 1 /\ Forall (fun e : entry => distinct (fst e)) (stack demo_document 1).
Proof.
  pose proof tolerance_pos as Tol. assert (P : proper demo_document).
  { split; [eapply history_add; [| reflexivity | reflexivity | reflexivity]; repeat constructor|]. split; [repeat constructor; intros []|]. intros r [<-|[]]. split; reflexivity. }
  split; [exact P|]. split; [repeat split; repeat constructor|]. split; [right; right; now left|]. split; [unfold FLT_TOLERANCE; lra|]. split; [|split; [|split; [|split; [|split]]]].
  - intros [|[|n]] _; repeat constructor. intro H. injection H. lra.
  - replace (1 / (1 / 100) - 1) with 99 by field. rewrite Rabs_pos_eq; lra.
  - unfold x_and_z. intros [[H _]|[H _]]; injection H; lra.
  - apply in_scene_climb; [now apply proper_sound|]. exists 0%nat. split; [now left|]. econstructor; [reflexivity | constructor].
  - split; [reflexivity|]. exists false. reflexivity.
  - constructor; [|constructor; [exact I | constructor]]. cbn [fst distinct]. assert (T : forall a b, IsEquivalent a b = true -> a - b < FLT_TOLERANCE /\ b - a < FLT_TOLERANCE).
    { intros a b. unfold IsEquivalent. destruct (Rlt_dec (a - b) _); [|discriminate]. destruct (Rlt_dec (b - a) FLT_TOLERANCE); [auto | discriminate]. }
    split.
    + intros v Hv E. unfold IsEquivalent3 in E. apply andb_true_iff in E as [E E3]. apply andb_true_iff in E as [E1 E2]. apply T in E1, E2, E3.
      destruct Hv as [<-|[<-|[<-|[<-|[<-|[<-|[]]]]]]]; cbv [vneg XAxis YAxis ZAxis x3 y3 z3] in *; try (exfalso; lra). reflexivity.
    + intros y [->| ->] E; apply T in E; lra.
Qed.

(** Finding: from X to Z and back, the up-axis goes to the Y-axis instead (FCDocumentTools.cpp:156, 159). *)
Definition entities_only (b : asset) (g : list geometry) (c : list (R * R)) : document :=
  Doc b None None None None no_nodes [] (fun _ => None) (fun _ => []) (fun _ => []) [] (map (pair None) g) (map (pair None) c).
Lemma entities_only_proper b g c : proper (entities_only b g c) /\ one_asset (entities_only b g c).
Proof. split; [split; [constructor|]; split; [constructor | intros r []]|]. repeat split; try constructor; apply Forall_map, Forall_forall; reflexivity. Qed.
Lemma entities_only_result u0 a0 g c up unit : FLT_TOLERANCE <= unit -> In up [XAxis; YAxis; ZAxis] -> let f := PrepareFunctor (ConvertVector up) (ConvertVector a0) in let s := SetCurrent unit u0 in
  StandardizeUpAxisAndLength 1 (entities_only (Asset true u0 true a0) g c) up unit false =
  Done (entities_only (Asset true unit true up) (map (convert_geometry s f) g) (map (fun p => if has_length s then (fst p * s, snd p * s) else p) c)).
Proof.
  intros Hu Hup f s. pose proof tolerance_pos as Tol. unfold StandardizeUpAxisAndLength. cbn [base entities_only].
  assert (Eu : wanted_unit (Asset true u0 true a0) unit = unit).
  { unfold wanted_unit. rewrite IsEquivalent_far by (rewrite Rminus_0_r, Rabs_pos_eq; lra). destruct (Rlt_dec unit 0); [lra|]. reflexivity. }
  assert (Ea : wanted_axis (Asset true u0 true a0) up = up) by (unfold wanted_axis; now rewrite axis_not_zero).
  rewrite Eu, Ea. cbn [visited roots entities_only convert_nodes map]. unfold entities_only. cbn [map base controllers geometries cameras controller_library geometry_library camera_library scene_library scene node_asset stack kinds roots].
  rewrite !map_map. reflexivity.
Qed.
Theorem C87_x_z_refuted : ~ forall fuel d d' up unit handleTargets, proper d -> one_asset d -> hasUnits (base d) = true -> unitFactor (base d) = unit -> FLT_TOLERANCE <= unit ->
  hasUpAxis (base d) = true -> In (upAxis (base d)) [XAxis; YAxis; ZAxis] -> In up [XAxis; YAxis; ZAxis] ->
  StandardizeUpAxisAndLength fuel d up unit handleTargets = Done d' ->
  exists t, rotation t /\ TransformVector t (upAxis (base d)) = up /\ entities_converted t 1 d d'.
Proof.
  intro H. pose proof tolerance_pos as Tol. destruct convert_axes as (Cx & Cy & Cz & _). destruct (entities_only_proper (Asset true 1 true ZAxis) [Spline [[ZAxis]]] []) as [P O].
  pose proof (entities_only_result 1 ZAxis [Spline [[ZAxis]]] [] XAxis 1 ltac:(lra) ltac:(now left)) as E. cbv zeta in E. rewrite Cx, Cz in E. cbn [PrepareFunctor] in E.
  assert (Es : SetCurrent 1 1 = 1) by (unfold SetCurrent; destruct (Rle_dec 1 0); [lra | field]). rewrite Es in E.
  destruct (H _ _ _ _ _ _ P O eq_refl eq_refl ltac:(cbn; lra) eq_refl ltac:(right; right; now left) ltac:(now left) E) as (t & _ & Tu & G & _).
  cbn [geometries entities_only map] in G. inversion G as [|? ? ? ? G1 _]; subst. unfold convert_geometry in G1. cbn [has_swap] in G1. rewrite orb_true_r in G1. cbn [snd geometry_converted map] in G1.
  assert (G2 : convert_length 1 XtoZ ZAxis = moved t 1 ZAxis) by congruence. cbn [upAxis base entities_only] in Tu. unfold moved in G2. rewrite Tu in G2. apply (f_equal x3) in G2. cbn in G2. lra.
Qed.
Print Assumptions C87_x_z_refuted.
(** Finding: a wanted unit of less than 0.0001 metres counts as none, and a quotient of the units of less than 1.0001 counts
    as 1: the asset is changed, but not the lengths. *)
Theorem C87_small_unit_refuted : ~ forall fuel d d' up unit handleTargets, proper d -> one_asset d -> 0 < unit -> In up [XAxis; YAxis; ZAxis] ->
  StandardizeUpAxisAndLength fuel d up unit handleTargets = Done d' -> unitFactor (base d') = unit.
Proof.
  intro H. destruct (entities_only_proper (Asset true 1 true YAxis) [] []) as [P O].
  assert (E : StandardizeUpAxisAndLength 1 (entities_only (Asset true 1 true YAxis) [] []) YAxis (1 / 20000) false = Done (entities_only (Asset true 1 true YAxis) [] [])).
  { unfold StandardizeUpAxisAndLength. cbn [base entities_only].
    assert (Eu : wanted_unit (Asset true 1 true YAxis) (1 / 20000) = 1).
    { unfold wanted_unit, IsEquivalent. destruct (Rlt_dec (1 / 20000 - 0) FLT_TOLERANCE) as [_|N]; [|unfold FLT_TOLERANCE in N; lra]. destruct (Rlt_dec (0 - 1 / 20000) FLT_TOLERANCE) as [_|N]; [|unfold FLT_TOLERANCE in N; lra]. reflexivity. }
    assert (Ea : wanted_axis (Asset true 1 true YAxis) YAxis = YAxis) by (unfold wanted_axis; rewrite axis_not_zero by (right; now left); reflexivity).
    rewrite Eu, Ea. reflexivity. }
  assert (U : 0 < 1 / 20000) by lra. specialize (H _ _ _ _ _ _ P O U ltac:(right; now left) E). cbn in H. lra.
Qed.
Print Assumptions C87_small_unit_refuted.
Theorem C87_close_units_refuted : ~ forall fuel d d' up unit handleTargets, proper d -> one_asset d -> FLT_TOLERANCE <= unit -> In up [XAxis; YAxis; ZAxis] ->
  hasUnits (base d) = true -> 0 < unitFactor (base d) -> StandardizeUpAxisAndLength fuel d up unit handleTargets = Done d' ->
  unitFactor (base d') = unit /\ Forall2 (fun c c' => fst (snd c') * unit = fst (snd c) * unitFactor (base d)) (cameras d) (cameras d').
Proof.
  intro H. pose proof tolerance_pos as Tol. destruct (entities_only_proper (Asset true 1 true YAxis) [] [(1, 1)]) as [P O].
  pose proof (entities_only_result 1 YAxis [] [(1, 1)] YAxis (20001 / 20000) ltac:(lra) ltac:(right; now left)) as E. cbv zeta in E.
  assert (Es : has_length (SetCurrent (20001 / 20000) 1) = false).
  { unfold SetCurrent. destruct (Rle_dec 1 0); [lra|]. replace (1 / (20001 / 20000)) with (20000 / 20001) by field. unfold has_length, IsEquivalent.
    destruct (Rlt_dec (20000 / 20001 - 1) FLT_TOLERANCE) as [_|N]; [|unfold FLT_TOLERANCE in N; lra]. destruct (Rlt_dec (1 - 20000 / 20001) FLT_TOLERANCE) as [_|N]; [reflexivity | unfold FLT_TOLERANCE in N; lra]. }
  rewrite Es in E. assert (U : FLT_TOLERANCE <= 20001 / 20000) by lra. destruct (H _ _ _ _ _ _ P O U ltac:(right; now left) eq_refl ltac:(cbn; lra) E) as (_ & F). cbn in F. inversion F; subst. cbn in *. lra.
Qed.
Print Assumptions C87_close_units_refuted.
(** Finding: a node with a look-at transformation turns what is below it (FCDocumentTools.cpp:497). *)
Definition look_document : document :=
  Doc (Asset true 1 true YAxis) None None None None (NewNode no_nodes 0) [0%nat] (fun _ => None)
      (fun n => match n with 0%nat => [(TLookAt (V3 0 0 0) (vneg ZAxis) YAxis, [])] | _ => [] end) (fun _ => []) [] [] [].
Lemma normalize_unit v : vLengthSquared v = 1 -> vNormalize v = v.
Proof. intro E. unfold vNormalize. replace (vLength v) with 1 by (unfold vLength, vLengthSquared in *; rewrite E; symmetry; apply sqrt_1). destruct (Rlt_dec 0 1); [|lra]. destruct v as [v0 v1 v2]. apply vec3_ext; cbn; field. Qed.
Theorem C87_look_at_refuted : ~ forall fuel d d' up unit handleTargets, proper d -> one_asset d -> hasUnits (base d) = true -> unitFactor (base d) = unit -> FLT_TOLERANCE <= unit ->
  hasUpAxis (base d) = true -> In (upAxis (base d)) [XAxis; YAxis; ZAxis] -> In up [XAxis; YAxis; ZAxis] -> ~ x_and_z (upAxis (base d)) up ->
  StandardizeUpAxisAndLength fuel d up unit handleTargets = Done d' ->
  exists t, rotation t /\ TransformVector t (upAxis (base d)) = up /\ nodes_converted t 1 handleTargets d d'.
Proof.
  intro H. pose proof tolerance_pos as Tol. destruct convert_axes as (Cx & Cy & Cz & _).
  assert (P : proper look_document). { split; [repeat constructor|]. split; [repeat constructor; intros []|]. intros r [<-|[]]. split; reflexivity. }
  assert (O : one_asset look_document) by (repeat split; repeat constructor).
  destruct (scene_converted look_document 1 AZ false (proper_sound _ P) (proj1 O) I) as [fuel0 Sc]. destruct (Sc fuel0 (le_n _)) as (ns & d1 & V & C & R & A & _). clear Sc.
  assert (Es : SetCurrent 1 (current_unit look_document) = 1) by (unfold SetCurrent, current_unit; cbn; destruct (Rle_dec 1 0); [lra | field]). assert (Ec : current_axis look_document = AY) by exact Cy. rewrite Es, Ec in A.
  destruct (StandardizeUpAxisAndLength fuel0 look_document ZAxis 1 false) as [d'| |] eqn:E.
  2,3: exfalso; revert E; unfold StandardizeUpAxisAndLength; replace (wanted_unit (base look_document) 1) with 1 by (unfold wanted_unit; destruct far_01 as [_ ->]; destruct (Rlt_dec 1 0); [lra | reflexivity]);
       replace (wanted_axis (base look_document) ZAxis) with ZAxis by (unfold wanted_axis; rewrite axis_not_zero by (right; right; now left); reflexivity); rewrite Cz, V, C; discriminate.
  assert (Nx : ~ x_and_z (upAxis (base look_document)) ZAxis) by (unfold x_and_z; intros [[X _]|[X _]]; injection X; lra).
  destruct (H fuel0 look_document d' ZAxis 1 false P O eq_refl eq_refl ltac:(cbn; lra) eq_refl ltac:(right; now left) ltac:(right; right; now left) Nx E) as (t & _ & Tu & N).
  unfold StandardizeUpAxisAndLength in E. revert E. replace (wanted_unit (base look_document) 1) with 1 by (unfold wanted_unit; destruct far_01 as [_ ->]; destruct (Rlt_dec 1 0); [lra | reflexivity]).
  replace (wanted_axis (base look_document) ZAxis) with ZAxis by (unfold wanted_axis; rewrite axis_not_zero by (right; right; now left); reflexivity). rewrite Cz, V, C. intros [= <-].
  assert (W : CalculateWorldTransform 1 (scene look_document) (stack look_document) 0 = Done (node_matrix (stack look_document 0))) by reflexivity.
  assert (In0 : in_scene look_document 0). { apply in_scene_climb; [now apply proper_sound|]. exists 0%nat. split; [now left | constructor]. }
  destruct (N 1%nat 0%nat _ In0 W) as [N0 _]. destruct N0 as (m' & W' & Ca); [intros [_ [b X]]; discriminate X|]. cbn [scene stack CalculateWorldTransform] in W'.
  rewrite (after_par _ _ _ _ _ _ A) in W' by (cbn; lia). cbn [par look_document scene NewNode no_nodes] in W'. injection W' as <-.
  rewrite (placed_stack _ _ _ _ _ _ _ (after_in _ _ _ _ _ _ A 0%nat In0)) in Ca by (right; intros [_ [b X]]; discriminate X).
  cbn [PrepareFunctor] in Ca. unfold convert_stack in Ca. cbn [has_swap] in Ca. rewrite orb_true_r in Ca. cbn [stack look_document map fst snd convert_transform] in Ca. unfold node_matrix in Ca. cbn [fold_left fst ToMatrix] in Ca. rewrite look_default in Ca.
  change (upAxis (base look_document)) with YAxis in Tu. specialize (Ca YAxis). unfold moved in Ca. rewrite !(proj1 (C42_identity _)) in Ca.
  assert (M : TransformCoordinate Identity YAxis = YAxis) by (apply vec3_ext; vopen; ring). rewrite M, Tu in Ca.
  unfold LookAtMatrix in Ca. cbv zeta in Ca. rewrite (normalize_unit (vsub _ _)) in Ca by (unfold convert_length; cbv [vLengthSquared vsub vscale turn swap vneg ZAxis x3 y3 z3]; ring).
  apply (f_equal z3) in Ca. unfold TransformCoordinate in Ca. cbn [m02 m12 m22 m32 z3 vscale ZAxis x3 y3] in Ca. unfold convert_length in Ca. cbv [vsub vscale turn swap vneg x3 y3 z3 ZAxis] in Ca. lra.
Qed.
Print Assumptions C87_look_at_refuted.
