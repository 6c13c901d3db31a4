(** Theorems about changing the up-axis and the unit of a document again and back. *)
From Coq Require Import List Arith Reals Lra Lia Bool.
From Verif Require Import IdModel MatrixModel MatrixProps QuatModel RotModel SceneModel SceneSpec SceneProofs SceneProps TransformModel AxisModel AxisSpec AxisProofs AxisNodeProofs AxisSceneProofs AxisWorldProofs AxisProps AxisAssetProps AxisAgainProofs.
Import ListNotations.
Local Open Scope R_scope.

(** *** C89: there and back *)
Lemma quotient_back u v : 0 < u -> 0 < v -> u / v * (v / u) = 1.
Proof. intros. field. lra. Qed.
Lemma in_scene_same d d' n : (forall x, (x < next (scene d))%nat -> par (scene d') x = par (scene d) x) -> roots d' = roots d -> sound d -> sound d' -> in_scene d n -> in_scene d' n.
Proof.
  intros Ep Er S1 S2 I. pose proof S1 as (O & _). assert (A := in_scene_alive d n S1 I). apply in_scene_climb in I as (r & Ir & C); [|exact S1]. apply in_scene_climb; [exact S2|]. exists r. rewrite Er. split; [exact Ir|].
  induction C as [x|x p q y E C IH]; [constructor|]. pose proof (ok_next _ O x A) as Hx. econstructor; [rewrite Ep by exact Hx; exact E|]. apply IH; [exact Ir|]. apply (ok_alive _ O p x). apply (ok_mirror _ O). rewrite E. now left.
Qed.
(** A document whose own asset alone gives unit and up-axis is converted to another up-axis and unit and then back: the
    transformations of all nodes (but those that have nothing but one camera or the like) are the old ones, as are the
    geometries, the skins with invertible bind poses and the cameras.  This holds for all transformations and all three
    axes.  What is not restored: a node for a camera stays a node of its own. *)
Theorem C89_there_and_back_partial : forall d u a up unit handleTargets, proper d -> one_asset d -> base d = Asset true u true a ->
  In a [XAxis; YAxis; ZAxis] -> In up [XAxis; YAxis; ZAxis] -> FLT_TOLERANCE <= u -> FLT_TOLERANCE <= unit ->
  u = unit \/ FLT_TOLERANCE <= Rabs (u / unit - 1) /\ FLT_TOLERANCE <= Rabs (unit / u - 1) ->
  exists fuel0, forall fuel, (fuel0 <= fuel)%nat -> exists d1, StandardizeUpAxisAndLength fuel d up unit handleTargets = Done d1 /\
  exists fuel1, forall fuel, (fuel1 <= fuel)%nat -> exists d2, StandardizeUpAxisAndLength fuel d1 a u handleTargets = Done d2 /\
    base d2 = base d /\ roots d2 = roots d /\
    (forall n, in_scene d n -> ~ only_pivoted d n -> stack d2 n = stack d n) /\
    (forall n, (n < next (scene d))%nat -> par (scene d2) n = par (scene d) n) /\
    geometries d2 = geometries d /\ cameras d2 = cameras d /\
    Forall2 (fun c c' => match snd c with
                         | Skin b j => Forall (fun m => (m03 m = 0 /\ m13 m = 0 /\ m23 m = 0 /\ m33 m = 1) /\ epsilon < Rabs (Determinant m) /\ epsilon < Rabs (Determinant (Inverted m))) j -> c' = c
                         | Morph => c' = c
                         end) (controllers d) (controllers d2).
Proof.
  intros d u a up unit ht P0 O Hb Ha Hup Hu Hunit Hq. pose proof tolerance_pos as Tol. pose proof (proper_sound d P0) as P.
  assert (Es : SetCurrent unit (current_unit d) = u / unit) by (unfold SetCurrent, current_unit; rewrite Hb; cbn [hasUnits unitFactor]; destruct (Rle_dec u 0); [lra | reflexivity]).
  assert (Ec : current_axis d = ConvertVector a) by (unfold current_axis; now rewrite Hb).
  pose proof (conversion d up unit ht P O Hup Hunit) as K. cbv zeta in K. rewrite Es, Ec in K. destruct K as [fuel0 K]. exists fuel0. intros fuel Hf. destruct (K fuel Hf) as (d1 & E1 & Hb1 & P1 & O1 & R1 & A1 & G1 & C1 & M1). exists d1. split; [exact E1|]. clear K fuel0 Hf.
  assert (Es1 : SetCurrent u (current_unit d1) = unit / u) by (unfold SetCurrent, current_unit; rewrite Hb1; cbn [hasUnits unitFactor]; destruct (Rle_dec unit 0); [lra | reflexivity]).
  assert (Ec1 : current_axis d1 = ConvertVector up) by (unfold current_axis; now rewrite Hb1).
  pose proof (conversion d1 a u ht P1 O1 Ha Hu) as K. cbv zeta in K. rewrite Es1, Ec1 in K. destruct K as [fuel1 K]. exists fuel1. intros fuel' Hf. destruct (K fuel' Hf) as (d2 & E2 & Hb2 & P2 & O2 & R2 & A2 & G2 & C2 & M2). exists d2. split; [exact E2|]. clear K fuel1 Hf.
  assert (Hs : u / unit * (unit / u) = 1) by (apply quotient_back; lra).
  assert (Hl : u / unit = 1 \/ has_length (u / unit) = true /\ has_length (unit / u) = true).
  { destruct Hq as [->|[Q1 Q2]]; [left; field; lra | right; unfold has_length; now rewrite !IsEquivalent_far]. }
  set (ca := ConvertVector a) in *. set (cb := ConvertVector up) in *. set (s := u / unit) in *. set (s' := unit / u) in *.
  split; [now rewrite Hb2, Hb|]. split; [now rewrite R2|]. split; [|split; [|split; [|split]]].
  - intros n I Np. assert (Hn := in_scene_old d n P I). assert (I1 : in_scene d1 n) by exact (in_scene_same d d1 n (after_par _ _ _ _ _ _ A1) R1 P P1 I).
    assert (S1 := placed_stack _ _ _ _ _ _ _ (after_in _ _ _ _ _ _ A1 n I) (or_intror Np)).
    assert (S2 : stack d2 n = convert_stack s' (PrepareFunctor ca cb) (stack d1 n)).
    { apply (placed_stack _ _ _ _ _ _ _ (after_in _ _ _ _ _ _ A2 n I1)). destruct (has_swap (PrepareFunctor ca cb)) eqn:Sw; [right | now left].
      intros [Hc [b Hk]]. destruct (after_in _ _ _ _ _ _ A1 n I) as (_ & _ & X). destruct X as (_ & Hk1 & _); [rewrite <- (swap_back ca cb); exact Sw | exact Np|].
      rewrite Hk in Hk1. symmetry in Hk1. assert (Y : In (Pivoted b) (filter (fun i => negb (is_pivoted i)) (kinds d n))) by (rewrite Hk1; now left). apply filter_In in Y as [_ Y]. discriminate. }
    rewrite S2, S1. now apply stack_back.
  - intros n Hn. pose proof (after_next _ _ _ _ _ _ A1). rewrite (after_par _ _ _ _ _ _ A2) by lia. now apply (after_par _ _ _ _ _ _ A1).
  - rewrite G2, G1, map_map. destruct O as (_ & _ & _ & _ & _ & _ & Og & _). clear - Og Hs Hl. induction Og as [|[o x] l Ho Og IH]; [reflexivity|]. cbn [map fst snd] in *. subst o. f_equal; [|exact IH]. now rewrite geometry_back.
  - rewrite M2, M1, map_map. destruct O as (_ & _ & _ & _ & _ & _ & _ & Om). clear - Om Hs Hl. induction Om as [|[o x] l Ho Om IH]; [reflexivity|]. cbn [map fst snd] in *. subst o. f_equal; [|exact IH]. f_equal. exact (camera_back s s' Hs Hl x).
  - rewrite C2, C1, map_map. destruct O as (_ & _ & _ & _ & _ & Oc & _). apply Forall2_map_self. intros [o c] I. rewrite Forall_forall in Oc. specialize (Oc _ I). cbn [fst snd] in *. subst o. destruct c as [b j|]; [|reflexivity].
    intro F. f_equal. pose proof (skin_back ca cb s s' Hs Hl b j F) as B. destruct (convert_skin s (PrepareFunctor cb ca) b j) as [b' j'|]; exact B.
Qed.
Print Assumptions C89_there_and_back_partial.
(** The hypotheses hold of the document of C87_demo with the unit of a centimetre. *)
Example C89_demo : proper demo_document /\ one_asset demo_document /\ base demo_document = Asset true 1 true YAxis /\
  FLT_TOLERANCE <= Rabs (1 / (1 / 100) - 1) /\ FLT_TOLERANCE <= Rabs ((1 / 100) / 1 - 1) /\ in_scene demo_document 0 /\ ~ only_pivoted demo_document 0.
Proof.
  destruct C87_demo as (P & O & _). pose proof tolerance_pos as Tol. split; [exact P|]. split; [exact O|]. split; [reflexivity|].
  split; [replace (1 / (1 / 100) - 1) with 99 by field; rewrite Rabs_pos_eq; lra|]. split; [rewrite Rabs_left by lra; lra|].
  split; [|intros [X _]; discriminate]. apply in_scene_climb; [now apply proper_sound|]. exists 0%nat. split; [now left | constructor].
Qed.

(** *** Doing it again *)
(** A second conversion to the same up-axis and unit changes nothing. *)
Lemma convert_stack_same l : convert_stack 1 Same l = l.
Proof. unfold convert_stack, has_length. rewrite IsEquivalent_refl. reflexivity. Qed.
Theorem C89_again_partial : forall d up unit handleTargets, proper d -> one_asset d -> In up [XAxis; YAxis; ZAxis] -> FLT_TOLERANCE <= unit ->
  exists fuel0, forall fuel, (fuel0 <= fuel)%nat -> exists d1, StandardizeUpAxisAndLength fuel d up unit handleTargets = Done d1 /\
  exists fuel1, forall fuel, (fuel1 <= fuel)%nat -> exists d2, StandardizeUpAxisAndLength fuel d1 up unit handleTargets = Done d2 /\
    base d2 = base d1 /\ roots d2 = roots d1 /\ geometries d2 = geometries d1 /\ controllers d2 = controllers d1 /\ cameras d2 = cameras d1 /\
    forall n, (n < next (scene d1))%nat -> stack d2 n = stack d1 n /\ kinds d2 n = kinds d1 n /\ par (scene d2) n = par (scene d1) n /\ chi (scene d2) n = chi (scene d1) n.
Proof.
  intros d up unit ht P0 O Hup Hunit. pose proof tolerance_pos as Tol. pose proof (proper_sound d P0) as P.
  destruct (conversion d up unit ht P O Hup Hunit) as [fuel0 K]. exists fuel0. intros fuel Hf. destruct (K fuel Hf) as (d1 & E1 & Hb1 & P1 & O1 & R1 & A1 & _). exists d1. split; [exact E1|]. clear K fuel0 Hf A1.
  assert (Es1 : SetCurrent unit (current_unit d1) = 1) by (unfold SetCurrent, current_unit; rewrite Hb1; cbn [hasUnits unitFactor]; destruct (Rle_dec unit 0); [lra | field; lra]).
  assert (Ec1 : current_axis d1 = ConvertVector up) by (unfold current_axis; now rewrite Hb1).
  pose proof (conversion d1 up unit ht P1 O1 Hup Hunit) as K. cbv zeta in K. rewrite Es1, Ec1 in K.
  assert (Sm : PrepareFunctor (ConvertVector up) (ConvertVector up) = Same) by (destruct (ConvertVector up); reflexivity). rewrite Sm in K.
  destruct K as [fuel1 K]. exists fuel1. intros fuel' Hf. destruct (K fuel' Hf) as (d2 & E2 & Hb2 & P2 & O2 & R2 & A2 & G2 & C2 & M2). exists d2. split; [exact E2|].
  assert (H1 : has_length 1 = false) by (unfold has_length; now rewrite IsEquivalent_refl).
  split; [now rewrite Hb2, Hb1|]. split; [exact R2|]. destruct O1 as (_ & _ & _ & _ & _ & Oc & Og & Om). split; [|split; [|split]].
  - rewrite G2. clear - Og H1. induction Og as [|[o x] l Ho Og IH]; [reflexivity|]. cbn [map fst snd] in *. subst o. f_equal; [|exact IH]. f_equal. unfold convert_geometry. now rewrite H1.
  - rewrite C2. clear - Oc H1. induction Oc as [|[o x] l Ho Oc IH]; [reflexivity|]. cbn [map fst snd] in *. subst o. f_equal; [|exact IH]. f_equal. destruct x; [|reflexivity]. unfold convert_skin. now rewrite H1.
  - rewrite M2, H1. clear - Om. induction Om as [|[o x] l Ho Om IH]; [reflexivity|]. cbn [map fst snd] in *. subst o. f_equal. exact IH.
  - intros n Hn.
    assert (D : in_scene d1 n \/ ~ in_scene d1 n).
    { destruct (visited_all (scene d1) (proj1 P1) (roots d1) (proj1 (proj2 P1))) as (_ & ns & _ & _ & I); [intros r Ir; now apply P1|]. destruct (in_dec Nat.eq_dec n ns) as [Y|N]; [left | right].
      - apply in_scene_climb; [exact P1|]. now apply I.
      - intro Y. apply N, I. now apply in_scene_climb. }
    rewrite (after_par _ _ _ _ _ _ A2 n Hn). destruct D as [I|N].
    + destruct (after_in _ _ _ _ _ _ A2 n I) as (X & _). rewrite Sm in X. destruct (X eq_refl) as (S1 & S2 & S3). rewrite convert_stack_same in S1. auto.
    + destruct (after_out _ _ _ _ _ _ A2 n Hn N) as (S1 & S2 & S3). auto.
Qed.
Print Assumptions C89_again_partial.
Example C89_again_demo : proper demo_document /\ one_asset demo_document /\ FLT_TOLERANCE <= 1 / 100 /\ kinds demo_document 0 = [Pivoted true; Other].
Proof. destruct C87_demo as (P & O & _ & T & _). auto. Qed.
(** Finding: an entity with its own asset is not converted back, as its asset gives no unit after the first conversion; and
    if its library has an asset, the second conversion to the same unit converts it again. *)
Lemma camera_document_again b library own up unit d' : In up [XAxis; YAxis; ZAxis] -> FLT_TOLERANCE <= unit ->
  StandardizeUpAxisAndLength 1 (camera_document b library own) up unit false = Done d' ->
  exists x, d' = Doc (Asset true unit true up) None None None library no_nodes [] (fun _ => None) (fun _ => []) (fun _ => []) [] [] [x] /\ x = convert_camera unit b library (own, (1, 1)).
Proof. intros Hup Hu E. apply standardized in E as (ns & d1 & V & C & ->); auto. cbn in V. injection V as <-. cbn in C. injection C as <-. eexists. split; reflexivity. Qed.
Lemma half_lengths : has_length (1 / (1 / 2)) = true /\ has_length (1 / 2 / 1) = true.
Proof. pose proof tolerance_pos as Tol. unfold has_length. split; rewrite IsEquivalent_far; try reflexivity. - replace (1 / (1 / 2) - 1) with 1 by field. rewrite Rabs_pos_eq; lra. - rewrite Rabs_left by lra. lra. Qed.
Theorem C89_own_asset_refuted : ~ forall fuel d d1 d2 up u unit handleTargets, proper d -> base d = Asset true u true up -> In up [XAxis; YAxis; ZAxis] ->
  FLT_TOLERANCE <= u -> FLT_TOLERANCE <= unit -> FLT_TOLERANCE <= Rabs (u / unit - 1) -> FLT_TOLERANCE <= Rabs (unit / u - 1) ->
  (forall c a, In c (cameras d) -> fst c = Some a -> hasUnits a = true /\ unitFactor a = u) ->
  StandardizeUpAxisAndLength fuel d up unit handleTargets = Done d1 -> StandardizeUpAxisAndLength fuel d1 up u handleTargets = Done d2 -> map snd (cameras d2) = map snd (cameras d).
Proof.
  intro H. pose proof tolerance_pos as Tol. destruct half_lengths as [L1 L2]. set (own := Asset true 1 false (V3 0 0 0)). set (d := camera_document (Asset true 1 true YAxis) None (Some own)).
  assert (P : proper d) by (split; [constructor|]; split; [constructor | intros r []]).
  destruct (StandardizeUpAxisAndLength 1 d YAxis (1 / 2) false) as [d1| |] eqn:E1; try (unfold StandardizeUpAxisAndLength in E1; discriminate E1).
  assert (E1' := E1). apply camera_document_again in E1' as (x & D1 & X); [|right; now left | lra].
  assert (X2 : x = (Some (Asset false 1 false (V3 0 0 0)), (2, 2))).
  { rewrite X. unfold convert_camera, GetAssetFunctors, first_unit. cbn [fst snd entity_assets app find hasUnits own unitFactor ResetAsset upAxis]. unfold SetCurrent. destruct (Rle_dec 1 0); [lra|]. rewrite L1. do 2 f_equal; field. }
  destruct (StandardizeUpAxisAndLength 1 d1 YAxis 1 false) as [d2| |] eqn:E2; try (rewrite D1 in E2; unfold StandardizeUpAxisAndLength in E2; discriminate E2).
  assert (K := H 1%nat d d1 d2 YAxis 1 (1 / 2) false P eq_refl ltac:(right; now left) ltac:(lra) ltac:(lra)).
  assert (Q1 : FLT_TOLERANCE <= Rabs (1 / (1 / 2) - 1)) by (replace (1 / (1 / 2) - 1) with 1 by field; rewrite Rabs_pos_eq; lra).
  assert (Q2 : FLT_TOLERANCE <= Rabs (1 / 2 / 1 - 1)) by (rewrite Rabs_left by lra; lra).
  specialize (K Q1 Q2). specialize (K ltac:(intros c a [<-|[]]; cbn; intros [= <-]; split; reflexivity) E1 E2).
  apply standardized in E2 as (ns & d3 & V & C & ->); [|right; now left | lra]. rewrite D1 in V, C. cbn in V. injection V as <-. cbn in C. injection C as <-. rewrite X2 in K. cbn [cameras map d camera_document snd] in K.
  unfold convert_camera, GetAssetFunctors, first_unit in K. cbn [fst snd entity_assets app find hasUnits unitFactor base camera_library] in K.
  replace (SetCurrent 1 (-1)) with 1 in K by (unfold SetCurrent; destruct (Rle_dec (-1) 0); [reflexivity | lra]). unfold has_length in K. rewrite IsEquivalent_refl in K. cbn [negb snd] in K. injection K. lra.
Qed.
Print Assumptions C89_own_asset_refuted.
Theorem C89_library_refuted : ~ forall fuel d d1 d2 up unit handleTargets, proper d -> In up [XAxis; YAxis; ZAxis] -> FLT_TOLERANCE <= unit ->
  StandardizeUpAxisAndLength fuel d up unit handleTargets = Done d1 -> StandardizeUpAxisAndLength fuel d1 up unit handleTargets = Done d2 -> map snd (cameras d2) = map snd (cameras d1).
Proof.
  intro H. pose proof tolerance_pos as Tol. destruct half_lengths as [L1 L2]. set (own := Asset true 1 false (V3 0 0 0)). set (d := camera_document (Asset true 1 true YAxis) (Some own) (Some own)).
  assert (P : proper d) by (split; [constructor|]; split; [constructor | intros r []]).
  destruct (StandardizeUpAxisAndLength 1 d YAxis (1 / 2) false) as [d1| |] eqn:E1; try (unfold StandardizeUpAxisAndLength in E1; discriminate E1).
  assert (E1' := E1). apply camera_document_again in E1' as (x & D1 & X); [|right; now left | lra].
  assert (X2 : x = (Some (Asset false 1 false (V3 0 0 0)), (2, 2))).
  { rewrite X. unfold convert_camera, GetAssetFunctors, first_unit. cbn [fst snd entity_assets app find hasUnits own unitFactor ResetAsset upAxis]. unfold SetCurrent. destruct (Rle_dec 1 0); [lra|]. rewrite L1. do 2 f_equal; field. }
  destruct (StandardizeUpAxisAndLength 1 d1 YAxis (1 / 2) false) as [d2| |] eqn:E2; try (rewrite D1 in E2; unfold StandardizeUpAxisAndLength in E2; discriminate E2).
  assert (K := H 1%nat d d1 d2 YAxis (1 / 2) false P ltac:(right; now left) ltac:(lra) E1 E2).
  apply standardized in E2 as (ns & d3 & V & C & ->); [|right; now left | lra]. rewrite D1 in V, C, K. cbn in V. injection V as <-. cbn in C. injection C as <-. rewrite X2 in K. cbn [cameras map snd] in K.
  unfold convert_camera, GetAssetFunctors, first_unit in K. cbn [fst snd entity_assets app find hasUnits unitFactor base camera_library own] in K.
  replace (SetCurrent (1 / 2) 1) with (1 / (1 / 2)) in K by (unfold SetCurrent; destruct (Rle_dec 1 0); [lra | reflexivity]). rewrite L1 in K. cbn [snd] in K. injection K as K _. replace (2 * (1 / (1 / 2))) with 4 in K by field. lra.
Qed.
Print Assumptions C89_library_refuted.
(** Finding: from X over Y to Z is another rotation than from X to Z. *)
Theorem C89_detour_refuted : ~ forall fuel d d1 d2 d3 a b c unit handleTargets, proper d -> one_asset d -> base d = Asset true unit true a -> FLT_TOLERANCE <= unit ->
  In a [XAxis; YAxis; ZAxis] -> In b [XAxis; YAxis; ZAxis] -> In c [XAxis; YAxis; ZAxis] ->
  StandardizeUpAxisAndLength fuel d b unit handleTargets = Done d1 -> StandardizeUpAxisAndLength fuel d1 c unit handleTargets = Done d2 ->
  StandardizeUpAxisAndLength fuel d c unit handleTargets = Done d3 -> geometries d2 = geometries d3.
Proof.
  intro H. pose proof tolerance_pos as Tol. destruct convert_axes as (Cx & Cy & Cz & _).
  assert (E1 := entities_only_result 1 XAxis [Spline [[XAxis]]] [] YAxis 1 ltac:(lra) ltac:(right; now left)). assert (E3 := entities_only_result 1 XAxis [Spline [[XAxis]]] [] ZAxis 1 ltac:(lra) ltac:(right; right; now left)). cbv zeta in E1, E3.
  assert (E2 := entities_only_result 1 YAxis (map (convert_geometry (SetCurrent 1 1) (PrepareFunctor (ConvertVector YAxis) (ConvertVector XAxis))) [Spline [[XAxis]]]) [] ZAxis 1 ltac:(lra) ltac:(right; right; now left)). cbv zeta in E2.
  destruct (entities_only_proper (Asset true 1 true XAxis) [Spline [[XAxis]]] []) as [P O].
  assert (K := H _ _ _ _ _ _ _ _ _ _ P O eq_refl ltac:(lra) ltac:(now left) ltac:(right; now left) ltac:(right; right; now left) E1 E2 E3).
  cbn [geometries entities_only map] in K. rewrite Cx, Cy, Cz in K. unfold convert_geometry in K. cbn [PrepareFunctor has_swap] in K. rewrite orb_true_r in K. cbn [map] in K.
  replace (SetCurrent 1 1) with 1 in K by (unfold SetCurrent; destruct (Rle_dec 1 0); [lra | field]). 
  assert (X : convert_length 1 ZtoY (convert_length 1 YtoX XAxis) = convert_length 1 ZtoX XAxis) by congruence. apply (f_equal y3) in X. cbv [convert_length vscale turn swap XAxis x3 y3 z3] in X. lra.
Qed.
Print Assumptions C89_detour_refuted.
