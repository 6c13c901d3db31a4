(** C70: the builders of transformation matrices. *)
From Coq Require Import Reals Lra Lia Psatz Bool.
From Verif Require Import MatrixModel MatrixProps QuatModel QuatProps RotModel RotProofs.
Local Open Scope R_scope.

(** ** Specification *)
Definition dot (a b : vec3) : R := x3 a * x3 b + y3 a * y3 b + z3 a * z3 b.
(** The vector [v] turned about the unit vector [u] by [t] (Rodrigues' formula). *)
Definition turned (u v : vec3) (t : R) : vec3 :=
  V3 (x3 v * cos t + (y3 u * z3 v - z3 u * y3 v) * sin t + x3 u * dot u v * (1 - cos t))
     (y3 v * cos t + (z3 u * x3 v - x3 u * z3 v) * sin t + y3 u * dot u v * (1 - cos t))
     (z3 v * cos t + (x3 u * y3 v - y3 u * x3 v) * sin t + z3 u * dot u v * (1 - cos t)).
Definition unit (u : vec3) : Prop := x3 u ^ 2 + y3 u ^ 2 + z3 u ^ 2 = 1.

Ltac ropen := cbv [product Transposed Identity RX RY RZ TranslationMatrix ScaleMatrix XAxisRotationMatrix YAxisRotationMatrix
  ZAxisRotationMatrix TransformVector TransformCoordinate vscale
  m00 m01 m02 m03 m10 m11 m12 m13 m20 m21 m22 m23 m30 m31 m32 m33 x3 y3 z3].

(** ** C70 *)
(** The matrix about a unit axis, without the test. *)
Definition axis_mat (a : vec3) (t : R) : mat :=
  Mat (x3 a ^ 2 + (y3 a ^ 2 + z3 a ^ 2) * cos t) (x3 a * y3 a * (1 - cos t) + z3 a * sin t) (x3 a * z3 a * (1 - cos t) - y3 a * sin t) 0
      (x3 a * y3 a * (1 - cos t) - z3 a * sin t) (y3 a ^ 2 + (x3 a ^ 2 + z3 a ^ 2) * cos t) (y3 a * z3 a * (1 - cos t) + x3 a * sin t) 0
      (x3 a * z3 a * (1 - cos t) + y3 a * sin t) (y3 a * z3 a * (1 - cos t) - x3 a * sin t) (z3 a ^ 2 + (x3 a ^ 2 + y3 a ^ 2) * cos t) 0
      0 0 0 1.
Lemma axis_mat_unit : forall a t, unit a -> AxisRotationMatrix a t = axis_mat a t.
Proof.
  intros a t H. unfold AxisRotationMatrix.
  replace (vLengthSquared a) with 1 by (unfold vLengthSquared; unfold unit in H; lra). rewrite equivalent_refl.
  apply mat_ext; cbv [axis_mat m00 m01 m02 m03 m10 m11 m12 m13 m20 m21 m22 m23 m30 m31 m32 m33]; ring.
Qed.
Lemma axis_mat_other : forall a t, a <> V3 0 0 0 -> FLT_TOLERANCE <= Rabs (vLengthSquared a - 1) ->
  exists u, unit u /\ a = V3 (vLength a * x3 u) (vLength a * y3 u) (vLength a * z3 u) /\ AxisRotationMatrix a t = axis_mat u t.
Proof.
  intros a t N H. assert (L := vLength_pos _ N). assert (S := vLength_sq a).
  exists (V3 (x3 a / vLength a) (y3 a / vLength a) (z3 a / vLength a)). split; [|split].
  - unfold unit. cbn [x3 y3 z3].
    replace (_ + _ + _) with ((x3 a ^ 2 + y3 a ^ 2 + z3 a ^ 2) / vLength a ^ 2) by (field; lra).
    rewrite <- S. field. lra.
  - apply vec3_ext; cbn [x3 y3 z3]; field; lra.
  - unfold AxisRotationMatrix. destruct (IsEquivalent (vLengthSquared a) 1) eqn:E.
    + apply equivalent_spec in E. lra.
    + unfold vNormalize. destruct (Rlt_dec 0 (vLength a)); [|lra].
      apply mat_ext; cbv [axis_mat m00 m01 m02 m03 m10 m11 m12 m13 m20 m21 m22 m23 m30 m31 m32 m33 x3 y3 z3]; ring.
Qed.
Lemma axis_mat_rotation : forall u t, unit u -> rotation (axis_mat u t).
Proof.
  intros [a b c] t H. unfold unit in H. cbn [x3 y3 z3] in H. pose proof (cs t) as C.
  assert (A : c ^ 2 = 1 - a ^ 2 - b ^ 2) by lra.
  set (co := cos t) in *. set (si := sin t) in *.
  assert (S : si ^ 2 = 1 - co ^ 2) by lra.
  split; [|split].
  - apply mat_ext; cbv [axis_mat]; fold co si; ropen; ring_simplify;
    replace (c ^ 4) with ((c ^ 2) ^ 2) by ring; replace (c ^ 3) with (c ^ 2 * c) by ring; rewrite ?A, ?S; ring.
  - cbv [axis_mat Determinant det3x3 det2x2 m00 m01 m02 m03 m10 m11 m12 m13 m20 m21 m22 m23 m30 m31 m32 m33 x3 y3 z3].
    fold co si. ring_simplify.
    replace (c ^ 6) with ((c ^ 2) ^ 3) by ring.
    replace (c ^ 4) with ((c ^ 2) ^ 2) by ring. rewrite ?A, ?S. ring.
  - repeat split.
Qed.
Lemma axis_mat_turned : forall u v t, unit u -> TransformVector (axis_mat u t) v = turned u v t.
Proof.
  intros [a b c] [x y z] t H. unfold unit in H. cbn [x3 y3 z3] in H.
  apply vec3_ext; cbv [axis_mat turned dot]; ropen.
  - replace (b ^ 2 + c ^ 2) with (1 - a ^ 2) by lra. ring.
  - replace (a ^ 2 + c ^ 2) with (1 - b ^ 2) by lra. ring.
  - replace (a ^ 2 + b ^ 2) with (1 - c ^ 2) by lra. ring.
Qed.
(** A rotation about an axis that is exactly of unit length, or not nearly so, turns every vector about it, by the
    given angle in the usual sense; so it is a rotation, it leaves the axis alone, and angles add up. *)
Theorem C70_axis_partial : forall a t, unit a \/ (a <> V3 0 0 0 /\ FLT_TOLERANCE <= Rabs (vLengthSquared a - 1)) ->
  exists u, unit u /\ a = V3 (vLength a * x3 u) (vLength a * y3 u) (vLength a * z3 u) /\
  rotation (AxisRotationMatrix a t) /\
  (forall v, TransformVector (AxisRotationMatrix a t) v = turned u v t) /\
  TransformVector (AxisRotationMatrix a t) a = a.
Proof.
  intros a t H.
  assert (exists u, unit u /\ a = V3 (vLength a * x3 u) (vLength a * y3 u) (vLength a * z3 u) /\ AxisRotationMatrix a t = axis_mat u t)
    as (u & U & E & M).
  { destruct H as [H|[N H]]; [|apply axis_mat_other; assumption].
    exists a. split; [exact H|]. split; [|apply axis_mat_unit, H].
    assert (L : vLength a = 1).
    { unfold vLength. replace (_ + _ + _) with 1 by (unfold unit in H; lra). apply sqrt_1. }
    rewrite L. apply vec3_ext; cbn [x3 y3 z3]; ring. }
  exists u. split; [exact U|]. split; [exact E|]. rewrite M. split; [apply axis_mat_rotation, U|].
  split; [intro v; apply axis_mat_turned, U|]. rewrite axis_mat_turned by exact U. rewrite E. revert U. unfold unit. intro U.
  set (l := vLength a).
  apply vec3_ext; cbv [turned dot x3 y3 z3]; fold (x3 u) (y3 u) (z3 u).
  - replace (x3 u * (l * x3 u) + y3 u * (l * y3 u) + z3 u * (l * z3 u)) with (l * (x3 u ^ 2 + y3 u ^ 2 + z3 u ^ 2)) by ring.
    rewrite U. ring.
  - replace (x3 u * (l * x3 u) + y3 u * (l * y3 u) + z3 u * (l * z3 u)) with (l * (x3 u ^ 2 + y3 u ^ 2 + z3 u ^ 2)) by ring.
    rewrite U. ring.
  - replace (x3 u * (l * x3 u) + y3 u * (l * y3 u) + z3 u * (l * z3 u)) with (l * (x3 u ^ 2 + y3 u ^ 2 + z3 u ^ 2)) by ring.
    rewrite U. ring.
Qed.
(** An axis whose length is nearly but not exactly one is used as it is, and the matrix is no rotation. *)
Theorem C70_axis_refuted : exists a t, a <> V3 0 0 0 /\ ~ rotation (AxisRotationMatrix a t).
Proof.
  exists (V3 (100001 / 100000) 0 0), 0. split; [intro H; apply (f_equal x3) in H; cbn in H; lra|].
  intros (H & _). revert H. unfold AxisRotationMatrix.
  replace (vLengthSquared _) with ((100001 / 100000) * (100001 / 100000)) by (unfold vLengthSquared; cbn; ring).
  assert (E : IsEquivalent (100001 / 100000 * (100001 / 100000)) 1 = true).
  { apply equivalent_spec. unfold FLT_TOLERANCE. apply Rabs_def1; lra. }
  rewrite E. intro H. apply (f_equal m00) in H. revert H. rewrite cos_0, sin_0. ropen. lra.
Qed.
Theorem C70_angles_add : forall u s t, unit u ->
  product (AxisRotationMatrix u s) (AxisRotationMatrix u t) = AxisRotationMatrix u (s + t).
Proof.
  intros u s t U. rewrite !axis_mat_unit by exact U. destruct u as [a b c]. unfold unit in U. cbn [x3 y3 z3] in U.
  assert (A : c ^ 2 = 1 - a ^ 2 - b ^ 2) by lra.
  unfold axis_mat. rewrite cos_plus, sin_plus. 
  apply mat_ext; ropen; ring_simplify;
    replace (c ^ 4) with ((c ^ 2) ^ 2) by ring; replace (c ^ 3) with (c ^ 2 * c) by ring; rewrite ?A; ring.
Qed.
(** The three axis functions are the general one; the quaternion of an axis and an angle has the same matrix. *)
Theorem C70_same_rotations : forall t u, unit u ->
  XAxisRotationMatrix t = AxisRotationMatrix XAxis t /\ YAxisRotationMatrix t = AxisRotationMatrix YAxis t /\
  ZAxisRotationMatrix t = AxisRotationMatrix ZAxis t /\
  ToMatrix (from_axis u t) = AxisRotationMatrix u t.
Proof.
  intros t u U. assert (X : unit XAxis) by (unfold unit; cbn; ring). assert (Y : unit YAxis) by (unfold unit; cbn; ring).
  assert (Z : unit ZAxis) by (unfold unit; cbn; ring).
  rewrite !axis_mat_unit by assumption.
  split; [apply mat_ext; cbv [axis_mat XAxis]; ropen; ring|]. split; [apply mat_ext; cbv [axis_mat YAxis]; ropen; ring|].
  split; [apply mat_ext; cbv [axis_mat ZAxis]; ropen; ring|].
  assert (N : norm2 (from_axis u t) = 1) by (apply from_axis_norm, U).
  rewrite ToMatrix_of by (apply unit_nonzero, N). rewrite N. destruct (half t) as (S & C & Q).
  unfold axis_mat. rewrite S, C. destruct u as [a b c]. unfold unit in U. cbn [x3 y3 z3] in U.
  assert (A : c ^ 2 = 1 - a ^ 2 - b ^ 2) by lra.
  apply mat_ext; cbv [mat_of from_axis qx qy qz qw]; ropen; field_simplify; rewrite ?A; field.
Qed.
(** EulerRotationMatrix is X * Y * Z, with angles less than the tolerance taken for zero; so it agrees with the matrix
    of EulerRotationQuaternion for other angles. *)
Definition cut (t : R) : R := if IsEquivalent t 0 then 0 else t.
Theorem C70_euler_partial : forall r,
  EulerRotationMatrix r = product (product (XAxisRotationMatrix (cut (x3 r))) (YAxisRotationMatrix (cut (y3 r)))) (ZAxisRotationMatrix (cut (z3 r))) /\
  ((forall t, t = x3 r \/ t = y3 r \/ t = z3 r -> t = 0 \/ FLT_TOLERANCE <= Rabs t) ->
   EulerRotationMatrix r = ToMatrix (EulerRotationQuaternion (x3 r) (y3 r) (z3 r))).
Proof.
  intro r.
  assert (Z : XAxisRotationMatrix 0 = Identity /\ YAxisRotationMatrix 0 = Identity /\ ZAxisRotationMatrix 0 = Identity).
  { unfold XAxisRotationMatrix, YAxisRotationMatrix, ZAxisRotationMatrix. rewrite cos_0, sin_0.
    split; [|split]; apply mat_ext; ropen; ring. }
  destruct Z as (ZX & ZY & ZZ).
  assert (E : EulerRotationMatrix r = product (product (XAxisRotationMatrix (cut (x3 r))) (YAxisRotationMatrix (cut (y3 r)))) (ZAxisRotationMatrix (cut (z3 r)))).
  { unfold EulerRotationMatrix, cut.
    destruct (IsEquivalent (x3 r) 0), (IsEquivalent (y3 r) 0), (IsEquivalent (z3 r) 0);
    rewrite ?ZX, ?ZY, ?ZZ, ?(proj1 (C42_identity _)), ?(proj2 (C42_identity _)); reflexivity. }
  split; [exact E|]. intro H. rewrite E.
  assert (C : forall t, t = x3 r \/ t = y3 r \/ t = z3 r -> cut t = t).
  { intros t T. unfold cut. destruct (IsEquivalent t 0) eqn:Q; [|reflexivity].
    apply equivalent_spec in Q. rewrite Rminus_0_r in Q. destruct (H t T); [congruence|lra]. }
  rewrite !C by auto. rewrite (proj2 (C43_euler _ _ _)), C42_associative. reflexivity.
Qed.
Theorem C70_euler_refuted : exists r, EulerRotationMatrix r <> ToMatrix (EulerRotationQuaternion (x3 r) (y3 r) (z3 r)).
Proof.
  exists (V3 (1 / 20000) 0 0). rewrite (proj1 (C70_euler_partial _)), (proj2 (C43_euler _ _ _)).
  assert (Cut : cut (1 / 20000) = 0).
  { unfold cut. replace (IsEquivalent (1 / 20000) 0) with true; [reflexivity|]. symmetry. apply equivalent_spec.
    unfold FLT_TOLERANCE. apply Rabs_def1; lra. }
  cbn [x3 y3 z3]. rewrite Cut. assert (Z : cut 0 = 0) by (unfold cut; rewrite equivalent_refl; reflexivity). rewrite Z.
  intro H. apply (f_equal m12) in H. revert H. ropen. rewrite !cos_0, !sin_0. intro H.
  assert (0 < sin (1 / 20000)).
  { apply sin_gt_0; [lra|]. pose proof PI2_3_2. lra. }
  lra.
Qed.
(** Translations and scales move and scale points; translations leave vectors alone. *)
Theorem C70_move_scale : forall t p,
  TransformCoordinate (TranslationMatrix t) p = V3 (x3 p + x3 t) (y3 p + y3 t) (z3 p + z3 t) /\
  TransformVector (TranslationMatrix t) p = p /\ GetTranslation (TranslationMatrix t) = t /\
  TransformCoordinate (ScaleMatrix t) p = V3 (x3 t * x3 p) (y3 t * y3 p) (z3 t * z3 p) /\
  affine (TranslationMatrix t) /\ affine (ScaleMatrix t).
Proof.
  intros [a b c] [x y z]. split; [apply vec3_ext; ropen; ring|]. split; [apply vec3_ext; ropen; ring|].
  split; [reflexivity|]. split; [apply vec3_ext; ropen; ring|]. split; repeat split.
Qed.
(** The rotation of FMMatrix33 goes the other way round than those of FMMatrix44. *)
Theorem C70_clockwise : forall t, n00 (RotationMatrix3 t) = m00 (ZAxisRotationMatrix (- t)) /\
  n01 (RotationMatrix3 t) = m01 (ZAxisRotationMatrix (- t)) /\ n10 (RotationMatrix3 t) = m10 (ZAxisRotationMatrix (- t)) /\
  n11 (RotationMatrix3 t) = m11 (ZAxisRotationMatrix (- t)).
Proof.
  intro t. unfold RotationMatrix3, ZAxisRotationMatrix. cbv [n00 n01 n10 n11 m00 m01 m10 m11].
  rewrite cos_neg, sin_neg. repeat split; ring.
Qed.

(** ** Examples *)
(** Axes that meet the hypotheses, and a third of a turn about the diagonal, which exchanges the axes. *)
Example C70_demo : unit (V3 (3/5) 0 (4/5)) /\ V3 1 1 1 <> V3 0 0 0 /\ FLT_TOLERANCE <= Rabs (vLengthSquared (V3 1 1 1) - 1) /\
  TransformVector (AxisRotationMatrix (V3 0 0 2) (PI / 2)) (V3 1 0 5) = V3 0 1 5.
Proof.
  assert (L : forall v, x3 v = 0 -> y3 v = 0 -> z3 v = 2 -> vLength v = 2).
  { intros v X Y Z. unfold vLength. rewrite X, Y, Z. replace (_ + _ + _) with (2 * 2) by ring. apply sqrt_square. lra. }
  split; [unfold unit; cbn; lra|]. split; [intro H; apply (f_equal x3) in H; cbn in H; lra|]. split.
  - unfold vLengthSquared. cbn [x3 y3 z3]. unfold FLT_TOLERANCE. rewrite Rabs_pos_eq; lra.
  - unfold AxisRotationMatrix. replace (IsEquivalent _ 1) with false.
    + unfold vNormalize. rewrite L by reflexivity. destruct (Rlt_dec 0 2); [|lra]. cbn [x3 y3 z3].
      rewrite cos_PI2, sin_PI2. apply vec3_ext; ropen; field.
    + symmetry. apply Bool.not_true_is_false. rewrite equivalent_spec. unfold vLengthSquared, FLT_TOLERANCE. cbn [x3 y3 z3].
      intro H. apply Rabs_def2 in H. lra.
Qed.

Print Assumptions C70_axis_partial.
Print Assumptions C70_axis_refuted.
Print Assumptions C70_angles_add.
Print Assumptions C70_same_rotations.
Print Assumptions C70_euler_partial.
Print Assumptions C70_euler_refuted.
Print Assumptions C70_move_scale.
Print Assumptions C70_clockwise.
