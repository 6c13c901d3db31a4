(** C71: Decompose and Recompose. *)
From Coq Require Import Reals Lra Lia Psatz Bool.
From Verif Require Import MatrixModel MatrixProps QuatModel QuatProps RotModel RotProofs RotProps.
Local Open Scope R_scope.

(** ** Specification *)
(** translation * rotation [x*y*z order] * scale, with the scale negated for an inverted matrix (the formula in the
    comment in FMMatrix44.cpp:109-110). *)
Definition composed (d : vec3 * vec3 * vec3 * R) : mat :=
  let '(s, r, t, inverted) := d in
  product (TranslationMatrix t) (product (XAxisRotationMatrix (x3 r)) (product (YAxisRotationMatrix (y3 r))
    (product (ZAxisRotationMatrix (z3 r)) (ScaleMatrix (V3 (inverted * x3 s) (inverted * y3 s) (inverted * z3 s)))))).
Definition column0 (m : mat) : vec3 := V3 (m00 m) (m01 m) (m02 m).
Definition column1 (m : mat) : vec3 := V3 (m10 m) (m11 m) (m12 m).
Definition column2 (m : mat) : vec3 := V3 (m20 m) (m21 m) (m22 m).
(** A translation, a rotation and a scale: the axes are at right angles to each other, and not too short. *)
Definition without_shear (m : mat) : Prop :=
  affine m /\ dot (column0 m) (column1 m) = 0 /\ dot (column0 m) (column2 m) = 0 /\ dot (column1 m) (column2 m) = 0 /\
  FLT_TOLERANCE <= vLength (column0 m) /\ FLT_TOLERANCE <= vLength (column1 m) /\ FLT_TOLERANCE <= vLength (column2 m).

(** ** Proofs *)
Lemma not_zero_far : forall s, FLT_TOLERANCE <= s -> not_zero s = s.
Proof. intros s H. unfold not_zero. rewrite equivalent_false by exact H. reflexivity. Qed.

(** The numbers of a rotation. *)
Lemma rotation_relations : forall a0 a1 a2 b0 b1 b2 c0 c1 c2,
  a0 ^ 2 + a1 ^ 2 + a2 ^ 2 = 1 -> b0 ^ 2 + b1 ^ 2 + b2 ^ 2 = 1 -> c0 ^ 2 + c1 ^ 2 + c2 ^ 2 = 1 ->
  a0 * b0 + a1 * b1 + a2 * b2 = 0 -> a0 * c0 + a1 * c1 + a2 * c2 = 0 -> b0 * c0 + b1 * c1 + b2 * c2 = 0 ->
  det3x3 a0 a1 a2 b0 b1 b2 c0 c1 c2 = 1 ->
  a0 ^ 2 + b0 ^ 2 + c0 ^ 2 = 1 /\ a0 * a1 + b0 * b1 + c0 * c1 = 0 /\ a0 * a2 + b0 * b2 + c0 * c2 = 0 /\
  c0 = a1 * b2 - a2 * b1 /\ c1 = a2 * b0 - a0 * b2 /\ c2 = a0 * b1 - a1 * b0.
Proof.
  intros a0 a1 a2 b0 b1 b2 c0 c1 c2 A B C AB AC BC D.
  set (M := Mat a0 a1 a2 0 b0 b1 b2 0 c0 c1 c2 0 0 0 0 1).
  assert (E : product (Transposed M) M = Identity).
  { apply mat_ext; cbv [M]; ropen; lra. }
  assert (DM : Determinant M = 1).
  { rewrite <- D. cbv [M Determinant det3x3 det2x2 m00 m01 m02 m03 m10 m11 m12 m13 m20 m21 m22 m23 m30 m31 m32 m33]. ring. }
  assert (P : product M (Transposed M) = Identity).
  { assert (F : epsilon < Rabs (Determinant M)) by (rewrite DM, Rabs_R1; unfold epsilon; lra).
    rewrite (C42_inverse_unique M (Transposed M) F (or_introl E)). apply C42_inverse, F. }
  assert (P0 := f_equal m00 P). assert (P1 := f_equal m01 P). assert (P2 := f_equal m02 P).
  revert P0 P1 P2. cbv [M]. ropen. intros P0 P1 P2.
  split; [lra|]. split; [lra|]. split; [lra|].
  (* a x b = c *)
  unfold det3x3, det2x2 in D.
  assert (Z : (a1 * b2 - a2 * b1 - c0) ^ 2 + (a2 * b0 - a0 * b2 - c1) ^ 2 + (a0 * b1 - a1 * b0 - c2) ^ 2 = 0).
  { replace (_ + _ + _) with ((a0 ^ 2 + a1 ^ 2 + a2 ^ 2) * (b0 ^ 2 + b1 ^ 2 + b2 ^ 2) - (a0 * b0 + a1 * b1 + a2 * b2) ^ 2
      - 2 * (a0 * (b1 * c2 - c1 * b2) - b0 * (a1 * c2 - c1 * a2) + c0 * (a1 * b2 - b1 * a2)) + (c0 ^ 2 + c1 ^ 2 + c2 ^ 2)) by ring.
    rewrite A, B, C, AB, D. ring. }
  pose proof (pow2_ge_0 (a1 * b2 - a2 * b1 - c0)). pose proof (pow2_ge_0 (a2 * b0 - a0 * b2 - c1)).
  pose proof (pow2_ge_0 (a0 * b1 - a1 * b0 - c2)).
  assert (G : forall v, v ^ 2 = 0 -> v = 0) by (intros v V; nra).
  split; [|split].
  - assert (a1 * b2 - a2 * b1 - c0 = 0) by (apply G; lra). lra.
  - assert (a2 * b0 - a0 * b2 - c1 = 0) by (apply G; lra). lra.
  - assert (a0 * b1 - a1 * b0 - c2 = 0) by (apply G; lra). lra.
Qed.
(** The angles of a rotation. *)
Lemma euler_angles : forall a0 a1 a2 b0 b1 b2 c0 c1 c2 k,
  a0 ^ 2 + a1 ^ 2 + a2 ^ 2 = 1 -> b0 ^ 2 + b1 ^ 2 + b2 ^ 2 = 1 -> c0 ^ 2 + c1 ^ 2 + c2 ^ 2 = 1 ->
  a0 * b0 + a1 * b1 + a2 * b2 = 0 -> a0 * c0 + a1 * c1 + a2 * c2 = 0 -> b0 * c0 + b1 * c1 + b2 * c2 = 0 ->
  det3x3 a0 a1 a2 b0 b1 b2 c0 c1 c2 = 1 ->
  0 < k -> k ^ 2 = 1 - c0 ^ 2 ->
  let rx := atan2 (- c1 / k) (c2 / k) in let rz := atan2 (- b0 / k) (a0 / k) in
  cos rx = c2 / k /\ sin rx = - c1 / k /\ cos rz = a0 / k /\ sin rz = - b0 / k /\
  a1 = cos rx * sin rz + sin rx * c0 * cos rz /\ a2 = sin rx * sin rz - cos rx * c0 * cos rz /\
  b1 = cos rx * cos rz - sin rx * c0 * sin rz /\ b2 = sin rx * cos rz + cos rx * c0 * sin rz.
Proof.
  intros a0 a1 a2 b0 b1 b2 c0 c1 c2 k A B C AB AC BC D K K2.
  destruct (rotation_relations a0 a1 a2 b0 b1 b2 c0 c1 c2 A B C AB AC BC D) as (R0 & R1 & R2 & C0 & C1 & C2).
  cbv zeta.
  destruct (atan2_spec (- c1 / k) (c2 / k) 1) as [CX SX]; [lra| |].
  { replace (_ + _) with ((c2 ^ 2 + c1 ^ 2) / k ^ 2) by (field; lra). rewrite K2. replace (c2 ^ 2 + c1 ^ 2) with (1 - c0 ^ 2) by lra.
    field. rewrite <- K2. apply pow_nonzero. lra. }
  destruct (atan2_spec (- b0 / k) (a0 / k) 1) as [CZ SZ]; [lra| |].
  { replace (_ + _) with ((a0 ^ 2 + b0 ^ 2) / k ^ 2) by (field; lra). rewrite K2. replace (a0 ^ 2 + b0 ^ 2) with (1 - c0 ^ 2) by lra.
    field. rewrite <- K2. apply pow_nonzero. lra. }
  rewrite Rmult_1_l in CX, SX, CZ, SZ. rewrite CX, SX, CZ, SZ.
  split; [reflexivity|]. split; [reflexivity|]. split; [reflexivity|]. split; [reflexivity|].
  assert (KN : k ^ 2 <> 0) by (apply pow_nonzero; lra).
  assert (S : a0 ^ 2 + b0 ^ 2 = k ^ 2) by lra.
  assert (G : forall u v, u * k ^ 2 = v -> u = v / k ^ 2) by (intros u v <-; field; lra).
  split; [|split; [|split]].
  - replace (_ + _) with ((- c2 * b0 - c1 * c0 * a0) / k ^ 2) by (field; lra). apply G. rewrite <- S.
    replace (a1 * (a0 ^ 2 + b0 ^ 2)) with (a0 * (a0 * a1 + b0 * b1) - b0 * (a0 * b1 - a1 * b0)) by ring.
    rewrite <- C2. replace (a0 * a1 + b0 * b1) with (- (c0 * c1)) by lra. ring.
  - replace (_ - _) with ((c1 * b0 - c2 * c0 * a0) / k ^ 2) by (field; lra). apply G. rewrite <- S.
    replace (a2 * (a0 ^ 2 + b0 ^ 2)) with (a0 * (a0 * a2 + b0 * b2) + b0 * (a2 * b0 - a0 * b2)) by ring.
    rewrite <- C1. replace (a0 * a2 + b0 * b2) with (- (c0 * c2)) by lra. ring.
  - replace (_ - _) with ((c2 * a0 - c1 * c0 * b0) / k ^ 2) by (field; lra). apply G. rewrite <- S.
    replace (b1 * (a0 ^ 2 + b0 ^ 2)) with (b0 * (a0 * a1 + b0 * b1) + a0 * (a0 * b1 - a1 * b0)) by ring.
    rewrite <- C2. replace (a0 * a1 + b0 * b1) with (- (c0 * c1)) by lra. ring.
  - replace (_ + _) with ((- c1 * a0 - c2 * c0 * b0) / k ^ 2) by (field; lra). apply G. rewrite <- S.
    replace (b2 * (a0 ^ 2 + b0 ^ 2)) with (b0 * (a0 * a2 + b0 * b2) - a0 * (a2 * b0 - a0 * b2)) by ring.
    rewrite <- C1. replace (a0 * a2 + b0 * b2) with (- (c0 * c2)) by lra. ring.
Qed.
Lemma sq_zero : forall v, v ^ 2 = 0 -> v = 0.
Proof. intros v H. nra. Qed.
Lemma pole_angles : forall a0 a1 a2 b0 b1 b2 c0 c1 c2,
  a0 ^ 2 + a1 ^ 2 + a2 ^ 2 = 1 -> b0 ^ 2 + b1 ^ 2 + b2 ^ 2 = 1 -> c0 ^ 2 + c1 ^ 2 + c2 ^ 2 = 1 ->
  a0 * b0 + a1 * b1 + a2 * b2 = 0 -> a0 * c0 + a1 * c1 + a2 * c2 = 0 -> b0 * c0 + b1 * c1 + b2 * c2 = 0 ->
  det3x3 a0 a1 a2 b0 b1 b2 c0 c1 c2 = 1 -> c0 = 1 \/ c0 = -1 ->
  a0 = 0 /\ b0 = 0 /\ c1 = 0 /\ c2 = 0 /\ cos (atan2 b2 b1) = b1 /\ sin (atan2 b2 b1) = b2 /\
  a1 = b2 * c0 /\ a2 = - (b1 * c0).
Proof.
  intros a0 a1 a2 b0 b1 b2 c0 c1 c2 A B C AB AC BC D U.
  destruct (rotation_relations a0 a1 a2 b0 b1 b2 c0 c1 c2 A B C AB AC BC D) as (R0 & R1 & R2 & C0 & C1 & C2).
  assert (SQ : c0 ^ 2 = 1) by (destruct U as [-> | ->]; ring).
  pose proof (pow2_ge_0 c1). pose proof (pow2_ge_0 c2). pose proof (pow2_ge_0 a0). pose proof (pow2_ge_0 b0).
  assert (Z1 : c1 = 0) by (apply sq_zero; lra). assert (Z2 : c2 = 0) by (apply sq_zero; lra).
  assert (Z3 : a0 = 0) by (apply sq_zero; lra). assert (Z4 : b0 = 0) by (apply sq_zero; lra).
  assert (BB : b1 ^ 2 + b2 ^ 2 = 1 ^ 2) by (rewrite Z4 in B; lra).
  destruct (atan2_spec b2 b1 1) as [CX SX]; [lra|exact BB|]. rewrite Rmult_1_l in CX, SX.
  assert (BA : a1 * b1 = - (a2 * b2)) by (rewrite Z3 in AB; lra).
  repeat (split; [assumption|]). split.
  - rewrite C0. replace a1 with (a1 * (b1 ^ 2 + b2 ^ 2)) at 1 by (rewrite BB; ring).
    replace (a1 * (b1 ^ 2 + b2 ^ 2)) with (b1 * (a1 * b1) + a1 * b2 ^ 2) by ring. rewrite BA. ring.
  - rewrite C0. replace a2 with (a2 * (b1 ^ 2 + b2 ^ 2)) at 1 by (rewrite BB; ring).
    replace (a2 * (b1 ^ 2 + b2 ^ 2)) with (a2 * b1 ^ 2 + b2 * (a2 * b2)) by ring.
    replace (a2 * b2) with (- (a1 * b1)) by lra. ring.
Qed.
Lemma orthogonal_det : forall p0 p1 p2 q0 q1 q2 r0 r1 r2 sx sy sz, 0 < sx -> 0 < sy -> 0 < sz ->
  p0 ^ 2 + p1 ^ 2 + p2 ^ 2 = sx ^ 2 -> q0 ^ 2 + q1 ^ 2 + q2 ^ 2 = sy ^ 2 -> r0 ^ 2 + r1 ^ 2 + r2 ^ 2 = sz ^ 2 ->
  p0 * q0 + p1 * q1 + p2 * q2 = 0 -> p0 * r0 + p1 * r1 + p2 * r2 = 0 -> q0 * r0 + q1 * r1 + q2 * r2 = 0 ->
  let d := det3x3 p0 p1 p2 q0 q1 q2 r0 r1 r2 in
  (Sign d = 1 \/ Sign d = -1) /\ d = Sign d * (sx * sy * sz).
Proof.
  intros p0 p1 p2 q0 q1 q2 r0 r1 r2 sx sy sz X Y Z P Q R PQ PR QR d.
  assert (E : d ^ 2 = (sx * sy * sz) ^ 2).
  { replace ((sx * sy * sz) ^ 2) with (sx ^ 2 * sy ^ 2 * sz ^ 2) by ring. rewrite <- P, <- Q, <- R.
    replace (d ^ 2) with ((p0 ^ 2 + p1 ^ 2 + p2 ^ 2) * (q0 ^ 2 + q1 ^ 2 + q2 ^ 2) * (r0 ^ 2 + r1 ^ 2 + r2 ^ 2)
      + 2 * (p0 * q0 + p1 * q1 + p2 * q2) * (q0 * r0 + q1 * r1 + q2 * r2) * (p0 * r0 + p1 * r1 + p2 * r2)
      - (p0 ^ 2 + p1 ^ 2 + p2 ^ 2) * (q0 * r0 + q1 * r1 + q2 * r2) ^ 2
      - (q0 ^ 2 + q1 ^ 2 + q2 ^ 2) * (p0 * r0 + p1 * r1 + p2 * r2) ^ 2
      - (r0 ^ 2 + r1 ^ 2 + r2 ^ 2) * (p0 * q0 + p1 * q1 + p2 * q2) ^ 2) by (unfold d, det3x3, det2x2; ring).
    rewrite PQ, PR, QR. ring. }
  assert (V : 0 < sx * sy * sz) by (apply Rmult_lt_0_compat; [apply Rmult_lt_0_compat|]; assumption).
  unfold Sign. destruct (Rle_dec 0 d) as [G|G].
  - split; [left; reflexivity|]. rewrite Rmult_1_l. apply sq_pos_inj; [|exact V|exact E].
    destruct G as [G|G]; [exact G|]. rewrite <- G in E. exfalso. nra.
  - split; [right; reflexivity|]. assert (- d = sx * sy * sz); [|lra]. apply sq_pos_inj; [lra|exact V|]. rewrite <- E. ring.
Qed.
Lemma flip_sign : forall i s, i = 1 \/ i = -1 -> (if Rlt_dec i 0 then - s else s) = i * s.
Proof. intros i s [-> | ->]; destruct (Rlt_dec _ 0); lra. Qed.
Lemma len_sq : forall a b c, sqrt (a * a + b * b + c * c) ^ 2 = a ^ 2 + b ^ 2 + c ^ 2.
Proof. intros a b c. rewrite pow2_sqrt; [ring|nra]. Qed.

(** ** Theorems *)
(** A matrix without shear is the product of the parts that Decompose returns, unless its z axis is nearly parallel
    to the x axis of the outer space; there it is so if it is exactly parallel. *)
Theorem C71_decompose_partial : forall m, without_shear m ->
  let l := vLength (column2 m) in
  Rabs (m20 m) < (1 - FLT_TOLERANCE) * l \/ Rabs (m20 m) = l ->
  composed (Decompose m) = m.
Proof.
  intros m (AF & PQ & PR & QR & LX & LY & LZ). cbv zeta. intro H.
  destruct m as [p0 p1 p2 p3 q0 q1 q2 q3 r0 r1 r2 r3 t0 t1 t2 t3].
  unfold affine in AF. cbv [m03 m13 m23 m33] in AF. destruct AF as (-> & -> & -> & ->).
  unfold column0, column1, column2, dot, vLength in *.
  cbv [m00 m01 m02 m03 m10 m11 m12 m13 m20 m21 m22 m23 m30 m31 m32 m33 x3 y3 z3] in *.
  unfold Decompose. cbv [m00 m01 m02 m03 m10 m11 m12 m13 m20 m21 m22 m23 m30 m31 m32 m33].
  rewrite !not_zero_far by assumption.
  assert (SX := len_sq p0 p1 p2). assert (SY := len_sq q0 q1 q2). assert (SZ := len_sq r0 r1 r2).
  set (sx := sqrt (p0 * p0 + p1 * p1 + p2 * p2)) in *. set (sy := sqrt (q0 * q0 + q1 * q1 + q2 * q2)) in *.
  set (sz := sqrt (r0 * r0 + r1 * r1 + r2 * r2)) in *.
  assert (T := tolerance_pos).
  destruct (orthogonal_det p0 p1 p2 q0 q1 q2 r0 r1 r2 sx sy sz) as [G D]; try lra.
  set (g := Sign (det3x3 p0 p1 p2 q0 q1 q2 r0 r1 r2)) in *.
  rewrite !flip_sign by exact G.
  assert (G2 : g * g = 1) by (destruct G as [-> | ->]; ring).
  assert (G0 : g <> 0) by (destruct G as [-> | ->]; lra).
  assert (X0 : g * sx <> 0) by (apply Rmult_integral_contrapositive; split; [exact G0|lra]).
  assert (Y0 : g * sy <> 0) by (apply Rmult_integral_contrapositive; split; [exact G0|lra]).
  assert (Z0 : g * sz <> 0) by (apply Rmult_integral_contrapositive; split; [exact G0|lra]).
  set (a0 := p0 / (g * sx)). set (a1 := p1 / (g * sx)). set (a2 := p2 / (g * sx)).
  set (b0 := q0 / (g * sy)). set (b1 := q1 / (g * sy)). set (b2 := q2 / (g * sy)).
  set (c0 := r0 / (g * sz)). set (c1 := r1 / (g * sz)). set (c2 := r2 / (g * sz)).
  assert (Pa0 : p0 = a0 * (g * sx)) by (unfold a0; field; split; [lra|exact G0]).
  assert (Pa1 : p1 = a1 * (g * sx)) by (unfold a1; field; split; [lra|exact G0]).
  assert (Pa2 : p2 = a2 * (g * sx)) by (unfold a2; field; split; [lra|exact G0]).
  assert (Pb0 : q0 = b0 * (g * sy)) by (unfold b0; field; split; [lra|exact G0]).
  assert (Pb1 : q1 = b1 * (g * sy)) by (unfold b1; field; split; [lra|exact G0]).
  assert (Pb2 : q2 = b2 * (g * sy)) by (unfold b2; field; split; [lra|exact G0]).
  assert (Pc0 : r0 = c0 * (g * sz)) by (unfold c0; field; split; [lra|exact G0]).
  assert (Pc1 : r1 = c1 * (g * sz)) by (unfold c1; field; split; [lra|exact G0]).
  assert (Pc2 : r2 = c2 * (g * sz)) by (unfold c2; field; split; [lra|exact G0]).
  assert (NZ : forall u v s, s <> 0 -> u * s = v * s -> u = v) by (intros u v s S E; apply Rmult_eq_reg_r with s; assumption).
  assert (X2 : (g * sx) ^ 2 = sx ^ 2) by (replace ((g * sx) ^ 2) with (g * g * sx ^ 2) by ring; rewrite G2; ring).
  assert (Y2 : (g * sy) ^ 2 = sy ^ 2) by (replace ((g * sy) ^ 2) with (g * g * sy ^ 2) by ring; rewrite G2; ring).
  assert (Z2 : (g * sz) ^ 2 = sz ^ 2) by (replace ((g * sz) ^ 2) with (g * g * sz ^ 2) by ring; rewrite G2; ring).
  assert (A : a0 ^ 2 + a1 ^ 2 + a2 ^ 2 = 1).
  { apply (NZ _ _ ((g * sx) ^ 2)); [apply pow_nonzero; exact X0|]. rewrite X2 at 2. rewrite SX, Pa0, Pa1, Pa2. ring. }
  assert (B : b0 ^ 2 + b1 ^ 2 + b2 ^ 2 = 1).
  { apply (NZ _ _ ((g * sy) ^ 2)); [apply pow_nonzero; exact Y0|]. rewrite Y2 at 2. rewrite SY, Pb0, Pb1, Pb2. ring. }
  assert (C : c0 ^ 2 + c1 ^ 2 + c2 ^ 2 = 1).
  { apply (NZ _ _ ((g * sz) ^ 2)); [apply pow_nonzero; exact Z0|]. rewrite Z2 at 2. rewrite SZ, Pc0, Pc1, Pc2. ring. }
  assert (AB : a0 * b0 + a1 * b1 + a2 * b2 = 0).
  { apply (NZ _ _ ((g * sx) * (g * sy))); [apply Rmult_integral_contrapositive; split; assumption|].
    rewrite Rmult_0_l, <- PQ, Pa0, Pa1, Pa2, Pb0, Pb1, Pb2. ring. }
  assert (AC : a0 * c0 + a1 * c1 + a2 * c2 = 0).
  { apply (NZ _ _ ((g * sx) * (g * sz))); [apply Rmult_integral_contrapositive; split; assumption|].
    rewrite Rmult_0_l, <- PR, Pa0, Pa1, Pa2, Pc0, Pc1, Pc2. ring. }
  assert (BC : b0 * c0 + b1 * c1 + b2 * c2 = 0).
  { apply (NZ _ _ ((g * sy) * (g * sz))); [apply Rmult_integral_contrapositive; split; assumption|].
    rewrite Rmult_0_l, <- QR, Pb0, Pb1, Pb2, Pc0, Pc1, Pc2. ring. }
  assert (DT : det3x3 a0 a1 a2 b0 b1 b2 c0 c1 c2 = 1).
  { apply (NZ _ _ ((g * sx) * (g * sy) * (g * sz))).
    - apply Rmult_integral_contrapositive; split; [apply Rmult_integral_contrapositive; split|]; assumption.
    - rewrite Rmult_1_l. transitivity (det3x3 p0 p1 p2 q0 q1 q2 r0 r1 r2).
      + rewrite Pa0, Pa1, Pa2, Pb0, Pb1, Pb2, Pc0, Pc1, Pc2. unfold det3x3, det2x2. ring.
      + rewrite D. replace (g * sx * (g * sy) * (g * sz)) with (g * g * (g * (sx * sy * sz))) by ring. rewrite G2. ring. }
  assert (AbsC : Rabs c0 = Rabs r0 / sz).
  { unfold c0, Rdiv. rewrite Rabs_mult, Rabs_inv, Rabs_mult, (Rabs_pos_eq sz) by lra.
    replace (Rabs g) with 1; [rewrite Rmult_1_l; reflexivity|]. destruct G as [-> | ->]; [rewrite Rabs_R1|rewrite Rabs_left]; lra. }
  assert (FIN : forall rx ry rz,
    a0 = cos ry * cos rz -> a1 = cos rx * sin rz + sin rx * sin ry * cos rz -> a2 = sin rx * sin rz - cos rx * sin ry * cos rz ->
    b0 = - (cos ry * sin rz) -> b1 = cos rx * cos rz - sin rx * sin ry * sin rz -> b2 = sin rx * cos rz + cos rx * sin ry * sin rz ->
    c0 = sin ry -> c1 = - (sin rx * cos ry) -> c2 = cos rx * cos ry ->
    composed (V3 sx sy sz, V3 rx ry rz, V3 t0 t1 t2, g) = Mat p0 p1 p2 0 q0 q1 q2 0 r0 r1 r2 0 t0 t1 t2 1).
  { intros rx ry rz E1 E2 E3 E4 E5 E6 E7 E8 E9. rewrite Pa0, Pa1, Pa2, Pb0, Pb1, Pb2, Pc0, Pc1, Pc2.
    rewrite E1, E2, E3, E4, E5, E6, E7, E8, E9. unfold composed. apply mat_ext; ropen; ring. }
  unfold GetTranslation. cbv [m30 m31 m32].
  destruct H as [H|H].
  - assert (U : - (1 - FLT_TOLERANCE) < c0 < 1 - FLT_TOLERANCE).
    { assert (Rabs c0 < 1 - FLT_TOLERANCE).
      { rewrite AbsC. apply Rmult_lt_reg_r with sz; [lra|]. unfold Rdiv. rewrite Rmult_assoc, Rinv_l, Rmult_1_r by lra. exact H. }
      apply Rabs_def2 in H0. lra. }
    destruct (Rle_dec (1 - FLT_TOLERANCE) c0); [lra|]. destruct (Rle_dec c0 (-1 + FLT_TOLERANCE)); [lra|].
    assert (S : sin (asin c0) = c0) by (apply sin_asin; lra).
    assert (K : 0 <= cos (asin c0)) by (apply cos_ge_0; destruct (asin_bound c0); lra).
    assert (K2 : cos (asin c0) ^ 2 = 1 - c0 ^ 2) by (rewrite (cs (asin c0)), S; reflexivity).
    set (k := cos (asin c0)) in *.
    assert (KB : replacement3 < k).
    { assert (replacement3 ^ 2 < k ^ 2).
      { rewrite K2. assert (c0 ^ 2 <= (1 - FLT_TOLERANCE) ^ 2) by nra. revert H0. unfold replacement3, FLT_TOLERANCE. lra. }
      unfold replacement3 in *. nra. }
    assert (KP : 0 < k) by (unfold replacement3 in KB; lra).
    destruct (Rlt_dec replacement3 (Rabs k)) as [_|N]; [|rewrite Rabs_pos_eq in N by lra; contradiction].
    destruct (euler_angles a0 a1 a2 b0 b1 b2 c0 c1 c2 k A B C AB AC BC DT KP K2) as (CX & SX' & CZ & SZ' & E1 & E2 & E3 & E4).
    replace (- r1 / (g * sz) / k) with (- c1 / k) by (unfold c1; field; repeat split; lra || exact G0).
    replace (- q0 / (g * sy) / k) with (- b0 / k) by (unfold b0; field; repeat split; lra || exact G0).
    apply FIN; rewrite ?S; fold k; try assumption.
    + rewrite CZ. field. lra.
    + rewrite SZ'. field. lra.
    + reflexivity.
    + rewrite SX'. field. lra.
    + rewrite CX. field. lra.
  - assert (U : c0 = 1 \/ c0 = -1).
    { assert (Rabs c0 = 1) by (rewrite AbsC, H; field; lra). unfold Rabs in H0. destruct (Rcase_abs c0); [right|left]; lra. }
    destruct (pole_angles a0 a1 a2 b0 b1 b2 c0 c1 c2 A B C AB AC BC DT U) as (E1 & E2 & E3 & E4 & E5 & E6 & E7 & E8).
    assert (NK : forall P Q : R * R, (if Rlt_dec replacement3 (Rabs 0) then P else Q) = Q).
    { intros P Q. destruct (Rlt_dec replacement3 (Rabs 0)) as [N|N]; [|reflexivity].
      exfalso. rewrite Rabs_R0 in N. unfold replacement3 in N. lra. }
    destruct U as [U|U]; rewrite U in *.
    + destruct (Rle_dec (1 - FLT_TOLERANCE) 1); [|lra]. rewrite NK.
      apply FIN; rewrite ?sin_PI2, ?cos_PI2, ?cos_0, ?sin_0; lra.
    + destruct (Rle_dec (1 - FLT_TOLERANCE) (-1)) as [N|_]; [exfalso; revert N; unfold FLT_TOLERANCE; lra|].
      destruct (Rle_dec (-1) (-1 + FLT_TOLERANCE)); [|lra]. rewrite NK.
      replace (PI / -2) with (- (PI / 2)) by field.
      apply FIN; rewrite ?sin_neg, ?cos_neg, ?sin_PI2, ?cos_PI2, ?cos_0, ?sin_0; lra.
Qed.

(** Recompose multiplies in the order z * y * x. *)
Lemma recompose_order : forall s r t i, Recompose s r t i =
  product (TranslationMatrix t) (product (ZAxisRotationMatrix (z3 r)) (product (YAxisRotationMatrix (y3 r))
    (product (XAxisRotationMatrix (x3 r)) (ScaleMatrix (V3 (i * x3 s) (i * y3 s) (i * z3 s)))))).
Proof.
  intros s r t i. unfold Recompose.
  assert (U : unit XAxis) by (unfold unit; cbn; ring).
  destruct (C70_same_rotations (x3 r) XAxis U) as (<- & _). destruct (C70_same_rotations (y3 r) XAxis U) as (_ & <- & _).
  destruct (C70_same_rotations (z3 r) XAxis U) as (_ & _ & <- & _).
  rewrite <- !C42_associative. reflexivity.
Qed.
Lemma zero_rotations : XAxisRotationMatrix 0 = Identity /\ YAxisRotationMatrix 0 = Identity /\ ZAxisRotationMatrix 0 = Identity.
Proof.
  unfold XAxisRotationMatrix, YAxisRotationMatrix, ZAxisRotationMatrix. rewrite cos_0, sin_0.
  split; [|split]; apply mat_ext; ropen; ring.
Qed.
(** Recompose builds the matrix again that Decompose was given, if at least two of the three angles are zero. *)
Theorem C71_recompose_partial : forall m s r t i, without_shear m ->
  Rabs (m20 m) < (1 - FLT_TOLERANCE) * vLength (column2 m) \/ Rabs (m20 m) = vLength (column2 m) ->
  Decompose m = (s, r, t, i) ->
  (x3 r = 0 /\ y3 r = 0) \/ (x3 r = 0 /\ z3 r = 0) \/ (y3 r = 0 /\ z3 r = 0) ->
  Recompose s r t i = m.
Proof.
  intros m s r t i W H D Z. rewrite <- (C71_decompose_partial m W H), D. rewrite recompose_order. unfold composed.
  destruct zero_rotations as (ZX & ZY & ZZ).
  destruct Z as [[-> ->]|[[-> ->]|[-> ->]]]; rewrite ?ZX, ?ZY, ?ZZ, ?(proj1 (C42_identity _)); reflexivity.
Qed.
(** In general it does not: a rotation about y followed by one about x comes back as another rotation. *)
Theorem C71_recompose_refuted : exists m, rotation m /\ without_shear m /\
  Rabs (m20 m) < (1 - FLT_TOLERANCE) * vLength (column2 m) /\
  (let '(s, r, t, i) := Decompose m in Recompose s r t i) <> m.
Proof.
  exists (Mat (4/5) (9/25) (-12/25) 0  0 (4/5) (3/5) 0  (3/5) (-12/25) (16/25) 0  0 0 0 1).
  set (m := Mat _ _ _ _ _ _ _ _ _ _ _ _ _ _ _ _).
  assert (L : vLength (column0 m) = 1 /\ vLength (column1 m) = 1 /\ vLength (column2 m) = 1).
  { unfold vLength, column0, column1, column2, m. cbv [m00 m01 m02 m03 m10 m11 m12 m13 m20 m21 m22 m23 x3 y3 z3].
    split; [|split]; (replace (_ + _ + _) with 1 by field); apply sqrt_1. }
  destruct L as (L0 & L1 & L2).
  assert (W : without_shear m).
  { split; [repeat split|]. rewrite L0, L1, L2. unfold dot, column0, column1, column2, m. cbv [m00 m01 m02 m03 m10 m11 m12 m13 m20 m21 m22 m23 x3 y3 z3].
    assert (FLT_TOLERANCE <= 1) by (unfold FLT_TOLERANCE; lra). repeat split; lra. }
  assert (H : Rabs (m20 m) < (1 - FLT_TOLERANCE) * vLength (column2 m)).
  { rewrite L2. unfold m, FLT_TOLERANCE. cbn [m20]. rewrite Rabs_pos_eq; lra. }
  split.
  { split; [|split].
    - apply mat_ext; cbv [m]; ropen; field.
    - cbv [m Determinant det3x3 det2x2 m00 m01 m02 m03 m10 m11 m12 m13 m20 m21 m22 m23 m30 m31 m32 m33]. field.
    - repeat split. }
  split; [exact W|]. split; [exact H|].
  assert (E := C71_decompose_partial m W (or_introl H)).
  destruct (Decompose m) as [[[s r] t] i]. rewrite recompose_order. unfold composed in E.
  assert (E1 := f_equal m10 E). assert (E2 := f_equal m11 E). revert E1 E2. unfold m. clear E. ropen.
  intros E1 E2 F. apply (f_equal m01) in F. revert F. unfold m. ropen. destruct s as [s0 s1 s2], r as [r0 r1 r2]. cbv [x3 y3 z3] in *.
  intro F. set (g := i * s1) in *.
  assert (G : g <> 0).
  { intro G. rewrite G in E2. lra. }
  assert (Z : cos r1 * sin r2 * g = 0) by lra.
  apply Rmult_integral in Z. destruct Z as [Z|Z]; [|contradiction].
  assert (sin r2 * cos r1 * (i * s0) = 9 / 25) by lra.
  rewrite (Rmult_comm (sin r2)), Z in H0. lra.
Qed.
(** Near the pole the angle is rounded: a rotation about y by 0.57 degrees less than a right angle is returned as a
    right angle. *)
Theorem C71_pole_refuted : exists m, rotation m /\ without_shear m /\ composed (Decompose m) <> m.
Proof.
  exists (Mat (400/40001) 0 (-39999/40001) 0  0 1 0 0  (39999/40001) 0 (400/40001) 0  0 0 0 1).
  set (m := Mat _ _ _ _ _ _ _ _ _ _ _ _ _ _ _ _).
  assert (L : vLength (column0 m) = 1 /\ vLength (column1 m) = 1 /\ vLength (column2 m) = 1).
  { unfold vLength, column0, column1, column2, m. cbv [m00 m01 m02 m03 m10 m11 m12 m13 m20 m21 m22 m23 x3 y3 z3].
    split; [|split]; (replace (_ + _ + _) with 1 by field); apply sqrt_1. }
  destruct L as (L0 & L1 & L2).
  split.
  { split; [|split].
    - apply mat_ext; cbv [m]; ropen; field.
    - cbv [m Determinant det3x3 det2x2 m00 m01 m02 m03 m10 m11 m12 m13 m20 m21 m22 m23 m30 m31 m32 m33]. field.
    - repeat split. }
  split.
  { split; [repeat split|]. rewrite L0, L1, L2. unfold dot, column0, column1, column2, m. cbv [m00 m01 m02 m03 m10 m11 m12 m13 m20 m21 m22 m23 x3 y3 z3].
    assert (FLT_TOLERANCE <= 1) by (unfold FLT_TOLERANCE; lra). repeat split; lra. }
  unfold Decompose.
  change (sqrt (m20 m * m20 m + m21 m * m21 m + m22 m * m22 m)) with (vLength (column2 m)). rewrite L2.
  replace (Sign _) with 1.
  2: { unfold m, Sign, det3x3, det2x2. cbn [m00 m01 m02 m10 m11 m12 m20 m21 m22]. destruct (Rle_dec _ _); [reflexivity|lra]. }
  destruct (Rlt_dec 1 0); [lra|].
  assert (T : not_zero 1 = 1) by (apply not_zero_far; unfold FLT_TOLERANCE; lra). rewrite T.
  destruct (Rle_dec (1 - FLT_TOLERANCE) (m20 m / 1)) as [_|N].
  2: { exfalso. apply N. unfold m, FLT_TOLERANCE. cbn [m20]. lra. }
  destruct (Rlt_dec _ (Rabs 0)) as [N|_]; [rewrite Rabs_R0 in N; unfold replacement3 in N; lra|].
  unfold composed. intro H. apply (f_equal m20) in H. revert H. ropen. rewrite sin_PI2, cos_PI2.
  unfold m. cbn [m20]. lra.
Qed.

(** ** Examples *)
(** A mirrored matrix with translation and three different scales meets the hypotheses. *)
Example C71_demo : let m := Mat 0 2 0 0  3 0 0 0  0 0 5 0  7 8 9 1 in
  without_shear m /\ Rabs (m20 m) < (1 - FLT_TOLERANCE) * vLength (column2 m) /\ composed (Decompose m) = m /\
  snd (Decompose m) = -1.
Proof.
  cbv zeta. set (m := Mat _ _ _ _ _ _ _ _ _ _ _ _ _ _ _ _).
  assert (L0 : vLength (column0 m) = 2).
  { unfold vLength, column0, m. cbn [m00 m01 m02 x3 y3 z3]. replace (_ + _ + _) with (2 * 2) by ring. apply sqrt_square. lra. }
  assert (L1 : vLength (column1 m) = 3).
  { unfold vLength, column1, m. cbn [m10 m11 m12 x3 y3 z3]. replace (_ + _ + _) with (3 * 3) by ring. apply sqrt_square. lra. }
  assert (L2 : vLength (column2 m) = 5).
  { unfold vLength, column2, m. cbn [m20 m21 m22 x3 y3 z3]. replace (_ + _ + _) with (5 * 5) by ring. apply sqrt_square. lra. }
  assert (W : without_shear m).
  { split; [repeat split|]. rewrite L0, L1, L2. unfold dot, column0, column1, column2, m. cbn [m00 m01 m02 m10 m11 m12 m20 m21 m22 x3 y3 z3].
    unfold FLT_TOLERANCE. repeat split; lra. }
  assert (H : Rabs (m20 m) < (1 - FLT_TOLERANCE) * vLength (column2 m)).
  { rewrite L2. unfold m, FLT_TOLERANCE. cbn [m20]. rewrite Rabs_R0. lra. }
  split; [exact W|]. split; [exact H|]. split; [apply C71_decompose_partial; auto|].
  unfold Decompose. repeat (match goal with |- context [let '(_, _) := ?x in _] => destruct x end). cbn [snd].
  unfold m, Sign, det3x3, det2x2. cbn [m00 m01 m02 m10 m11 m12 m20 m21 m22]. destruct (Rle_dec _ _); [lra|reflexivity].
Qed.

Print Assumptions C71_decompose_partial.
Print Assumptions C71_recompose_partial.
Print Assumptions C71_recompose_refuted.
Print Assumptions C71_pole_refuted.
