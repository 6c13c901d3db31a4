(** C72-C74: the look-at matrix, quaternions from and to other descriptions of rotations, and their interpolation. *)
From Coq Require Import Reals Lra Lia Psatz Bool.
From Verif Require Import MatrixModel MatrixProps QuatModel QuatProps RotModel RotProofs RotProps RotDecompose.
Local Open Scope R_scope.

(** ** C72: specification *)
(** The upper left part is a rotation. *)
Definition right_handed (m : mat) : Prop :=
  unit (column0 m) /\ unit (column1 m) /\ unit (column2 m) /\
  dot (column0 m) (column1 m) = 0 /\ dot (column0 m) (column2 m) = 0 /\ dot (column1 m) (column2 m) = 0 /\
  Determinant m = 1 /\ affine m.
Definition distance (a b : vec3) : R := vLength (vsub a b).

Lemma normalize_unit : forall v, v <> V3 0 0 0 ->
  exists u, vNormalize v = u /\ unit u /\ v = V3 (vLength v * x3 u) (vLength v * y3 u) (vLength v * z3 u).
Proof.
  intros v N. assert (L := vLength_pos _ N). assert (S := vLength_sq v). unfold vNormalize.
  destruct (Rlt_dec 0 (vLength v)) as [_|H]; [|lra]. eexists. split; [reflexivity|]. split.
  - unfold unit. cbn [x3 y3 z3].
    replace (_ + _ + _) with ((x3 v ^ 2 + y3 v ^ 2 + z3 v ^ 2) / vLength v ^ 2) by (field; lra).
    rewrite <- S. field. lra.
  - apply vec3_ext; cbn [x3 y3 z3]; field; lra.
Qed.

(** The matrix puts the origin at the eye and looks along -z at the target; its rotation is a rotation, its x axis is
    at right angles to the up direction, and its y axis is on the side of the up direction; provided the viewing
    direction is neither parallel nor nearly parallel to up. *)
Theorem C72_look_at_partial : forall eye target up,
  let m := LookAtMatrix eye target up in let f := vNormalize (vsub target eye) in
  target <> eye -> cross f up <> V3 0 0 0 ->
  IsEquivalent3 f up = false -> IsEquivalent3 f (vneg up) = false ->
  right_handed m /\ TransformCoordinate m (V3 0 0 0) = eye /\
  TransformCoordinate m (V3 0 0 (- distance target eye)) = target /\
  dot (column0 m) up = 0 /\ 0 < dot (column1 m) up.
Proof.
  intros eye target up m f N C E1 E2.
  assert (N' : vsub target eye <> V3 0 0 0).
  { intro H. apply N. destruct target as [t0 t1 t2], eye as [e0 e1 e2]. unfold vsub in H. cbn [x3 y3 z3] in H. injection H as A B D.
    apply vec3_ext; cbn [x3 y3 z3]; lra. }
  destruct (normalize_unit _ N') as (u & U1 & U2 & U3). assert (U0 := U1). fold f in U1. rewrite U1 in C, E1, E2.
  destruct (normalize_unit _ C) as (s & S1 & S2 & S3).
  assert (M : m = let w := cross s u in Mat (x3 s) (y3 s) (z3 s) 0 (x3 w) (y3 w) (z3 w) 0 (- x3 u) (- y3 u) (- z3 u) 0 (x3 eye) (y3 eye) (z3 eye) 1).
  { unfold m, LookAtMatrix. rewrite U0.
    rewrite E1, E2. cbn [negb andb]. rewrite S1. reflexivity. }
  clearbody m. subst m. clear U0 U1. clearbody f. clear f.
  assert (L := vLength_pos _ C). set (l := vLength (cross u up)) in *. clearbody l.
  unfold distance. set (d := vLength (vsub target eye)) in *. clearbody d.
  destruct u as [u0 u1 u2], s as [s0 s1 s2], up as [p0 p1 p2], eye as [e0 e1 e2], target as [t0 t1 t2].
  unfold cross, vsub, unit in *. cbn [x3 y3 z3] in *. injection S3 as A0 A1 A2. injection U3 as B0 B1 B2.
  assert (SU : s0 * u0 + s1 * u1 + s2 * u2 = 0).
  { apply Rmult_eq_reg_l with l; [|lra]. rewrite Rmult_0_r.
    replace (l * _) with (l * s0 * u0 + l * s1 * u1 + l * s2 * u2) by ring. rewrite <- A0, <- A1, <- A2. ring. }
  assert (SP : s0 * p0 + s1 * p1 + s2 * p2 = 0).
  { apply Rmult_eq_reg_l with l; [|lra]. rewrite Rmult_0_r.
    replace (l * _) with (l * s0 * p0 + l * s1 * p1 + l * s2 * p2) by ring. rewrite <- A0, <- A1, <- A2. ring. }
  assert (W : (s1 * u2 - s2 * u1) ^ 2 + (s2 * u0 - s0 * u2) ^ 2 + (s0 * u1 - s1 * u0) ^ 2 = 1).
  { replace (_ + _ + _) with ((s0 ^ 2 + s1 ^ 2 + s2 ^ 2) * (u0 ^ 2 + u1 ^ 2 + u2 ^ 2) - (s0 * u0 + s1 * u1 + s2 * u2) ^ 2) by ring.
    rewrite S2, U2, SU. ring. }
  unfold right_handed, column0, column1, column2, dot, unit. ropen.
  split; [|split; [|split; [|split]]].
  - split; [exact S2|]. split; [exact W|]. split; [lra|]. split; [ring|]. split; [lra|]. split; [ring|].
    split; [|repeat split].
    etransitivity; [|exact W].
    cbv [Determinant det3x3 det2x2 m00 m01 m02 m03 m10 m11 m12 m13 m20 m21 m22 m23 m30 m31 m32 m33]. ring.
  - apply vec3_ext; ropen; ring.
  - apply vec3_ext; ropen; lra.
  - exact SP.
  - replace (_ + _ + _) with (s0 * (u1 * p2 - u2 * p1) + s1 * (u2 * p0 - u0 * p2) + s2 * (u0 * p1 - u1 * p0)) by ring.
    rewrite A0, A1, A2. replace (_ + _ + _) with (l * (s0 ^ 2 + s1 ^ 2 + s2 ^ 2)) by ring. rewrite S2. lra.
Qed.

Lemma normalize_id : forall v, unit v -> vNormalize v = v.
Proof.
  intros v H. unfold vNormalize. assert (L : vLength v = 1).
  { unfold vLength. replace (_ + _ + _) with 1 by (unfold unit in H; lra). apply sqrt_1. }
  rewrite L. destruct (Rlt_dec 0 1); [|lra]. apply vec3_ext; cbn [x3 y3 z3]; field.
Qed.
Lemma equivalent3_refl : forall v, IsEquivalent3 v v = true.
Proof. intro v. unfold IsEquivalent3. rewrite !equivalent_refl. reflexivity. Qed.
(** Looking along the up direction does not give a rotation, neither when it is of unit length and the function
    notices, *)
Theorem C72_parallel_refuted : exists eye target up, target <> eye /\ unit up /\
  Determinant (LookAtMatrix eye target up) = 16 / 25.
Proof.
  exists (V3 0 0 0), (V3 (3/5) (4/5) 0), (V3 (3/5) (4/5) 0).
  split; [intro H; apply (f_equal x3) in H; cbn in H; lra|]. split; [unfold unit; cbn; lra|].
  unfold LookAtMatrix. assert (V : vsub (V3 (3/5) (4/5) 0) (V3 0 0 0) = V3 (3/5) (4/5) 0).
  { apply vec3_ext; cbn [vsub x3 y3 z3]; ring. }
  rewrite V, normalize_id by (unfold unit; cbn; lra). rewrite equivalent3_refl. cbn [negb andb].
  replace (IsEquivalent3 (V3 (3/5) (4/5) 0) XAxis) with false.
  - cbn [negb]. cbv [Determinant det3x3 det2x2 cross XAxis m00 m01 m02 m03 m10 m11 m12 m13 m20 m21 m22 m23 m30 m31 m32 m33 x3 y3 z3]. field.
  - symmetry. unfold IsEquivalent3. cbn [x3 y3 z3 XAxis].
    replace (IsEquivalent (3/5) 1) with false; [reflexivity|]. symmetry. apply not_true_is_false. rewrite equivalent_spec.
    intro H. apply Rabs_def2 in H. unfold FLT_TOLERANCE in H. lra.
Qed.
(** nor when it is longer: then the matrix is singular. *)
Theorem C72_singular_refuted : exists eye target up, target <> eye /\ up <> V3 0 0 0 /\
  Determinant (LookAtMatrix eye target up) = 0.
Proof.
  exists (V3 0 0 0), (V3 1 0 0), (V3 2 0 0).
  split; [intro H; apply (f_equal x3) in H; cbn in H; lra|]. split; [intro H; apply (f_equal x3) in H; cbn in H; lra|].
  unfold LookAtMatrix. assert (V : vsub (V3 1 0 0) (V3 0 0 0) = V3 1 0 0).
  { apply vec3_ext; cbn [vsub x3 y3 z3]; ring. }
  rewrite V, normalize_id by (unfold unit; cbn; lra).
  assert (E : IsEquivalent3 (V3 1 0 0) (V3 2 0 0) = false).
  { unfold IsEquivalent3. cbn [x3 y3 z3]. replace (IsEquivalent 1 2) with false; [reflexivity|]. symmetry. apply not_true_is_false.
    rewrite equivalent_spec. intro H. apply Rabs_def2 in H. unfold FLT_TOLERANCE in H. lra. }
  assert (E' : IsEquivalent3 (V3 1 0 0) (vneg (V3 2 0 0)) = false).
  { unfold IsEquivalent3. cbn [x3 y3 z3 vneg]. replace (IsEquivalent 1 (- (2))) with false; [reflexivity|]. symmetry. apply not_true_is_false.
    rewrite equivalent_spec. intro H. apply Rabs_def2 in H. unfold FLT_TOLERANCE in H. lra. }
  rewrite E, E'. cbn [negb andb].
  assert (Z : vNormalize (cross (V3 1 0 0) (V3 2 0 0)) = XAxis).
  { unfold vNormalize, vLength, cross. cbn [x3 y3 z3]. replace (_ + _ + _) with 0 by ring. rewrite sqrt_0.
    destruct (Rlt_dec 0 0); [lra|reflexivity]. }
  rewrite Z. cbv [Determinant det3x3 det2x2 cross XAxis m00 m01 m02 m03 m10 m11 m12 m13 m20 m21 m22 m23 m30 m31 m32 m33 x3 y3 z3]. ring.
Qed.

(** ** C73: quaternions to axis and angle, and to Euler angles *)
(** ToAngleAxis: the axis is a unit vector, and the axis and the angle make the same quaternion again, unless the
    rotation is nearly (but not exactly) none. *)
Theorem C73_axis_partial : forall q axis angle, norm2 q = 1 -> ToAngleAxis q = (axis, angle) ->
  unit axis /\ 0 <= angle <= 2 * PI /\
  (FLT_TOLERANCE ^ 2 <= 1 - qw q ^ 2 \/ qw q ^ 2 = 1 -> from_axis axis angle = q).
Proof.
  intros q axis angle N H. unfold ToAngleAxis in H.
  assert (W : -1 <= qw q <= 1).
  { unfold norm2 in N. pose proof (pow2_ge_0 (qx q)). pose proof (pow2_ge_0 (qy q)). pose proof (pow2_ge_0 (qz q)). nra. }
  replace (2 * acos (qw q) / 2) with (acos (qw q)) in H by field.
  destruct (acos_bound (qw q)) as [B1 B2]. assert (C := cos_acos (qw q) W).
  assert (S : sin (acos (qw q)) ^ 2 = 1 - qw q ^ 2) by (pose proof (cs (acos (qw q))) as Q; rewrite C in Q; lra).
  assert (S0 : 0 <= sin (acos (qw q))) by (apply sin_ge_0; lra).
  assert (T := tolerance_pos).
  set (s := sin (acos (qw q))) in *.
  destruct (IsEquivalent s 0) eqn:E.
  - injection H as <- <-. split; [unfold unit; cbn; ring|]. split; [lra|]. intros [G|G].
    + exfalso. apply equivalent_spec in E. rewrite Rminus_0_r, Rabs_pos_eq in E by exact S0. nra.
    + assert (SZ : s = 0) by (apply sq_zero; lra).
      assert (V : qx q = 0 /\ qy q = 0 /\ qz q = 0).
      { unfold norm2 in N. pose proof (pow2_ge_0 (qx q)). pose proof (pow2_ge_0 (qy q)). pose proof (pow2_ge_0 (qz q)).
        repeat split; apply sq_zero; lra. }
      destruct V as (V1 & V2 & V3).
      apply quat_ext; unfold from_axis; cbn [qx qy qz qw x3 y3 z3 XAxis];
        replace (2 * acos (qw q) / 2) with (acos (qw q)) by field; fold s; rewrite ?SZ, ?V1, ?V2, ?V3; try ring. exact C.
  - assert (SP : 0 < s).
    { destruct S0 as [S0|S0]; [exact S0|]. rewrite <- S0, equivalent_refl in E. discriminate. }
    assert (U : unit (V3 (qx q / s) (qy q / s) (qz q / s))).
    { unfold unit. cbn [x3 y3 z3]. replace (_ + _ + _) with ((qx q ^ 2 + qy q ^ 2 + qz q ^ 2) / s ^ 2) by (field; lra).
      rewrite S. unfold norm2 in N. replace (qx q ^ 2 + qy q ^ 2 + qz q ^ 2) with (1 - qw q ^ 2) by lra. field.
      rewrite <- S. apply pow_nonzero. lra. }
    assert (V : vNormalizeIt (V3 (qx q / s) (qy q / s) (qz q / s)) = V3 (qx q / s) (qy q / s) (qz q / s)).
    { rewrite <- (normalize_id _ U) at 2. unfold vNormalizeIt, vNormalize.
      destruct (Rlt_dec _ _) as [|F]; [reflexivity|]. exfalso. apply F. apply vLength_pos. intro Z. rewrite Z in U.
      unfold unit in U. cbn in U. lra. }
    rewrite V in H. injection H as <- <-. split; [exact U|]. split; [lra|]. intros _.
    apply quat_ext; unfold from_axis; cbn [qx qy qz qw x3 y3 z3]; replace (2 * acos (qw q) / 2) with (acos (qw q)) by field; fold s;
    try (field; lra). exact C.
Qed.

(** The entries of the matrix of a unit quaternion. *)
Lemma unit_matrix : forall q, norm2 q = 1 -> ToMatrix q = mat_of 2 q.
Proof.
  intros q N. rewrite ToMatrix_of by (apply unit_nonzero, N). rewrite N. replace (2 / 1) with 2 by field. reflexivity.
Qed.
Lemma rotation_entries : forall m, rotation m ->
  m00 m ^ 2 + m01 m ^ 2 + m02 m ^ 2 = 1 /\ m10 m ^ 2 + m11 m ^ 2 + m12 m ^ 2 = 1 /\ m20 m ^ 2 + m21 m ^ 2 + m22 m ^ 2 = 1 /\
  m00 m * m10 m + m01 m * m11 m + m02 m * m12 m = 0 /\ m00 m * m20 m + m01 m * m21 m + m02 m * m22 m = 0 /\
  m10 m * m20 m + m11 m * m21 m + m12 m * m22 m = 0 /\
  det3x3 (m00 m) (m01 m) (m02 m) (m10 m) (m11 m) (m12 m) (m20 m) (m21 m) (m22 m) = 1.
Proof.
  intros m (P & D & A & Z0 & Z1 & Z2). unfold affine in A. destruct A as (A0 & A1 & A2 & A3).
  assert (DD : det3x3 (m00 m) (m01 m) (m02 m) (m10 m) (m11 m) (m12 m) (m20 m) (m21 m) (m22 m) = 1).
  { rewrite <- D. unfold Determinant, det3x3, det2x2. rewrite A0, A1, A2, A3, Z0, Z1, Z2. ring. }
  assert (P' : product (Transposed m) m = Identity).
  { assert (F : epsilon < Rabs (Determinant m)) by (rewrite D, Rabs_R1; unfold epsilon; lra).
    rewrite (C42_inverse_unique m (Transposed m) F (or_intror P)). apply C42_inverse, F. }
  destruct m as [p0 p1 p2 p3 q0 q1 q2 q3 r0 r1 r2 r3 t0 t1 t2 t3].
  cbv [m00 m01 m02 m03 m10 m11 m12 m13 m20 m21 m22 m23 m30 m31 m32 m33] in *. subst.
  assert (E00 := f_equal m00 P'). assert (E11 := f_equal m11 P'). assert (E22 := f_equal m22 P').
  assert (E01 := f_equal m01 P'). assert (E02 := f_equal m02 P'). assert (E12 := f_equal m12 P').
  revert E00 E11 E22 E01 E02 E12. clear P P'. ropen. intros. repeat split; lra.
Qed.
Lemma product_entries : forall x y z, product (RX x) (product (RY y) (RZ z)) =
  Mat (cos y * cos z) (cos x * sin z + sin x * sin y * cos z) (sin x * sin z - cos x * sin y * cos z) 0
      (- (cos y * sin z)) (cos x * cos z - sin x * sin y * sin z) (sin x * cos z + cos x * sin y * sin z) 0
      (sin y) (- (sin x * cos y)) (cos x * cos y) 0
      0 0 0 1.
Proof. intros. apply mat_ext; ropen; ring. Qed.
(** Away from the poles the angles about y and z are right: with some angle about x they make the matrix of the
    quaternion. The angle about x is right when that one is a multiple of a right angle. *)
Theorem C73_euler_partial : forall q, norm2 q = 1 -> let e := ToEuler q in
  Rabs (2 * (qx q * qz q + qy q * qw q)) <= 1 - FLT_TOLERANCE ->
  exists x, ToMatrix q = product (RX x) (product (RY (y3 e)) (RZ (z3 e))) /\
    (sin x = 0 \/ cos x = 0 -> ToMatrix q = product (RX (x3 e)) (product (RY (y3 e)) (RZ (z3 e)))).
Proof.
  intros q N e H. assert (T := tolerance_pos).
  assert (G := C43_matrix_rotation q). rewrite (unit_matrix q N) in G.
  destruct (rotation_entries _ G) as (A & B & C & AB & AC & BC & D). clear G.
  set (m := mat_of 2 q) in *.
  assert (C0 : 2 * (qx q * qz q + qy q * qw q) = m20 m) by (unfold m; cbn [mat_of m20]; ring).
  assert (B0 : 2 * (qz q * qw q - qx q * qy q) = - m10 m) by (unfold m; cbn [mat_of m10]; ring).
  assert (C1 : qx q * qw q - qy q * qz q = - m21 m / 2) by (unfold m; cbn [mat_of m21]; field).
  assert (A0 : 1 - 2 * (qy q * qy q + qz q * qz q) = m00 m) by (unfold m; cbn [mat_of m00]; ring).
  assert (C2 : 1 - 2 * (qx q * qx q + qy q * qy q) = m22 m) by (unfold m; cbn [mat_of m22]; ring).
  assert (E : e = V3 (atan2 (- m21 m / 2) (m22 m)) (asin (m20 m)) (atan2 (- m10 m) (m00 m))).
  { unfold e, ToEuler. rewrite C0, B0, C1, A0, C2. rewrite C0 in H. apply Rabs_le_between in H || (apply Rabs_def2 in H || idtac).
    assert (- (1 - FLT_TOLERANCE) <= m20 m <= 1 - FLT_TOLERANCE) by (unfold Rabs in H; destruct (Rcase_abs (m20 m)); lra || (revert H; lra)).
    destruct (Rlt_dec _ _); [lra|]. destruct (Rlt_dec _ _); [lra|]. reflexivity. }
  rewrite C0 in H.
  assert (H' : - (1 - FLT_TOLERANCE) <= m20 m <= 1 - FLT_TOLERANCE) by (unfold Rabs in H; destruct (Rcase_abs (m20 m)); lra).
  assert (S : sin (asin (m20 m)) = m20 m) by (apply sin_asin; lra).
  assert (K : 0 <= cos (asin (m20 m))) by (apply cos_ge_0; destruct (asin_bound (m20 m)); lra).
  assert (K2 : cos (asin (m20 m)) ^ 2 = 1 - m20 m ^ 2) by (rewrite (cs (asin (m20 m))), S; reflexivity).
  set (k := cos (asin (m20 m))) in *.
  assert (KP : 0 < k).
  { destruct K as [K|K]; [exact K|]. exfalso. rewrite <- K in K2. nra. }
  destruct (euler_angles _ _ _ _ _ _ _ _ _ k A B C AB AC BC D KP K2) as (CX & SX & CZ & SZ & E1 & E2 & E3 & E4).
  destruct (rotation_relations _ _ _ _ _ _ _ _ _ A B C AB AC BC D) as (R0 & _).
  destruct (atan2_spec (- m10 m) (m00 m) k KP) as [CZ' SZ']; [lra|].
  set (x := atan2 (- m21 m / k) (m22 m / k)) in *. set (z := atan2 (- m10 m / k) (m00 m / k)) in *.
  assert (ZC : cos (z3 e) = cos z) by (rewrite E, CZ; cbn [z3]; rewrite <- CZ' at 2; field; lra).
  assert (ZS : sin (z3 e) = sin z) by (rewrite E, SZ; cbn [z3]; rewrite <- SZ' at 2; field; lra).
  assert (YS : sin (y3 e) = m20 m) by (rewrite E; exact S).
  assert (YC : cos (y3 e) = k) by (rewrite E; reflexivity).
  rewrite (unit_matrix q N). fold m.
  assert (FIN : forall t, cos t = cos x -> sin t = sin x -> m = product (RX t) (product (RY (y3 e)) (RZ (z3 e)))).
  { intros t TC TS. rewrite product_entries, ZC, ZS, YS, YC, TC, TS.
    apply mat_ext; cbn [m00 m01 m02 m03 m10 m11 m12 m13 m20 m21 m22 m23 m30 m31 m32 m33]; try assumption; try reflexivity.
    - rewrite CZ. field. lra.
    - rewrite SZ. field. lra.
    - rewrite SX. field. lra.
    - rewrite CX. field. lra. }
  exists x. split; [apply FIN; reflexivity|].
  intro Q. apply FIN.
  - rewrite E. cbn [x3]. destruct Q as [Q|Q].
    + rewrite Q in SX. assert (Z : m21 m = 0).
      { assert (- m21 m / k * k = 0) by (rewrite <- SX; ring). unfold Rdiv in H0. rewrite Rmult_assoc, Rinv_l in H0 by lra. lra. }
      rewrite Z in *. destruct (atan2_spec (- 0 / 2) (m22 m) k KP) as [P _]; [lra|]. rewrite CX. rewrite <- P at 2. field. lra.
    + rewrite Q in CX. assert (Z : m22 m = 0).
      { assert (m22 m / k * k = 0) by (rewrite <- CX; ring). unfold Rdiv in H0. rewrite Rmult_assoc, Rinv_l in H0 by lra. lra. }
      rewrite Q, Z. assert (NZ : m21 m <> 0) by (intro Y; rewrite Y, Z in C; nra).
      destruct (atan2_spec (- m21 m / 2) 0 (Rabs (m21 m) / 2)) as [P _].
      * assert (0 < Rabs (m21 m)) by (apply Rabs_pos_lt, NZ). lra.
      * replace ((Rabs (m21 m) / 2) ^ 2) with (Rabs (m21 m) ^ 2 / 4) by field. rewrite pow2_abs. field.
      * assert (0 < Rabs (m21 m)) by (apply Rabs_pos_lt, NZ). apply Rmult_integral in P. lra.
  - rewrite E. cbn [x3]. destruct Q as [Q|Q].
    + rewrite Q. rewrite Q in SX. assert (Z : m21 m = 0).
      { assert (- m21 m / k * k = 0) by (rewrite <- SX; ring). unfold Rdiv in H0. rewrite Rmult_assoc, Rinv_l in H0 by lra. lra. }
      rewrite Z in *. destruct (atan2_spec (- 0 / 2) (m22 m) k KP) as [_ P]; [lra|].
      replace (- 0 / 2) with 0 in P by field. apply Rmult_integral in P. replace (- 0 / 2) with 0 by field. lra.
    + rewrite Q in CX. assert (Z : m22 m = 0).
      { assert (m22 m / k * k = 0) by (rewrite <- CX; ring). unfold Rdiv in H0. rewrite Rmult_assoc, Rinv_l in H0 by lra. lra. }
      rewrite SX, Z. assert (NZ : m21 m <> 0) by (intro Y; rewrite Y, Z in C; nra).
      assert (AP : 0 < Rabs (m21 m)) by (apply Rabs_pos_lt, NZ).
      destruct (atan2_spec (- m21 m / 2) 0 (Rabs (m21 m) / 2)) as [_ P].
      * lra.
      * replace ((Rabs (m21 m) / 2) ^ 2) with (Rabs (m21 m) ^ 2 / 4) by field. rewrite pow2_abs. field.
      * assert (KA : k = Rabs (m21 m)).
        { apply sq_pos_inj; [exact KP|exact AP|]. rewrite pow2_abs, K2. rewrite Z in C. lra. }
        rewrite KA. apply Rmult_eq_reg_l with (Rabs (m21 m) / 2); [|lra]. rewrite P. field. lra.
Qed.
(** At the north pole exactly the angles are right, *)
Theorem C73_north : forall q, norm2 q = 1 -> 2 * (qx q * qz q + qy q * qw q) = 1 -> let e := ToEuler q in
  ToMatrix q = product (RX (x3 e)) (product (RY (y3 e)) (RZ (z3 e))).
Proof.
  intros q N H e. assert (T := tolerance_pos).
  assert (E : e = V3 (2 * atan2 (qx q) (qw q)) (PI / 2) 0).
  { unfold e, ToEuler. rewrite H. destruct (Rlt_dec _ _); [reflexivity|lra]. }
  clearbody e. subst e. rewrite product_entries. cbn [x3 y3 z3]. rewrite cos_PI2, sin_PI2, cos_0, sin_0, (unit_matrix q N).
  unfold norm2 in N. destruct q as [x y z w]. cbn [qx qy qz qw] in *.
  assert (D : (x - z) ^ 2 + (y - w) ^ 2 = 0) by lra.
  assert (D1 : x - z = 0) by (apply sq_zero; pose proof (pow2_ge_0 (x - z)); pose proof (pow2_ge_0 (y - w)); lra).
  assert (D2 : y - w = 0) by (apply sq_zero; pose proof (pow2_ge_0 (x - z)); pose proof (pow2_ge_0 (y - w)); lra).
  assert (Ez : z = x) by lra. assert (Ew : w = y) by lra. subst z w. clear D D1 D2.
  set (t := atan2 x y).
  assert (R : 0 < sqrt (1 / 2)) by (apply sqrt_lt_R0; lra).
  assert (R2 : sqrt (1 / 2) ^ 2 = 1 / 2) by (apply pow2_sqrt; lra).
  destruct (atan2_spec x y (sqrt (1 / 2)) R) as [C S]; [lra|]. fold t in C, S.
  assert (S2 : sin (2 * t) = 4 * x * y).
  { rewrite sin_2a. rewrite <- C, <- S. replace (4 * _ * _) with (4 * (sqrt (1/2) ^ 2) * sin t * cos t) by ring. rewrite R2. field. }
  assert (C2 : cos (2 * t) = 2 * y ^ 2 - 2 * x ^ 2).
  { rewrite cos_2a. rewrite <- C, <- S.
    replace (2 * (_ * _) ^ 2 - _) with (2 * (sqrt (1/2) ^ 2) * (cos t * cos t - sin t * sin t)) by ring. rewrite R2. field. }
  rewrite S2, C2.
  apply mat_ext; cbn [mat_of m00 m01 m02 m03 m10 m11 m12 m13 m20 m21 m22 m23 m30 m31 m32 m33 qx qy qz qw]; lra.
Qed.
(** but at the south pole they are not, *)
Theorem C73_south_refuted : exists q, norm2 q = 1 /\ 2 * (qx q * qz q + qy q * qw q) = -1 /\
  let e := ToEuler q in ToMatrix q <> product (RX (x3 e)) (product (RY (y3 e)) (RZ (z3 e))).
Proof.
  exists (Q4 (1/2) (-1/2) (-1/2) (1/2)). assert (T := tolerance_pos).
  assert (T' : FLT_TOLERANCE < 1) by (unfold FLT_TOLERANCE; lra).
  assert (N : norm2 (Q4 (1/2) (-1/2) (-1/2) (1/2)) = 1) by (unfold norm2; cbn [qx qy qz qw]; field).
  assert (H : 2 * (1/2 * (-1/2) + -1/2 * (1/2)) = -1) by field.
  split; [exact N|]. split; [exact H|]. cbv zeta.
  assert (E : ToEuler (Q4 (1/2) (-1/2) (-1/2) (1/2)) = V3 (-2 * atan2 (1/2) (1/2)) (- PI / 2) 0).
  { unfold ToEuler. cbn [qx qy qz qw]. rewrite H. destruct (Rlt_dec _ _); [lra|]. destruct (Rlt_dec _ _); [reflexivity|lra]. }
  rewrite E, product_entries, (unit_matrix _ N). cbn [x3 y3 z3]. intro F. apply (f_equal m01) in F.
  cbn [mat_of m01 qx qy qz qw] in F. rewrite sin_0, cos_0 in F.
  replace (- PI / 2) with (- (PI / 2)) in F by field. rewrite sin_neg, sin_PI2 in F.
  assert (A : atan2 (1/2) (1/2) = PI / 4).
  { unfold atan2. destruct (Rlt_dec _ _); [|lra]. replace (1/2/(1/2)) with 1 by field. apply atan_1. }
  rewrite A in F. replace (-2 * (PI / 4)) with (- (PI / 2)) in F by field. rewrite sin_neg, sin_PI2 in F. lra.
Qed.
(** nor in general: a factor of two is missing in the angle about x. *)
Theorem C73_euler_refuted : exists q, norm2 q = 1 /\ 2 * (qx q * qz q + qy q * qw q) = 0 /\
  let e := ToEuler q in ToMatrix q <> product (RX (x3 e)) (product (RY (y3 e)) (RZ (z3 e))).
Proof.
  exists (Q4 (3/5) 0 0 (4/5)). assert (T := tolerance_pos).
  assert (T' : FLT_TOLERANCE < 1) by (unfold FLT_TOLERANCE; lra).
  assert (N : norm2 (Q4 (3/5) 0 0 (4/5)) = 1) by (unfold norm2; cbn [qx qy qz qw]; field).
  assert (H : 2 * (3/5 * 0 + 0 * (4/5)) = 0) by field.
  split; [exact N|]. split; [exact H|]. cbv zeta.
  assert (E : x3 (ToEuler (Q4 (3/5) 0 0 (4/5))) = atan2 (12/25) (7/25) /\ y3 (ToEuler (Q4 (3/5) 0 0 (4/5))) = asin 0 /\
    z3 (ToEuler (Q4 (3/5) 0 0 (4/5))) = atan2 0 1).
  { unfold ToEuler. cbn [qx qy qz qw]. rewrite H. destruct (Rlt_dec _ _); [lra|]. destruct (Rlt_dec _ _); [lra|]. cbn [x3 y3 z3].
    split; [|split].
    - replace (3/5 * (4/5) - 0 * 0) with (12/25) by field. replace (1 - 2 * (3/5 * (3/5) + 0 * 0)) with (7/25) by field. reflexivity.
    - reflexivity.
    - replace (2 * (0 * (4/5) - 3/5 * 0)) with 0 by field. replace (1 - 2 * (0 * 0 + 0 * 0)) with 1 by field. reflexivity. }
  destruct E as (E1 & E2 & E3). rewrite E1, E2, E3, product_entries, (unit_matrix _ N), asin_0.
  destruct (atan2_spec 0 1 1) as [Z1 Z2]; [lra|lra|]. rewrite Rmult_1_l in Z1, Z2. rewrite Z1, Z2, sin_0, cos_0.
  intro F. assert (F1 := f_equal m12 F). assert (F2 := f_equal m22 F). cbn [mat_of m12 m22 qx qy qz qw] in F1, F2.
  destruct (atan2_spec (12/25) (7/25) (sqrt ((7/25) ^ 2 + (12/25) ^ 2))) as [C S].
  - apply sqrt_lt_R0. lra.
  - symmetry. apply pow2_sqrt. lra.
  - assert (C' : cos (atan2 (12/25) (7/25)) = 7/25) by lra. assert (S' : sin (atan2 (12/25) (7/25)) = 24/25) by lra.
    rewrite C' in C. rewrite S' in S. lra.
Qed.

(** Every rotation has Euler angles, so it is the matrix of a unit quaternion, which MatrixRotationQuaternion finds:
    converting a rotation to a quaternion and back changes nothing (completes C43_from_matrix). *)
Lemma rotation_angles : forall m, rotation m -> exists x y z, m = product (RX x) (product (RY y) (RZ z)).
Proof.
  intros m R. destruct (rotation_entries m R) as (A & B & C & AB & AC & BC & D).
  destruct R as (_ & _ & AF & Z0 & Z1 & Z2). unfold affine in AF. destruct AF as (A0 & A1 & A2 & A3).
  assert (L : 0 <= 1 - m20 m ^ 2) by (pose proof (pow2_ge_0 (m21 m)); pose proof (pow2_ge_0 (m22 m)); lra).
  destruct L as [L|L].
  - assert (B1 : -1 <= m20 m <= 1) by (split; nra).
    assert (S : sin (asin (m20 m)) = m20 m) by (apply sin_asin, B1).
    assert (K : 0 <= cos (asin (m20 m))) by (apply cos_ge_0; destruct (asin_bound (m20 m)); lra).
    assert (K2 : cos (asin (m20 m)) ^ 2 = 1 - m20 m ^ 2) by (rewrite (cs (asin (m20 m))), S; reflexivity).
    set (k := cos (asin (m20 m))) in *.
    assert (KP : 0 < k) by (destruct K as [K|K]; [exact K|rewrite <- K in K2; lra]).
    destruct (euler_angles _ _ _ _ _ _ _ _ _ k A B C AB AC BC D KP K2) as (CX & SX & CZ & SZ & E1 & E2 & E3 & E4).
    exists (atan2 (- m21 m / k) (m22 m / k)), (asin (m20 m)), (atan2 (- m10 m / k) (m00 m / k)).
    rewrite product_entries, S. fold k.
    apply mat_ext; cbn [m00 m01 m02 m03 m10 m11 m12 m13 m20 m21 m22 m23 m30 m31 m32 m33]; try assumption; try reflexivity.
    + rewrite CZ. field. lra.
    + rewrite SZ. field. lra.
    + rewrite SX. field. lra.
    + rewrite CX. field. lra.
  - assert (U : m20 m = 1 \/ m20 m = -1).
    { assert (Q : (m20 m - 1) * (m20 m + 1) = 0) by lra. apply Rmult_integral in Q. lra. }
    destruct (pole_angles _ _ _ _ _ _ _ _ _ A B C AB AC BC D U) as (E1 & E2 & E3 & E4 & E5 & E6 & E7 & E8).
    exists (atan2 (m12 m) (m11 m)), (m20 m * (PI / 2)), 0.
    rewrite product_entries, cos_0, sin_0, E5, E6.
    destruct U as [U|U]; rewrite U in *;
      (replace (1 * (PI / 2)) with (PI / 2) by ring) || (replace (-1 * (PI / 2)) with (- (PI / 2)) by ring);
      rewrite ?sin_neg, ?cos_neg, sin_PI2, cos_PI2;
      apply mat_ext; cbn [m00 m01 m02 m03 m10 m11 m12 m13 m20 m21 m22 m23 m30 m31 m32 m33]; lra.
Qed.
Theorem C43_every_rotation : forall m, rotation m ->
  norm2 (MatrixRotationQuaternion m) = 1 /\ ToMatrix (MatrixRotationQuaternion m) = m.
Proof.
  intros m R. destruct (rotation_angles m R) as (x & y & z & ->). destruct (C43_euler x y z) as [N <-].
  set (q := EulerRotationQuaternion x y z) in *.
  destruct (C43_from_matrix q N) as [-> | ->]; [auto|]. 
  assert (N' : norm2 (opposite q) = 1) by (unfold norm2, opposite in *; cbn [qx qy qz qw]; lra).
  split; [exact N'|]. rewrite !unit_matrix by assumption. apply mat_ext; cbn [mat_of opposite m00 m01 m02 m03 m10 m11 m12 m13 m20 m21 m22 m23 m30 m31 m32 m33 qx qy qz qw]; ring.
Qed.

(** ** C74: interpolation *)
Definition qdot (a b : quat) : R := qx a * qx b + qy a * qy b + qz a * qz b + qw a * qw b.

Lemma schwarz4 : forall a b, norm2 a = 1 -> norm2 b = 1 -> -1 <= qdot a b <= 1.
Proof.
  intros a b A B.
  assert (P : 0 <= norm2 (Q4 (qx a + qx b) (qy a + qy b) (qz a + qz b) (qw a + qw b))).
  { unfold norm2. cbn [qx qy qz qw]. pose proof (pow2_ge_0 (qx a + qx b)). pose proof (pow2_ge_0 (qy a + qy b)).
    pose proof (pow2_ge_0 (qz a + qz b)). pose proof (pow2_ge_0 (qw a + qw b)). lra. }
  assert (M : 0 <= norm2 (Q4 (qx a - qx b) (qy a - qy b) (qz a - qz b) (qw a - qw b))).
  { unfold norm2. cbn [qx qy qz qw]. pose proof (pow2_ge_0 (qx a - qx b)). pose proof (pow2_ge_0 (qy a - qy b)).
    pose proof (pow2_ge_0 (qz a - qz b)). pose proof (pow2_ge_0 (qw a - qw b)). lra. }
  unfold norm2, qdot in *. cbn [qx qy qz qw] in *. lra.
Qed.
Lemma sines : forall a b, sin a ^ 2 + sin b ^ 2 + 2 * (sin a * sin b) * cos (a + b) = sin (a + b) ^ 2.
Proof.
  intros a b. rewrite cos_plus, sin_plus. pose proof (cs a). pose proof (cs b).
  replace ((sin a * cos b + cos a * sin b) ^ 2) with
    (sin a ^ 2 * cos b ^ 2 + cos a ^ 2 * sin b ^ 2 + 2 * (sin a * sin b * cos a * cos b)) by ring.
  rewrite H, H0. ring.
Qed.
Lemma normalized_unit : forall q, norm2 q = 1 -> NormalizeIt q = q.
Proof.
  intros q H. unfold NormalizeIt, Length. replace (LengthSquared q) with 1 by (unfold LengthSquared, norm2 in *; lra).
  rewrite sqrt_1. destruct (Rlt_dec 0 1); [|lra]. apply quat_ext; cbn [qx qy qz qw]; field.
Qed.
Lemma slerp_formula : forall a b t, norm2 a = 1 -> norm2 b = 1 -> -1 < qdot a b -> IsEquivalent (qdot a b) 1 = false ->
  let h := acos (qdot a b) in
  0 < h < PI /\ 0 < sin h /\ cos h = qdot a b /\
  slerp a b t = Q4 (sin ((1 - t) * h) / sin h * qx a + sin (t * h) / sin h * qx b)
                   (sin ((1 - t) * h) / sin h * qy a + sin (t * h) / sin h * qy b)
                   (sin ((1 - t) * h) / sin h * qz a + sin (t * h) / sin h * qz b)
                   (sin ((1 - t) * h) / sin h * qw a + sin (t * h) / sin h * qw b) /\
  norm2 (slerp a b t) = 1.
Proof.
  intros a b t A B L E h. destruct (schwarz4 a b A B) as [D1 D2].
  assert (D : qdot a b < 1).
  { destruct D2 as [D2|D2]; [exact D2|]. rewrite D2, equivalent_refl in E. discriminate. }
  assert (C : cos h = qdot a b) by (apply cos_acos; lra).
  assert (H : 0 < h < PI) by (apply acos_bound_lt; lra).
  assert (S : 0 < sin h) by (apply sin_gt_0; lra).
  split; [exact H|]. split; [exact S|]. split; [exact C|].
  set (r := Q4 _ _ _ _).
  assert (N : norm2 r = 1).
  { assert (Q := sines ((1 - t) * h) (t * h)). replace ((1 - t) * h + t * h) with h in Q by ring. rewrite C in Q.
    unfold r, norm2, qdot in *. cbn [qx qy qz qw]. set (u := sin ((1 - t) * h)) in *. set (v := sin (t * h)) in *. set (s := sin h) in *.
    replace (_ + _ + _ + _) with ((u ^ 2 * (qx a ^ 2 + qy a ^ 2 + qz a ^ 2 + qw a ^ 2) + v ^ 2 * (qx b ^ 2 + qy b ^ 2 + qz b ^ 2 + qw b ^ 2)
      + 2 * (u * v) * (qx a * qx b + qy a * qy b + qz a * qz b + qw a * qw b)) / s ^ 2) by (field; lra).
    rewrite A, B, !Rmult_1_r, Q. field. lra. }
  assert (F : slerp a b t = r).
  { unfold slerp. fold (qdot a b). rewrite E. fold h. destruct (Rlt_dec h 0); [lra|]. apply normalized_unit, N. }
  split; [exact F|]. rewrite F. exact N.
Qed.
(** Between unit quaternions that are neither nearly equal nor opposite, the interpolation is a unit quaternion, starts
    at the first, ends at the second, turns at constant speed along the arc between them, and is the same from the
    other end. *)
Theorem C74_slerp_partial : forall a b t, norm2 a = 1 -> norm2 b = 1 -> -1 < qdot a b -> FLT_TOLERANCE <= 1 - qdot a b ->
  norm2 (slerp a b t) = 1 /\ slerp a b 0 = a /\ slerp a b 1 = b /\
  qdot a (slerp a b t) = cos (t * acos (qdot a b)) /\ qdot b (slerp a b t) = cos ((1 - t) * acos (qdot a b)) /\
  slerp b a (1 - t) = slerp a b t.
Proof.
  intros a b t A B L G.
  assert (E : IsEquivalent (qdot a b) 1 = false).
  { apply not_true_is_false. rewrite equivalent_spec. intro H. apply Rabs_def2 in H. lra. }
  assert (Sym : qdot b a = qdot a b) by (unfold qdot; ring).
  destruct (slerp_formula a b t A B L E) as (H & S & C & F & N).
  destruct (slerp_formula a b 0 A B L E) as (_ & _ & _ & F0 & _).
  destruct (slerp_formula a b 1 A B L E) as (_ & _ & _ & F1 & _).
  destruct (slerp_formula b a (1 - t) B A) as (_ & _ & _ & FS & _); [rewrite Sym; exact L|rewrite Sym; exact E|].
  rewrite Sym in FS. set (h := acos (qdot a b)) in *.
  split; [exact N|]. split; [|split; [|split; [|split]]].
  - rewrite F0, Rminus_0_r, Rmult_1_l, Rmult_0_l, sin_0. apply quat_ext; cbn [qx qy qz qw]; field; lra.
  - rewrite F1, Rmult_1_l, (Rminus_eq_0 1), Rmult_0_l, sin_0. apply quat_ext; cbn [qx qy qz qw]; field; lra.
  - rewrite F. unfold qdot at 1. cbn [qx qy qz qw].
    replace (_ + _ + _ + _) with ((sin ((1 - t) * h) * norm2 a + sin (t * h) * qdot a b) / sin h) by (unfold norm2, qdot; field; lra).
    rewrite A, <- C. replace ((1 - t) * h) with (h - t * h) by ring. rewrite sin_minus.
    field. lra.
  - rewrite F. unfold qdot at 1. cbn [qx qy qz qw].
    replace (_ + _ + _ + _) with ((sin ((1 - t) * h) * qdot a b + sin (t * h) * norm2 b) / sin h) by (unfold norm2, qdot; field; lra).
    rewrite B, <- C. replace (t * h) with (h - (1 - t) * h) by ring. rewrite sin_minus. field. lra.
  - rewrite FS, F. replace (1 - (1 - t)) with t by ring. apply quat_ext; cbn [qx qy qz qw]; ring.
Qed.
(** Between nearly equal quaternions the interpolation stays at the first, also at the end. *)
Theorem C74_slerp_refuted : exists a b, norm2 a = 1 /\ norm2 b = 1 /\ -1 < qdot a b /\ a <> b /\
  forall t, slerp a b t = a.
Proof.
  exists (Q4 0 0 0 1), (Q4 (400/40001) 0 0 (39999/40001)).
  unfold norm2, qdot. cbn [qx qy qz qw]. split; [lra|]. split; [lra|]. split; [lra|].
  split; [intro H; apply (f_equal qx) in H; cbn [qx] in H; lra|].
  intro t. unfold slerp. cbn [qx qy qz qw]. replace (IsEquivalent _ 1) with true; [reflexivity|].
  symmetry. apply equivalent_spec. unfold FLT_TOLERANCE. apply Rabs_def1; lra.
Qed.

(** ** Examples *)
Example C72_demo : let eye := V3 1 2 3 in let target := V3 1 2 (-2) in let up := V3 0 3 0 in
  let f := vNormalize (vsub target eye) in
  target <> eye /\ cross f up <> V3 0 0 0 /\ IsEquivalent3 f up = false /\ IsEquivalent3 f (vneg up) = false /\
  TransformCoordinate (LookAtMatrix eye target up) (V3 0 0 (-5)) = target.
Proof.
  cbv zeta.
  assert (L : vLength (vsub (V3 1 2 (-2)) (V3 1 2 3)) = 5).
  { unfold vLength, vsub. cbn [x3 y3 z3]. replace (_ + _ + _) with (5 * 5) by ring. apply sqrt_square. lra. }
  assert (F : vNormalize (vsub (V3 1 2 (-2)) (V3 1 2 3)) = V3 0 0 (-1)).
  { unfold vNormalize. rewrite L. destruct (Rlt_dec 0 5); [|lra]. apply vec3_ext; cbn [vsub x3 y3 z3]; field. }
  rewrite F.
  assert (N : V3 1 2 (-2) <> V3 1 2 3) by (intro H; apply (f_equal z3) in H; cbn in H; lra).
  assert (C : cross (V3 0 0 (-1)) (V3 0 3 0) <> V3 0 0 0) by (intro H; apply (f_equal x3) in H; cbn in H; lra).
  assert (E : forall y, y = 3 \/ y = - (3) -> IsEquivalent 0 y = false).
  { intros y Y. apply not_true_is_false. rewrite equivalent_spec. intro H. apply Rabs_def2 in H. unfold FLT_TOLERANCE in H. lra. }
  assert (E1 : IsEquivalent3 (V3 0 0 (-1)) (V3 0 3 0) = false).
  { unfold IsEquivalent3. cbn [x3 y3 z3]. rewrite (E 3), ?andb_false_r by auto. reflexivity. }
  assert (E2 : IsEquivalent3 (V3 0 0 (-1)) (vneg (V3 0 3 0)) = false).
  { unfold IsEquivalent3, vneg. cbn [x3 y3 z3]. rewrite (E (- (3))), ?andb_false_r by auto. reflexivity. }
  split; [exact N|]. split; [exact C|]. split; [exact E1|]. split; [exact E2|].
  assert (G := C72_look_at_partial (V3 1 2 3) (V3 1 2 (-2)) (V3 0 3 0)). cbv zeta in G. rewrite F in G.
  destruct (G N C E1 E2) as (_ & _ & D & _). unfold distance in D. rewrite L in D. exact D.
Qed.
Example C73_demo : let q := from_axis ZAxis 1 in norm2 q = 1 /\ FLT_TOLERANCE ^ 2 <= 1 - qw q ^ 2 /\
  Rabs (2 * (qx q * qz q + qy q * qw q)) <= 1 - FLT_TOLERANCE /\ 2 * ((1/2) * (1/2) + (1/2) * (1/2)) = 1.
Proof.
  cbv zeta. assert (N : norm2 (from_axis ZAxis 1) = 1) by (apply from_axis_norm; cbn; ring).
  split; [exact N|]. split; [|split; [|lra]].
  - unfold from_axis. cbn [qw]. rewrite (cs (1 / 2)).
    assert (1/3 <= sin (1/2)).
    { destruct (SIN (1/2)) as [S _]; [lra|pose proof PI2_3_2; lra|].
      apply Rle_trans with (2 := S). unfold sin_lb, sin_approx, sum_f_R0, sin_term. cbn [Nat.mul Nat.add fact INR pow]. 
      cbn. lra. }
    unfold FLT_TOLERANCE. nra.
  - unfold from_axis, ZAxis. cbn [qx qy qz qw x3 y3 z3]. replace (2 * _) with 0 by ring. rewrite Rabs_R0. unfold FLT_TOLERANCE. lra.
Qed.
Example C74_demo : let a := Q4 0 0 0 1 in let b := Q4 1 0 0 0 in
  norm2 a = 1 /\ norm2 b = 1 /\ -1 < qdot a b /\ FLT_TOLERANCE <= 1 - qdot a b /\ qx (slerp a b (1/2)) = cos (PI / 4).
Proof.
  cbv zeta. assert (A : norm2 (Q4 0 0 0 1) = 1) by (unfold norm2; cbn; ring). assert (B : norm2 (Q4 1 0 0 0) = 1) by (unfold norm2; cbn; ring).
  assert (D : qdot (Q4 0 0 0 1) (Q4 1 0 0 0) = 0) by (unfold qdot; cbn; ring).
  assert (L : -1 < qdot (Q4 0 0 0 1) (Q4 1 0 0 0)) by lra. assert (G : FLT_TOLERANCE <= 1 - qdot (Q4 0 0 0 1) (Q4 1 0 0 0)) by (rewrite D; unfold FLT_TOLERANCE; lra).
  split; [exact A|]. split; [exact B|]. split; [exact L|]. split; [exact G|].
  destruct (C74_slerp_partial _ _ (1/2) A B L G) as (_ & _ & _ & _ & Q & _). rewrite D, acos_0 in Q.
  unfold qdot in Q. cbn [qx qy qz qw] in Q. replace ((1 - 1/2) * (PI / 2)) with (PI / 4) in Q by field. lra.
Qed.

Print Assumptions C43_every_rotation.
Print Assumptions C72_look_at_partial.
Print Assumptions C72_parallel_refuted.
Print Assumptions C72_singular_refuted.
Print Assumptions C73_axis_partial.
Print Assumptions C73_euler_partial.
Print Assumptions C73_north.
Print Assumptions C73_south_refuted.
Print Assumptions C73_euler_refuted.
Print Assumptions C74_slerp_partial.
Print Assumptions C74_slerp_refuted.
