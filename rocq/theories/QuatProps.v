(** C43: quaternions and rotation matrices. *)
From Coq Require Import Reals Lra Lia Psatz.
From Verif Require Import MatrixModel MatrixProps QuatModel.
Local Open Scope R_scope.

(** ** Specification *)
(** Hamilton's product: i i = j j = k k = i j k = -1. *)
Definition hamilton (a b : quat) : quat :=
  Q4 (qw a * qx b + qx a * qw b + qy a * qz b - qz a * qy b)
     (qw a * qy b - qx a * qz b + qy a * qw b + qz a * qx b)
     (qw a * qz b + qx a * qy b - qy a * qx b + qz a * qw b)
     (qw a * qw b - qx a * qx b - qy a * qy b - qz a * qz b).
Definition norm2 (q : quat) : R := qx q ^ 2 + qy q ^ 2 + qz q ^ 2 + qw q ^ 2.
Definition opposite (q : quat) : quat := Q4 (- qx q) (- qy q) (- qz q) (- qw q).
(** A rotation: the transpose is the inverse, the determinant is 1, and nothing but the upper left part. *)
Definition rotation (m : mat) : Prop :=
  product m (Transposed m) = Identity /\ Determinant m = 1 /\
  affine m /\ m30 m = 0 /\ m31 m = 0 /\ m32 m = 0.

(** ** Proofs *)
Lemma quat_ext : forall a b, qx a = qx b -> qy a = qy b -> qz a = qz b -> qw a = qw b -> a = b.
Proof. intros [] []; cbn; intros; subst; reflexivity. Qed.
Ltac qopen := cbv [times conj rotate hamilton norm2 opposite QIdentity Zero LengthSquared qx qy qz qw x3 y3 z3].
Ltac quats := intros; repeat match goal with q : quat |- _ => destruct q | v : vec3 |- _ => destruct v end.
Ltac qeq := quats; (apply quat_ext || apply vec3_ext || idtac); qopen; ring.

(** ** Theorems *)
(** The product is Hamilton's with the factors exchanged; it is associative, Identity is neutral, norms multiply,
    and the conjugate reverses products and is the inverse of a unit quaternion. *)
Theorem C43_algebra : forall a b c,
  times a b = hamilton b a /\ times a (times b c) = times (times a b) c /\
  times a QIdentity = a /\ times QIdentity a = a /\ norm2 (times a b) = norm2 a * norm2 b /\
  conj (times a b) = times (conj b) (conj a) /\ conj (conj a) = a /\
  times a (conj a) = Q4 0 0 0 (norm2 a) /\ times (conj a) a = Q4 0 0 0 (norm2 a).
Proof. intros a b c. repeat (split; [qeq|]). qeq. Qed.

(** The matrix of a quaternion, written out with the norm. *)
Lemma norm2_zero : forall q, norm2 q = 0 -> q = Zero.
Proof.
  intros [x y z w] H. unfold norm2 in H. cbn [qx qy qz qw] in H. apply quat_ext; cbn [qx qy qz qw Zero]; nra.
Qed.
Lemma norm2_den : forall q, qx q * qx q + qy q * qy q + qz q * qz q + qw q * qw q = norm2 q.
Proof. intro q. unfold norm2. ring. Qed.
Lemma norm2_pos : forall q, q <> Zero -> 0 < norm2 q.
Proof.
  intros q H. destruct (Rtotal_order 0 (norm2 q)) as [L|[E|G]]; [exact L| |].
  - exfalso. apply H, norm2_zero. symmetry. exact E.
  - exfalso. unfold norm2 in G. pose proof (pow2_ge_0 (qx q)). pose proof (pow2_ge_0 (qy q)).
    pose proof (pow2_ge_0 (qz q)). pose proof (pow2_ge_0 (qw q)). lra.
Qed.
(** The matrix for given factor [s] = 2 / norm2. *)
Definition mat_of (s : R) (q : quat) : mat :=
  Mat (1 - s * (qy q ^ 2 + qz q ^ 2)) (s * (qx q * qy q + qw q * qz q)) (s * (qx q * qz q - qw q * qy q)) 0
      (s * (qx q * qy q - qw q * qz q)) (1 - s * (qx q ^ 2 + qz q ^ 2)) (s * (qy q * qz q + qw q * qx q)) 0
      (s * (qx q * qz q + qw q * qy q)) (s * (qy q * qz q - qw q * qx q)) (1 - s * (qx q ^ 2 + qy q ^ 2)) 0
      0 0 0 1.
Ltac mopen := cbv [mat_of SetToMatrix ToMatrix Identity product Transposed TransformVector m00 m01 m02 m03 m10 m11 m12 m13
  m20 m21 m22 m23 m30 m31 m32 m33 x3 y3 z3 qx qy qz qw].
Lemma ToMatrix_of : forall q, q <> Zero -> ToMatrix q = mat_of (2 / norm2 q) q.
Proof.
  intros q H. apply norm2_pos in H. unfold ToMatrix, SetToMatrix. rewrite norm2_den.
  destruct (Req_EM_T (norm2 q) 0) as [E|_]; [lra|].
  apply mat_ext; cbv [mat_of Identity m00 m01 m02 m03 m10 m11 m12 m13 m20 m21 m22 m23 m30 m31 m32 m33]; ring.
Qed.
Lemma ToMatrix_zero : ToMatrix Zero = Identity.
Proof.
  unfold ToMatrix, SetToMatrix. cbn [qx qy qz qw Zero].
  destruct (Req_EM_T _ 0) as [E|N]; [|exfalso; apply N; ring].
  apply mat_ext; mopen; ring.
Qed.

(** The matrix of a product is the product of the matrices in the opposite order. *)
Theorem C43_matrix_product_partial : forall a b, a <> Zero -> b <> Zero ->
  ToMatrix (times a b) = product (ToMatrix b) (ToMatrix a).
Proof.
  intros a b A B. assert (NA := norm2_pos _ A). assert (NB := norm2_pos _ B).
  destruct (C43_algebra a b a) as (_ & _ & _ & _ & N & _).
  assert (NAB : 0 < norm2 (times a b)) by (rewrite N; apply Rmult_lt_0_compat; assumption).
  assert (AB : times a b <> Zero).
  { intro E. rewrite E in NAB. unfold norm2, Zero in NAB. cbn in NAB. lra. }
  rewrite !ToMatrix_of by assumption. rewrite N.
  destruct a as [ax ay az aw], b as [bx by_ bz bw]. unfold norm2 in *. cbn [qx qy qz qw] in *.
  apply mat_ext; cbv [mat_of times Identity product m00 m01 m02 m03 m10 m11 m12 m13 m20 m21 m22 m23 m30 m31 m32 m33 qx qy qz qw];
  (field; split; lra) || ring.
Qed.
(** It is not the product in the same order. *)
Theorem C43_matrix_product_refuted : exists a b, norm2 a = 1 /\ norm2 b = 1 /\
  ToMatrix (times a b) <> product (ToMatrix a) (ToMatrix b).
Proof.
  exists (Q4 (3/5) 0 0 (4/5)), (Q4 0 (3/5) 0 (4/5)).
  assert (A : Q4 (3/5) 0 0 (4/5) <> Zero) by (intro H; apply (f_equal qx) in H; cbn in H; lra).
  assert (B : Q4 0 (3/5) 0 (4/5) <> Zero) by (intro H; apply (f_equal qy) in H; cbn in H; lra).
  split; [unfold norm2; cbn; lra|]. split; [unfold norm2; cbn; lra|].
  rewrite C43_matrix_product_partial by assumption. rewrite !ToMatrix_of by assumption.
  replace (norm2 (Q4 (3/5) 0 0 (4/5))) with 1 by (unfold norm2; cbn; lra).
  replace (norm2 (Q4 0 (3/5) 0 (4/5))) with 1 by (unfold norm2; cbn; lra).
  intro H. apply (f_equal m01) in H. revert H. mopen. lra.
Qed.

(** Every quaternion but zero gives a rotation matrix (zero gives the identity), the same for all its multiples. *)
Theorem C43_matrix_rotation : forall q, rotation (ToMatrix q).
Proof.
  intro q. assert (D : q = Zero \/ q <> Zero).
  { destruct (Req_dec (norm2 q) 0) as [E|E]; [left; apply norm2_zero, E|right].
    intros ->. apply E. unfold norm2, Zero. cbn. ring. }
  destruct D as [-> | H].
  - rewrite ToMatrix_zero. unfold rotation. split; [meq|]. split; [meq|]. repeat split.
  - rewrite ToMatrix_of by exact H. apply norm2_pos in H. destruct q as [x y z w].
    unfold norm2 in *. cbn [qx qy qz qw] in *. split; [|split].
    + apply mat_ext; mopen; (field; lra) || ring.
    + cbv [mat_of Determinant det3x3 det2x2 m00 m01 m02 m03 m10 m11 m12 m13 m20 m21 m22 m23 m30 m31 m32 m33 qx qy qz qw].
      field. lra.
    + repeat split.
Qed.
Theorem C43_matrix_multiples : forall q k, k <> 0 ->
  ToMatrix (Q4 (k * qx q) (k * qy q) (k * qz q) (k * qw q)) = ToMatrix q.
Proof.
  intros q k K. destruct (Req_dec (norm2 q) 0) as [E|E].
  - apply norm2_zero in E. subst q. cbn [qx qy qz qw Zero]. replace (Q4 _ _ _ _) with Zero; [reflexivity|].
    apply quat_ext; cbn; ring.
  - assert (N : norm2 (Q4 (k * qx q) (k * qy q) (k * qz q) (k * qw q)) = k ^ 2 * norm2 q) by (unfold norm2; cbn [qx qy qz qw]; ring).
    assert (K2 : k ^ 2 <> 0) by (apply pow_nonzero; exact K).
    rewrite !ToMatrix_of.
    + rewrite N. apply mat_ext; cbv [mat_of m00 m01 m02 m03 m10 m11 m12 m13 m20 m21 m22 m23 m30 m31 m32 m33 qx qy qz qw];
      try reflexivity; field; split; assumption.
    + intros ->. apply E. unfold norm2. cbn. ring.
    + intro Z. apply E. apply (f_equal norm2) in Z. rewrite N in Z.
      replace (norm2 Zero) with 0 in Z by (unfold norm2; cbn; ring).
      apply Rmult_integral in Z. tauto.
Qed.

(** Rotating a vector by a unit quaternion is multiplying by the transpose of its matrix: the inverse rotation. *)
Theorem C43_rotate_partial : forall q v, norm2 q = 1 ->
  rotate q v = TransformVector (Transposed (ToMatrix q)) v /\
  TransformVector (ToMatrix q) (rotate q v) = v /\
  (forall p, rotate (times p q) v = rotate p (rotate q v)).
Proof.
  intros q v H. assert (Z : q <> Zero).
  { intros ->. unfold norm2, Zero in H. cbn in H. lra. }
  rewrite ToMatrix_of by exact Z. rewrite H. destruct q as [x y z w], v as [a b c].
  unfold norm2 in H. cbn [qx qy qz qw] in H.
  assert (W : w ^ 2 = 1 - x ^ 2 - y ^ 2 - z ^ 2) by lra.
  assert (E : rotate (Q4 x y z w) (V3 a b c) = TransformVector (Transposed (mat_of (2 / 1) (Q4 x y z w))) (V3 a b c)).
  { apply vec3_ext; cbv [rotate times conj]; mopen; ring_simplify; rewrite ?W; field. }
  split; [exact E|split].
  - rewrite E. apply vec3_ext; mopen; ring_simplify; 
    replace (w ^ 4) with ((w ^ 2) ^ 2) by ring; rewrite ?W; field.
  - intros [px py pz pw]. qeq.
Qed.
Theorem C43_rotate_refuted : exists q v, norm2 q = 1 /\ rotate q v <> TransformVector (ToMatrix q) v.
Proof.
  exists (Q4 (3/5) 0 0 (4/5)), (V3 0 1 0). split; [unfold norm2; cbn; lra|].
  rewrite ToMatrix_of by (intro H; apply (f_equal qx) in H; cbn in H; lra).
  replace (norm2 (Q4 (3/5) 0 0 (4/5))) with 1 by (unfold norm2; cbn; lra).
  intro H. apply (f_equal z3) in H. revert H. cbv [rotate times conj]. mopen. lra.
Qed.

(** SetToMatrix writes the rotation and keeps the rest of the matrix, *)
Theorem C43_set_partial : forall q m, let r := SetToMatrix false q m in
  (forall c i, (c < 3)%nat -> (i < 3)%nat -> entry r c i = entry (ToMatrix q) c i) /\
  GetTranslation r = GetTranslation m /\ m03 r = m03 m /\ m13 r = m13 m /\ m23 r = m23 m /\ m33 r = m33 m.
Proof.
  intros q m. cbv zeta. split; [|repeat split].
  intros c i Hc Hi. do 3 (destruct c as [|c]; [do 3 (destruct i as [|i]; [reflexivity|]); lia|]). lia.
Qed.
(** but called on FMQuaternion::Identity, unlike on a copy of it, it overwrites the position too, though documented
    not to. *)
Theorem C43_set_refuted : exists m,
  GetTranslation (SetToMatrix true QIdentity m) <> GetTranslation m /\
  GetTranslation (SetToMatrix false QIdentity m) = GetTranslation m.
Proof.
  exists (Mat 1 0 0 0 0 1 0 0 0 0 1 0 5 6 7 1). split; [|reflexivity].
  intro H. apply (f_equal x3) in H. cbn in H. lra.
Qed.

(** Euler angles and matrices: EulerRotationQuaternion is the rotation about z, then y, then x, that is the matrix
    X * Y * Z with the usual axis rotations. *)
Definition RX (t : R) : mat := Mat 1 0 0 0  0 (cos t) (sin t) 0  0 (- sin t) (cos t) 0  0 0 0 1.
Definition RY (t : R) : mat := Mat (cos t) 0 (- sin t) 0  0 1 0 0  (sin t) 0 (cos t) 0  0 0 0 1.
Definition RZ (t : R) : mat := Mat (cos t) (sin t) 0 0  (- sin t) (cos t) 0 0  0 0 1 0  0 0 0 1.
Lemma half : forall t, sin t = 2 * sin (t / 2) * cos (t / 2) /\ cos t = 1 - 2 * sin (t / 2) ^ 2 /\
  cos (t / 2) ^ 2 = 1 - sin (t / 2) ^ 2.
Proof.
  intro t. assert (E : t = 2 * (t / 2)) by field. split; [|split].
  - rewrite E at 1. apply sin_2a.
  - rewrite E at 1. rewrite cos_2a_sin. ring.
  - pose proof (sin2_cos2 (t / 2)). unfold Rsqr in *. lra.
Qed.
Lemma from_axis_norm : forall a t, x3 a ^ 2 + y3 a ^ 2 + z3 a ^ 2 = 1 -> norm2 (from_axis a t) = 1.
Proof.
  intros [a b c] t H. cbn [x3 y3 z3] in H. destruct (half t) as (_ & _ & C). unfold norm2, from_axis. cbn [qx qy qz qw x3 y3 z3].
  rewrite C. replace (_ + _ + _ + _) with (1 + (a ^ 2 + b ^ 2 + c ^ 2 - 1) * sin (t / 2) ^ 2) by ring. rewrite H. ring.
Qed.
Lemma unit_nonzero : forall q, norm2 q = 1 -> q <> Zero.
Proof. intros q H ->. unfold norm2, Zero in H. cbn in H. lra. Qed.
Lemma axis_matrix : forall t, ToMatrix (from_axis XAxis t) = RX t /\ ToMatrix (from_axis YAxis t) = RY t /\
  ToMatrix (from_axis ZAxis t) = RZ t.
Proof.
  intro t. destruct (half t) as (S & C & Q).
  split; [|split]; (rewrite ToMatrix_of by (apply unit_nonzero, from_axis_norm; cbn; ring));
  rewrite from_axis_norm by (cbn; ring); unfold RX, RY, RZ; rewrite S, C;
  apply mat_ext; cbv [mat_of from_axis XAxis YAxis ZAxis x3 y3 z3 m00 m01 m02 m03 m10 m11 m12 m13 m20 m21 m22 m23 m30 m31 m32 m33 qx qy qz qw]; field.
Qed.
Theorem C43_euler : forall x y z, norm2 (EulerRotationQuaternion x y z) = 1 /\
  ToMatrix (EulerRotationQuaternion x y z) = product (RX x) (product (RY y) (RZ z)).
Proof.
  intros x y z. unfold EulerRotationQuaternion.
  assert (NX : norm2 (from_axis XAxis x) = 1) by (apply from_axis_norm; cbn; ring).
  assert (NY : norm2 (from_axis YAxis y) = 1) by (apply from_axis_norm; cbn; ring).
  assert (NZ : norm2 (from_axis ZAxis z) = 1) by (apply from_axis_norm; cbn; ring).
  assert (N : forall a b, norm2 a = 1 -> norm2 b = 1 -> norm2 (times a b) = 1).
  { intros a b A B. destruct (C43_algebra a b a) as (_ & _ & _ & _ & M & _). rewrite M, A, B. ring. }
  split; [auto|].
  rewrite C43_matrix_product_partial by (apply unit_nonzero; auto).
  rewrite C43_matrix_product_partial by (apply unit_nonzero; auto).
  destruct (axis_matrix x) as (-> & _ & _). destruct (axis_matrix y) as (_ & -> & _). destruct (axis_matrix z) as (_ & _ & ->).
  reflexivity.
Qed.

(** MatrixRotationQuaternion finds the quaternion of a matrix again, up to its sign. *)
Lemma sqrt_sq : forall x, sqrt (4 * x ^ 2) = 2 * Rabs x.
Proof.
  intro x. replace (4 * x ^ 2) with ((2 * x)²) by (unfold Rsqr; ring).
  rewrite sqrt_Rsqr_abs, Rabs_mult, (Rabs_pos_eq 2) by lra. reflexivity.
Qed.
Ltac pick v := (* v <> 0 known *)
  let E := fresh "E" in
  unfold Rabs; destruct (Rcase_abs v) as [E|E]; [right|left]; apply quat_ext; cbn [qx qy qz qw opposite]; field; lra.
Theorem C43_from_matrix : forall q, norm2 q = 1 ->
  MatrixRotationQuaternion (ToMatrix q) = q \/ MatrixRotationQuaternion (ToMatrix q) = opposite q.
Proof.
  intros q H. rewrite ToMatrix_of by (apply unit_nonzero, H). rewrite H. replace (2 / 1) with 2 by field.
  destruct q as [x y z w]. unfold norm2 in H. cbn [qx qy qz qw] in H.
  unfold MatrixRotationQuaternion. cbv [mat_of m00 m01 m02 m03 m10 m11 m12 m13 m20 m21 m22 m23 m30 m31 m32 m33 qx qy qz qw].
  replace (1 + _ + _ + _) with (4 * w ^ 2) by lra.
  replace (1 + _ - _ - _) with (4 * x ^ 2) by ring.
  replace (1 + _ - _ - _) with (4 * y ^ 2) by ring.
  replace (1 + _ - _ - _) with (4 * z ^ 2) by ring.
  rewrite !sqrt_sq.
  destruct (Rlt_dec tr_limit (4 * w ^ 2)) as [T|T].
  { assert (w <> 0) by (intros ->; unfold tr_limit in T; lra). pick w. }
  destruct (Rlt_dec _ _) as [A|A].
  { assert (x <> 0) by (intros ->; pose proof (pow2_ge_0 y); lra). pick x. }
  destruct (Rlt_dec _ _) as [B|B].
  { assert (y <> 0) by (intros ->; pose proof (pow2_ge_0 z); lra). pick y. }
  assert (z <> 0).
  { intros ->. unfold tr_limit in T. pose proof (pow2_ge_0 x). pose proof (pow2_ge_0 y). lra. }
  pick z.
Qed.

(** ** Examples *)
(** The hypotheses of the theorems, and a quarter turn about z with the vector rotated the other way round. *)
Example C43_demo : let q := Q4 (1/2) (1/2) (1/2) (1/2) in
  norm2 q = 1 /\ q <> Zero /\ TransformVector (ToMatrix q) (V3 1 2 3) = V3 3 1 2 /\ rotate q (V3 1 2 3) = V3 2 3 1.
Proof.
  cbv zeta. assert (N : norm2 (Q4 (1/2) (1/2) (1/2) (1/2)) = 1) by (unfold norm2; cbn; lra).
  assert (Z := unit_nonzero _ N). split; [exact N|]. split; [exact Z|].
  rewrite ToMatrix_of, N by exact Z. split; apply vec3_ext; cbv [rotate times conj]; mopen; lra.
Qed.
(** The other branches of MatrixRotationQuaternion: half turns. *)
Example C43_half_turns : MatrixRotationQuaternion (Mat (-1) 0 0 0  0 (-1) 0 0  0 0 1 0  0 0 0 1) = Q4 0 0 1 0.
Proof.
  unfold MatrixRotationQuaternion. cbn [m00 m01 m02 m03 m10 m11 m12 m13 m20 m21 m22 m23 m30 m31 m32 m33].
  destruct (Rlt_dec _ _) as [A|A]; [unfold tr_limit in A; lra|].
  destruct (Rlt_dec _ _) as [B|B]; [lra|]. destruct (Rlt_dec _ _) as [C|C]; [lra|].
  replace (1 + 1 - -1 - -1) with (2 * 2) by ring. rewrite sqrt_square by lra.
  apply quat_ext; cbn [qx qy qz qw]; field.
Qed.

Print Assumptions C43_algebra.
Print Assumptions C43_matrix_product_partial.
Print Assumptions C43_matrix_rotation.
Print Assumptions C43_rotate_partial.
Print Assumptions C43_set_refuted.
Print Assumptions C43_euler.
Print Assumptions C43_from_matrix.
