(** C42: matrix algebra. *)
From Coq Require Import Reals Lra Lia Psatz.
From Verif Require Import MatrixModel.
Local Open Scope R_scope.

(** ** Specification *)
(** The element in column [c] and row [r]. *)
Definition entry (m : mat) (c r : nat) : R :=
  match c, r with
  | 0, 0 => m00 m | 0, 1 => m01 m | 0, 2 => m02 m | 0, 3 => m03 m
  | 1, 0 => m10 m | 1, 1 => m11 m | 1, 2 => m12 m | 1, 3 => m13 m
  | 2, 0 => m20 m | 2, 1 => m21 m | 2, 2 => m22 m | 2, 3 => m23 m
  | 3, 0 => m30 m | 3, 1 => m31 m | 3, 2 => m32 m | 3, 3 => m33 m
  | _, _ => R0
  end%nat.
Definition entry3 (m : mat3) (c r : nat) : R :=
  match c, r with
  | 0, 0 => n00 m | 0, 1 => n01 m | 0, 2 => n02 m
  | 1, 0 => n10 m | 1, 1 => n11 m | 1, 2 => n12 m
  | 2, 0 => n20 m | 2, 1 => n21 m | 2, 2 => n22 m
  | _, _ => R0
  end%nat.
(** f 0 + ... + f (n - 1). *)
Fixpoint sum (n : nat) (f : nat -> R) : R := match n with O => 0 | S k => sum k f + f k end.
(** Leaving out column [i] and the first row. *)
Definition minor (i : nat) (f : nat -> nat -> R) : nat -> nat -> R :=
  fun c r => f (if Nat.ltb c i then c else S c) (S r).
(** The determinant of an n by n matrix, by expansion along the first row. *)
Fixpoint det (n : nat) (f : nat -> nat -> R) : R :=
  match n with O => 1 | S k => sum n (fun i => (-1) ^ i * f i O * det k (minor i f)) end.
(** The last row is 0 0 0 1. *)
Definition affine (m : mat) : Prop := m03 m = 0 /\ m13 m = 0 /\ m23 m = 0 /\ m33 m = 1.

(** ** Theorems *)
Lemma mat_ext : forall a b,
  m00 a = m00 b -> m01 a = m01 b -> m02 a = m02 b -> m03 a = m03 b ->
  m10 a = m10 b -> m11 a = m11 b -> m12 a = m12 b -> m13 a = m13 b ->
  m20 a = m20 b -> m21 a = m21 b -> m22 a = m22 b -> m23 a = m23 b ->
  m30 a = m30 b -> m31 a = m31 b -> m32 a = m32 b -> m33 a = m33 b -> a = b.
Proof. intros [] []; cbn; intros; subst; reflexivity. Qed.
Lemma mat3_ext : forall a b,
  n00 a = n00 b -> n01 a = n01 b -> n02 a = n02 b -> n10 a = n10 b -> n11 a = n11 b -> n12 a = n12 b ->
  n20 a = n20 b -> n21 a = n21 b -> n22 a = n22 b -> a = b.
Proof. intros [] []; cbn; intros; subst; reflexivity. Qed.
Lemma vec3_ext : forall a b, x3 a = x3 b -> y3 a = y3 b -> z3 a = z3 b -> a = b.
Proof. intros [] []; cbn; intros; subst; reflexivity. Qed.
Lemma vec4_ext : forall a b, x4 a = x4 b -> y4 a = y4 b -> z4 a = z4 b -> w4 a = w4 b -> a = b.
Proof. intros [] []; cbn; intros; subst; reflexivity. Qed.
Ltac ext := match goal with
  | |- @eq mat _ _ => apply mat_ext | |- @eq mat3 _ _ => apply mat3_ext
  | |- @eq vec3 _ _ => apply vec3_ext | |- @eq vec4 _ _ => apply vec4_ext | _ => idtac end.
Ltac open_ := cbv [product product3 Transposed Transposed3 Identity identity scalar_times scalar_times3
  TransformCoordinate TransformCoordinate4 TransformVector times_vec4 Determinant det3x3 det2x2 cofactors cofactors3
  expansion expansion3
  m00 m01 m02 m03 m10 m11 m12 m13 m20 m21 m22 m23 m30 m31 m32 m33
  n00 n01 n02 n10 n11 n12 n20 n21 n22 x3 y3 z3 x4 y4 z4 w4].
Ltac mats := intros; repeat match goal with m : mat |- _ => destruct m | m : mat3 |- _ => destruct m
  | v : vec3 |- _ => destruct v | v : vec4 |- _ => destruct v end.
Ltac meq := mats; ext; open_; ring.

(** Set reads the rows of the matrix one after the other. *)
Theorem C42_set : forall f c r, (c < 4)%nat -> (r < 4)%nat -> entry (Set_ f) c r = f (4 * r + c)%nat.
Proof. intros f c r Hc Hr. do 4 (destruct c as [|c]; [do 4 (destruct r as [|r]; [reflexivity|]); lia|]). lia. Qed.

(** The product is the usual product of matrices. *)
Theorem C42_product : forall a b c r, (c < 4)%nat -> (r < 4)%nat ->
  entry (product a b) c r = sum 4 (fun k => entry a k r * entry b c k).
Proof.
  intros a b c r Hc Hr.
  do 4 (destruct c as [|c]; [do 4 (destruct r as [|r]; [cbn [sum entry product m00 m01 m02 m03 m10 m11 m12 m13 m20 m21 m22 m23 m30 m31 m32 m33]; ring|]); lia|]). lia.
Qed.
Theorem C42_associative : forall a b c, product a (product b c) = product (product a b) c.
Proof. meq. Qed.
Theorem C42_identity : forall a, product Identity a = a /\ product a Identity = a.
Proof. intros a. split; meq. Qed.
(** The transpose has rows and columns exchanged; it is an involution and reverses products. *)
Theorem C42_transpose : forall a b,
  (forall c r, entry (Transposed a) c r = entry a r c) /\
  Transposed (Transposed a) = a /\ Transposed (product a b) = product (Transposed b) (Transposed a).
Proof.
  intros a b. split; [|split].
  - intros c r. do 4 (destruct c as [|c]; [do 4 (destruct r as [|r]; [reflexivity|]); destruct r; reflexivity|]).
    do 4 (destruct r as [|r]; [reflexivity|]). reflexivity.
  - meq.
  - meq.
Qed.

(** A product of matrices transforms four-dimensional vectors like the second followed by the first. *)
Theorem C42_points4 : forall a b v,
  TransformCoordinate4 (product a b) v = TransformCoordinate4 a (TransformCoordinate4 b v) /\
  times_vec4 a v = TransformCoordinate4 a v /\ TransformCoordinate4 Identity v = v.
Proof. intros a b v. split; [|split]; meq. Qed.
(** So it does with points and vectors, provided the second matrix is affine. *)
Theorem C42_points_partial : forall a b p, affine b ->
  TransformCoordinate (product a b) p = TransformCoordinate a (TransformCoordinate b p) /\
  TransformVector (product a b) p = TransformVector a (TransformVector b p) /\
  (forall q, TransformCoordinate b (V3 (x3 p + x3 q) (y3 p + y3 q) (z3 p + z3 q)) =
     let s := TransformCoordinate b p in let t := TransformVector b q in V3 (x3 s + x3 t) (y3 s + y3 t) (z3 s + z3 t)).
Proof.
  intros a b p (A & B & C & D).
  split; [|split]; [| |intro q]; mats; cbn in A, B, C, D; subst; meq.
Qed.
(** It does not in general: the fourth coordinate is dropped. *)
Theorem C42_points_refuted : exists a b p,
  TransformCoordinate (product a b) p <> TransformCoordinate a (TransformCoordinate b p).
Proof.
  exists (Mat 1 0 0 0 0 1 0 0 0 0 1 0 1 0 0 1), (Mat 1 0 0 1 0 1 0 0 0 0 1 0 0 0 0 1), (V3 1 0 0).
  cbv [product TransformCoordinate m00 m01 m02 m03 m10 m11 m12 m13 m20 m21 m22 m23 m30 m31 m32 m33 x3 y3 z3].
  intro H. injection H. intros. lra.
Qed.

(** Determinant is the determinant. *)
Theorem C42_determinant : forall m, Determinant m = det 4 (entry m).
Proof.
  intro m. cbv [Determinant det3x3 det2x2 det sum minor entry Nat.ltb Nat.leb pow]. ring.
Qed.
Theorem C42_determinant_product : forall a b, Determinant (product a b) = Determinant a * Determinant b.
Proof. meq. Qed.
Theorem C42_determinant_others : forall m, Determinant Identity = 1 /\ Determinant (Transposed m) = Determinant m.
Proof. intro m. split; meq. Qed.

Lemma safe_det_far : forall d, epsilon < Rabs d -> safe_det d = d.
Proof.
  intros d H. unfold safe_det. destruct (Rle_dec 0 (d + epsilon)) as [A|A]; [|reflexivity].
  destruct (Rle_dec (d - epsilon) 0) as [B|B]; [|reflexivity].
  exfalso. unfold Rabs in H. destruct (Rcase_abs d); lra.
Qed.
Lemma epsilon_pos : 0 < epsilon.
Proof. unfold epsilon. lra. Qed.
Lemma tolerance_pos : 0 < FLT_TOLERANCE.
Proof. unfold FLT_TOLERANCE. lra. Qed.
Lemma adjugate : forall m, product m (cofactors m) = scalar_times (Determinant m) Identity /\
  product (cofactors m) m = scalar_times (Determinant m) Identity.
Proof. intro m. split; meq. Qed.
Lemma product_scalar : forall k a b, product a (scalar_times k b) = scalar_times k (product a b) /\
  product (scalar_times k a) b = scalar_times k (product a b).
Proof. intros k a b. split; meq. Qed.
Lemma scalar_scalar : forall k l a, scalar_times k (scalar_times l a) = scalar_times (k * l) a.
Proof. meq. Qed.
Lemma scalar_one : forall a, scalar_times 1 a = a.
Proof. meq. Qed.
Lemma expansion_det : forall m, expansion m (cofactors m) = Determinant m.
Proof. intro m. mats. unfold expansion, Determinant. open_. ring. Qed.

(** Inverted is the inverse on both sides, whenever the determinant is farther than 2^-52 from zero. *)
Theorem C42_inverse : forall m, epsilon < Rabs (Determinant m) ->
  product m (Inverted m) = Identity /\ product (Inverted m) m = Identity.
Proof.
  intros m H. unfold Inverted. rewrite expansion_det, (safe_det_far _ H).
  assert (D : Determinant m <> 0).
  { intro E. rewrite E, Rabs_R0 in H. pose proof epsilon_pos. lra. }
  destruct (adjugate m) as [A B].
  split.
  - rewrite (proj1 (product_scalar _ _ _)), A, scalar_scalar.
    replace (1 / Determinant m * Determinant m) with 1 by (field; exact D). apply scalar_one.
  - rewrite (proj2 (product_scalar _ _ _)), B, scalar_scalar.
    replace (1 / Determinant m * Determinant m) with 1 by (field; exact D). apply scalar_one.
Qed.
(** It is the only one, it undoes the transformation, and it reverses products. *)
Theorem C42_inverse_unique : forall m b, epsilon < Rabs (Determinant m) ->
  product b m = Identity \/ product m b = Identity -> b = Inverted m.
Proof.
  intros m b H [E|E]; destruct (C42_inverse m H) as [L R].
  - rewrite <- (proj2 (C42_identity b)), <- L, C42_associative, E. apply C42_identity.
  - rewrite <- (proj1 (C42_identity b)), <- R, <- C42_associative, E. apply C42_identity.
Qed.
Theorem C42_inverse_undoes : forall m p, epsilon < Rabs (Determinant m) -> affine m ->
  TransformCoordinate (Inverted m) (TransformCoordinate m p) = p.
Proof.
  intros m p H A. destruct (C42_points_partial (Inverted m) m p A) as [E _]. rewrite <- E.
  rewrite (proj2 (C42_inverse m H)). meq.
Qed.
Theorem C42_inverse_product : forall a b, epsilon < Rabs (Determinant a) -> epsilon < Rabs (Determinant b) ->
  epsilon < Rabs (Determinant (product a b)) ->
  Inverted (product a b) = product (Inverted b) (Inverted a).
Proof.
  intros a b A B AB. symmetry. apply C42_inverse_unique; [exact AB|left].
  rewrite <- C42_associative, (C42_associative (Inverted a)), (proj2 (C42_inverse a A)), (proj1 (C42_identity b)).
  apply C42_inverse, B.
Qed.
(** For other matrices the result is the inverse times a number that is less than 3e-12: practically zero, not an
    inverse, and no error is reported. *)
Theorem C42_inverse_singular : forall m, Rabs (Determinant m) <= epsilon ->
  exists k, Rabs k < 3 / 1000000000000 /\ product m (Inverted m) = scalar_times k Identity /\
            (Determinant m = 0 -> k = 0).
Proof.
  intros m H. unfold Inverted. rewrite expansion_det.
  destruct (adjugate m) as [A _]. rewrite (proj1 (product_scalar _ _ _)), A, scalar_scalar.
  set (d := Determinant m) in *. exists (1 / safe_det d * d).
  assert (S : safe_det d = FLT_TOLERANCE \/ safe_det d = - FLT_TOLERANCE).
  { unfold safe_det.
    assert (B : - epsilon <= d <= epsilon).
    { unfold Rabs in H; destruct (Rcase_abs d); lra. }
    destruct (Rle_dec 0 (d + epsilon)); [|lra]. destruct (Rle_dec (d - epsilon) 0); [|lra].
    unfold Sign. destruct (Rle_dec 0 d); [left|right]; lra. }
  split; [|split; [reflexivity|intros ->; unfold Rdiv; ring]].
  assert (T := tolerance_pos).
  assert (E : Rabs (1 / safe_det d * d) = Rabs d / FLT_TOLERANCE).
  { destruct S as [-> | ->].
    - replace (1 / FLT_TOLERANCE * d) with (d / FLT_TOLERANCE) by (field; lra).
      unfold Rdiv. rewrite Rabs_mult, Rabs_inv, (Rabs_pos_eq FLT_TOLERANCE); lra.
    - replace (1 / - FLT_TOLERANCE * d) with (- (d / FLT_TOLERANCE)) by (field; lra).
      rewrite Rabs_Ropp. unfold Rdiv. rewrite Rabs_mult, Rabs_inv, (Rabs_pos_eq FLT_TOLERANCE); lra. }
  rewrite E. apply Rle_lt_trans with (epsilon / FLT_TOLERANCE).
  - unfold Rdiv. apply Rmult_le_compat_r; [|exact H]. left. apply Rinv_0_lt_compat, T.
  - unfold epsilon, FLT_TOLERANCE. lra.
Qed.

(** ** 3 by 3 *)
Theorem C42_product3 : forall a b c r, (c < 3)%nat -> (r < 3)%nat ->
  entry3 (product3 a b) c r = sum 3 (fun k => entry3 a k r * entry3 b c k).
Proof.
  intros a b c r Hc Hr.
  do 3 (destruct c as [|c]; [do 3 (destruct r as [|r]; [cbn [sum entry3 product3 n00 n01 n02 n10 n11 n12 n20 n21 n22]; ring|]); lia|]). lia.
Qed.
Theorem C42_laws3 : forall a b c,
  product3 a (product3 b c) = product3 (product3 a b) c /\
  product3 identity a = a /\ product3 a identity = a /\
  Transposed3 (Transposed3 a) = a /\ Transposed3 (product3 a b) = product3 (Transposed3 b) (Transposed3 a) /\
  (forall i j, entry3 (Transposed3 a) i j = entry3 a j i).
Proof.
  intros a b c. split; [meq|]. split; [meq|]. split; [meq|]. split; [meq|]. split; [meq|].
  intros i j. do 3 (destruct i as [|i]; [do 3 (destruct j as [|j]; [reflexivity|]); destruct j; reflexivity|]).
  do 3 (destruct j as [|j]; [reflexivity|]). reflexivity.
Qed.
Lemma adjugate3 : forall m, product3 m (cofactors3 m) = scalar_times3 (expansion3 m (cofactors3 m)) identity /\
  product3 (cofactors3 m) m = scalar_times3 (expansion3 m (cofactors3 m)) identity.
Proof. intro m. split; meq. Qed.
Lemma product_scalar3 : forall k a b, product3 a (scalar_times3 k b) = scalar_times3 k (product3 a b) /\
  product3 (scalar_times3 k a) b = scalar_times3 k (product3 a b).
Proof. intros k a b. split; meq. Qed.
Lemma expansion3_det : forall m, expansion3 m (cofactors3 m) = det 3 (entry3 m).
Proof. intro m. cbv [expansion3 cofactors3 det2x2 det sum minor entry3 Nat.ltb Nat.leb pow n00 n01 n02 n10 n11 n12 n20 n21 n22]. ring. Qed.
Lemma scalar_identity3 : forall k l, k * l = 1 -> scalar_times3 k (scalar_times3 l identity) = identity.
Proof.
  intros k l H. replace (scalar_times3 k (scalar_times3 l identity)) with (scalar_times3 (k * l) identity) by meq.
  rewrite H. meq.
Qed.
(** The inverse is the inverse, whenever the determinant is at least the tolerance (about 0.0001) away from zero. *)
Theorem C42_inverse3_partial : forall m, FLT_TOLERANCE <= Rabs (det 3 (entry3 m)) ->
  product3 m (Inverted3 m) = identity /\ product3 (Inverted3 m) m = identity.
Proof.
  intros m H. rewrite <- expansion3_det in H. unfold Inverted3. destruct (adjugate3 m) as [A B].
  set (d := expansion3 m (cofactors3 m)) in *.
  assert (T := tolerance_pos).
  assert (S : safe_det3 d = d).
  { unfold safe_det3, IsEquivalent. unfold Rabs in H.
    destruct (Rlt_dec (d - 0) FLT_TOLERANCE) as [P|P]; [|reflexivity].
    destruct (Rlt_dec (0 - d) FLT_TOLERANCE) as [Q|Q]; [|reflexivity].
    destruct (Rcase_abs d); lra. }
  assert (D : d <> 0).
  { intro E. rewrite E, Rabs_R0 in H. lra. }
  rewrite S. split.
  - rewrite (proj1 (product_scalar3 _ _ _)), A. apply scalar_identity3. field. exact D.
  - rewrite (proj2 (product_scalar3 _ _ _)), B. apply scalar_identity3. field. exact D.
Qed.
(** The tolerance is not small for a determinant: texture coordinates scaled to a two-hundredth in both directions
    have an inverse, and Inverted3 returns another matrix. *)
Theorem C42_inverse3_refuted : exists m b, product3 m b = identity /\ product3 m (Inverted3 m) <> identity.
Proof.
  exists (ScaleMatrix3 (1 / 200) (1 / 200)), (ScaleMatrix3 200 200). split.
  - apply mat3_ext; cbv [product3 ScaleMatrix3 identity n00 n01 n02 n10 n11 n12 n20 n21 n22]; field.
  - unfold Inverted3. rewrite (proj1 (product_scalar3 _ _ _)), (proj1 (adjugate3 _)), expansion3_det.
    assert (E : det 3 (entry3 (ScaleMatrix3 (1 / 200) (1 / 200))) = 1 / 40000).
    { cbv [det sum minor entry3 ScaleMatrix3 Nat.ltb Nat.leb pow n00 n01 n02 n10 n11 n12 n20 n21 n22]. field. }
    rewrite E. assert (S : safe_det3 (1 / 40000) = replacement3).
    { unfold safe_det3, IsEquivalent, FLT_TOLERANCE.
      destruct (Rlt_dec _ _); [|lra]. destruct (Rlt_dec _ _); [reflexivity|lra]. }
    rewrite S. intro H. apply (f_equal n00) in H. revert H.
    cbv [scalar_times3 identity n00]. unfold replacement3. lra.
Qed.

(** ** Examples *)
(** A matrix with determinant -24, its inverse, and a point taken there and back. *)
Example C42_demo : let m := Mat 2 0 0 0  1 3 0 0  0 5 (-4) 0  7 8 9 1 in
  affine m /\ Determinant m = -24 /\ epsilon < Rabs (Determinant m) /\
  TransformCoordinate m (V3 1 2 3) = V3 11 29 (-3) /\
  TransformCoordinate (Inverted m) (V3 11 29 (-3)) = V3 1 2 3.
Proof.
  cbv zeta. set (m := Mat 2 0 0 0  1 3 0 0  0 5 (-4) 0  7 8 9 1).
  assert (A : affine m) by (repeat split; reflexivity).
  assert (D : Determinant m = -24) by (unfold m; open_; ring).
  assert (E : epsilon < Rabs (Determinant m)).
  { rewrite D. unfold epsilon. rewrite Rabs_left; lra. }
  assert (P : TransformCoordinate m (V3 1 2 3) = V3 11 29 (-3)).
  { unfold m. apply vec3_ext; open_; ring. }
  split; [exact A|]. split; [exact D|]. split; [exact E|]. split; [exact P|].
  rewrite <- P. apply C42_inverse_undoes; assumption.
Qed.
Example C42_singular_demo : Rabs (Determinant (Mat 1 2 3 4  2 4 6 8  0 0 1 0  0 0 0 1)) <= epsilon.
Proof. replace (Determinant _) with 0 by (open_; ring). rewrite Rabs_R0. unfold epsilon. lra. Qed.
Example C42_inverse_product_demo : let a := Mat 2 0 0 0  1 3 0 0  0 5 (-4) 0  7 8 9 1 in
  epsilon < Rabs (Determinant a) /\ epsilon < Rabs (Determinant (product a a)).
Proof.
  cbv zeta. rewrite C42_determinant_product. replace (Determinant _) with (-24) by (open_; ring).
  unfold epsilon. split; [rewrite Rabs_left|rewrite Rabs_pos_eq]; lra.
Qed.
Example C42_inverse3_demo : FLT_TOLERANCE <= Rabs (det 3 (entry3 (Mat3 1 2 3  0 1 4  5 6 0))).
Proof.
  replace (det 3 _) with 1.
  - rewrite Rabs_pos_eq; unfold FLT_TOLERANCE; lra.
  - cbv [det sum minor entry3 Nat.ltb Nat.leb pow n00 n01 n02 n10 n11 n12 n20 n21 n22]. ring.
Qed.

Print Assumptions C42_product.
Print Assumptions C42_associative.
Print Assumptions C42_determinant.
Print Assumptions C42_determinant_product.
Print Assumptions C42_points_partial.
Print Assumptions C42_points_refuted.
Print Assumptions C42_inverse.
Print Assumptions C42_inverse_unique.
Print Assumptions C42_inverse_undoes.
Print Assumptions C42_inverse_product.
Print Assumptions C42_inverse_singular.
Print Assumptions C42_inverse3_partial.
Print Assumptions C42_inverse3_refuted.
