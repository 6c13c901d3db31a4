(** FMMatrix44 and FMMatrix33 (FMath/FMMatrix44.cpp, FMath/FMMatrix33.cpp) in exact real arithmetic: rounding,
    overflow and NaN of the float computations are not modelled.
    As in the code, m[c][r] is the element in column c and row r (FMMatrix44.cpp:43-49 reads rows). *)
From Coq Require Import Reals.
Local Open Scope R_scope.

(** FMVector3.h:31-33. *)
Record vec3 := V3 { x3 : R; y3 : R; z3 : R }.
(** FMVector4.h: x, y, z, w. *)
Record vec4 := V4 { x4 : R; y4 : R; z4 : R; w4 : R }.
(** FMMatrix44.h:35: float m[4][4]; the field mij is m[i][j]. *)
Record mat := Mat {
  m00 : R; m01 : R; m02 : R; m03 : R;
  m10 : R; m11 : R; m12 : R; m13 : R;
  m20 : R; m21 : R; m22 : R; m23 : R;
  m30 : R; m31 : R; m32 : R; m33 : R }.

(** FMFloat.h:24: 0.0001f as a float. *)
Definition FLT_TOLERANCE : R := 13743895 / 137438953472.
(** FMFloat.h:29. *)
Definition IsEquivalent (f1 f2 : R) : bool :=
  if Rlt_dec (f1 - f2) FLT_TOLERANCE then if Rlt_dec (f2 - f1) FLT_TOLERANCE then true else false else false.
(** FMVector3.h:253. *)
Definition IsEquivalent3 (p q : vec3) : bool :=
  (IsEquivalent (x3 p) (x3 q) && IsEquivalent (y3 p) (y3 q) && IsEquivalent (z3 p) (z3 q))%bool.
(** FMath::Sign, FMath.h:116. *)
Definition Sign (v : R) : R := if Rle_dec 0 v then 1 else -1.

(** FMMatrix44.cpp:13-14: __identity through Set. *)
Definition Identity : mat := Mat 1 0 0 0  0 1 0 0  0 0 1 0  0 0 0 1.

(** FMMatrix44::Set, FMMatrix44.cpp:43-49, from the array [_m]. *)
Definition Set_ (_m : nat -> R) : mat :=
  Mat (_m 0%nat) (_m 4%nat) (_m 8%nat) (_m 12%nat) (_m 1%nat) (_m 5%nat) (_m 9%nat) (_m 13%nat)
      (_m 2%nat) (_m 6%nat) (_m 10%nat) (_m 14%nat) (_m 3%nat) (_m 7%nat) (_m 11%nat) (_m 15%nat).
(** FMMatrix44::Transposed, FMMatrix44.cpp:60-68. *)
Definition Transposed (m : mat) : mat :=
  Mat (m00 m) (m10 m) (m20 m) (m30 m)
      (m01 m) (m11 m) (m21 m) (m31 m)
      (m02 m) (m12 m) (m22 m) (m32 m)
      (m03 m) (m13 m) (m23 m) (m33 m).

(** FMMatrix44::TransformCoordinate(FMVector3), FMMatrix44.cpp:70-77. *)
Definition TransformCoordinate (m : mat) (c : vec3) : vec3 :=
  V3 (m00 m * x3 c + m10 m * y3 c + m20 m * z3 c + m30 m)
     (m01 m * x3 c + m11 m * y3 c + m21 m * z3 c + m31 m)
     (m02 m * x3 c + m12 m * y3 c + m22 m * z3 c + m32 m).
(** FMMatrix44::TransformCoordinate(FMVector4), FMMatrix44.cpp:79-87. *)
Definition TransformCoordinate4 (m : mat) (c : vec4) : vec4 :=
  V4 (m00 m * x4 c + m10 m * y4 c + m20 m * z4 c + m30 m * w4 c)
     (m01 m * x4 c + m11 m * y4 c + m21 m * z4 c + m31 m * w4 c)
     (m02 m * x4 c + m12 m * y4 c + m22 m * z4 c + m32 m * w4 c)
     (m03 m * x4 c + m13 m * y4 c + m23 m * z4 c + m33 m * w4 c).
(** FMMatrix44::TransformVector, FMMatrix44.cpp:89-96. *)
Definition TransformVector (m : mat) (v : vec3) : vec3 :=
  V3 (m00 m * x3 v + m10 m * y3 v + m20 m * z3 v)
     (m01 m * x3 v + m11 m * y3 v + m21 m * z3 v)
     (m02 m * x3 v + m12 m * y3 v + m22 m * z3 v).
(** GetTranslation, FMMatrix44.h:140: the first three floats of m[3]. *)
Definition GetTranslation (m : mat) : vec3 := V3 (m30 m) (m31 m) (m32 m).

(** FMMatrix44.cpp:181-184. *)
Definition det2x2 (a1 a2 b1 b2 : R) : R := a1 * b2 - b1 * a2.
(** FMMatrix44.cpp:187-190. *)
Definition det3x3 (a1 a2 a3 b1 b2 b3 c1 c2 c3 : R) : R :=
  a1 * det2x2 b2 b3 c2 c3 - b1 * det2x2 a2 a3 c2 c3 + c1 * det2x2 a2 a3 b2 b3.
(** The cofactors computed by FMMatrix44::Inverted, FMMatrix44.cpp:197-216. *)
Definition cofactors (m : mat) : mat :=
  Mat (det3x3 (m11 m) (m12 m) (m13 m) (m21 m) (m22 m) (m23 m) (m31 m) (m32 m) (m33 m))
      (- det3x3 (m01 m) (m02 m) (m03 m) (m21 m) (m22 m) (m23 m) (m31 m) (m32 m) (m33 m))
      (det3x3 (m01 m) (m02 m) (m03 m) (m11 m) (m12 m) (m13 m) (m31 m) (m32 m) (m33 m))
      (- det3x3 (m01 m) (m02 m) (m03 m) (m11 m) (m12 m) (m13 m) (m21 m) (m22 m) (m23 m))
      (- det3x3 (m10 m) (m12 m) (m13 m) (m20 m) (m22 m) (m23 m) (m30 m) (m32 m) (m33 m))
      (det3x3 (m00 m) (m02 m) (m03 m) (m20 m) (m22 m) (m23 m) (m30 m) (m32 m) (m33 m))
      (- det3x3 (m00 m) (m02 m) (m03 m) (m10 m) (m12 m) (m13 m) (m30 m) (m32 m) (m33 m))
      (det3x3 (m00 m) (m02 m) (m03 m) (m10 m) (m12 m) (m13 m) (m20 m) (m22 m) (m23 m))
      (det3x3 (m10 m) (m11 m) (m13 m) (m20 m) (m21 m) (m23 m) (m30 m) (m31 m) (m33 m))
      (- det3x3 (m00 m) (m01 m) (m03 m) (m20 m) (m21 m) (m23 m) (m30 m) (m31 m) (m33 m))
      (det3x3 (m00 m) (m01 m) (m03 m) (m10 m) (m11 m) (m13 m) (m30 m) (m31 m) (m33 m))
      (- det3x3 (m00 m) (m01 m) (m03 m) (m10 m) (m11 m) (m13 m) (m20 m) (m21 m) (m23 m))
      (- det3x3 (m10 m) (m11 m) (m12 m) (m20 m) (m21 m) (m22 m) (m30 m) (m31 m) (m32 m))
      (det3x3 (m00 m) (m01 m) (m02 m) (m20 m) (m21 m) (m22 m) (m30 m) (m31 m) (m32 m))
      (- det3x3 (m00 m) (m01 m) (m02 m) (m10 m) (m11 m) (m12 m) (m30 m) (m31 m) (m32 m))
      (det3x3 (m00 m) (m01 m) (m02 m) (m10 m) (m11 m) (m12 m) (m20 m) (m21 m) (m22 m)).
(** The determinant computed by FMMatrix44::Inverted, FMMatrix44.cpp:217; [b] is the matrix of cofactors. *)
Definition expansion (m b : mat) : R := m00 m * m00 b + m10 m * m01 b + m20 m * m02 b + m30 m * m03 b.
(** operator*(float, FMMatrix44), FMMatrix44.cpp:291-311; also the multiplications of lines 223-241. *)
Definition scalar_times (a : R) (m : mat) : mat :=
  Mat (a * m00 m) (a * m01 m) (a * m02 m) (a * m03 m) (a * m10 m) (a * m11 m) (a * m12 m) (a * m13 m)
      (a * m20 m) (a * m21 m) (a * m22 m) (a * m23 m) (a * m30 m) (a * m31 m) (a * m32 m) (a * m33 m).
(** std::numeric_limits<double>::epsilon(), FMMatrix44.cpp:219: 2^-52. *)
Definition epsilon : R := 1 / 4503599627370496.
(** FMMatrix44.cpp:220: a determinant near zero is replaced. *)
Definition safe_det (det : R) : R :=
  if Rle_dec 0 (det + epsilon) then if Rle_dec (det - epsilon) 0 then Sign det * FLT_TOLERANCE else det else det.
(** FMMatrix44::Inverted, FMMatrix44.cpp:193-244. *)
Definition Inverted (m : mat) : mat :=
  let b := cofactors m in scalar_times (1 / safe_det (expansion m b)) b.
(** FMMatrix44::Determinant, FMMatrix44.cpp:246-258. *)
Definition Determinant (m : mat) : R :=
  let cofactor0 := det3x3 (m11 m) (m12 m) (m13 m) (m21 m) (m22 m) (m23 m) (m31 m) (m32 m) (m33 m) in
  let cofactor1 := - det3x3 (m01 m) (m02 m) (m03 m) (m21 m) (m22 m) (m23 m) (m31 m) (m32 m) (m33 m) in
  let cofactor2 := det3x3 (m01 m) (m02 m) (m03 m) (m11 m) (m12 m) (m13 m) (m31 m) (m32 m) (m33 m) in
  let cofactor3 := - det3x3 (m01 m) (m02 m) (m03 m) (m11 m) (m12 m) (m13 m) (m21 m) (m22 m) (m23 m) in
  m00 m * cofactor0 + m10 m * cofactor1 + m20 m * cofactor2 + m30 m * cofactor3.
(** operator*(FMMatrix44, FMMatrix44), FMMatrix44.cpp:260-280. *)
Definition product (m1 m2 : mat) : mat :=
  Mat (m00 m1 * m00 m2 + m10 m1 * m01 m2 + m20 m1 * m02 m2 + m30 m1 * m03 m2)
      (m01 m1 * m00 m2 + m11 m1 * m01 m2 + m21 m1 * m02 m2 + m31 m1 * m03 m2)
      (m02 m1 * m00 m2 + m12 m1 * m01 m2 + m22 m1 * m02 m2 + m32 m1 * m03 m2)
      (m03 m1 * m00 m2 + m13 m1 * m01 m2 + m23 m1 * m02 m2 + m33 m1 * m03 m2)
      (m00 m1 * m10 m2 + m10 m1 * m11 m2 + m20 m1 * m12 m2 + m30 m1 * m13 m2)
      (m01 m1 * m10 m2 + m11 m1 * m11 m2 + m21 m1 * m12 m2 + m31 m1 * m13 m2)
      (m02 m1 * m10 m2 + m12 m1 * m11 m2 + m22 m1 * m12 m2 + m32 m1 * m13 m2)
      (m03 m1 * m10 m2 + m13 m1 * m11 m2 + m23 m1 * m12 m2 + m33 m1 * m13 m2)
      (m00 m1 * m20 m2 + m10 m1 * m21 m2 + m20 m1 * m22 m2 + m30 m1 * m23 m2)
      (m01 m1 * m20 m2 + m11 m1 * m21 m2 + m21 m1 * m22 m2 + m31 m1 * m23 m2)
      (m02 m1 * m20 m2 + m12 m1 * m21 m2 + m22 m1 * m22 m2 + m32 m1 * m23 m2)
      (m03 m1 * m20 m2 + m13 m1 * m21 m2 + m23 m1 * m22 m2 + m33 m1 * m23 m2)
      (m00 m1 * m30 m2 + m10 m1 * m31 m2 + m20 m1 * m32 m2 + m30 m1 * m33 m2)
      (m01 m1 * m30 m2 + m11 m1 * m31 m2 + m21 m1 * m32 m2 + m31 m1 * m33 m2)
      (m02 m1 * m30 m2 + m12 m1 * m31 m2 + m22 m1 * m32 m2 + m32 m1 * m33 m2)
      (m03 m1 * m30 m2 + m13 m1 * m31 m2 + m23 m1 * m32 m2 + m33 m1 * m33 m2).
(** operator*(FMMatrix44, FMVector4), FMMatrix44.cpp:282-289. *)
Definition times_vec4 (m : mat) (v : vec4) : vec4 :=
  V4 (m00 m * x4 v + m10 m * y4 v + m20 m * z4 v + m30 m * w4 v)
     (m01 m * x4 v + m11 m * y4 v + m21 m * z4 v + m31 m * w4 v)
     (m02 m * x4 v + m12 m * y4 v + m22 m * z4 v + m32 m * w4 v)
     (m03 m * x4 v + m13 m * y4 v + m23 m * z4 v + m33 m * w4 v).

(** FMMatrix33.h: float m[3][3]; the field nij is m[i][j]. *)
Record mat3 := Mat3 {
  n00 : R; n01 : R; n02 : R;
  n10 : R; n11 : R; n12 : R;
  n20 : R; n21 : R; n22 : R }.
(** FMMatrix33.cpp:11-12. *)
Definition identity : mat3 := Mat3 1 0 0  0 1 0  0 0 1.
(** FMMatrix33::Transposed, FMMatrix33.cpp:38-45. *)
Definition Transposed3 (m : mat3) : mat3 :=
  Mat3 (n00 m) (n10 m) (n20 m)
       (n01 m) (n11 m) (n21 m)
       (n02 m) (n12 m) (n22 m).
(** The cofactors computed by FMMatrix33::Inverted, FMMatrix33.cpp:83-93; det2x2 is the same function (73-76). *)
Definition cofactors3 (m : mat3) : mat3 :=
  Mat3 (det2x2 (n11 m) (n12 m) (n21 m) (n22 m))
       (- det2x2 (n01 m) (n02 m) (n21 m) (n22 m))
       (det2x2 (n01 m) (n02 m) (n11 m) (n12 m))
       (- det2x2 (n10 m) (n12 m) (n20 m) (n22 m))
       (det2x2 (n00 m) (n02 m) (n20 m) (n22 m))
       (- det2x2 (n00 m) (n02 m) (n10 m) (n12 m))
       (det2x2 (n10 m) (n11 m) (n20 m) (n21 m))
       (- det2x2 (n00 m) (n01 m) (n20 m) (n21 m))
       (det2x2 (n00 m) (n01 m) (n10 m) (n11 m)).
(** The determinant computed by FMMatrix33::Inverted, FMMatrix33.cpp:95; [b] is the matrix of cofactors. *)
Definition expansion3 (m b : mat3) : R := n00 m * n00 b + n10 m * n01 b + n20 m * n02 b.
(** 0.01f, FMMatrix33.cpp:98, as a float. *)
Definition replacement3 : R := 5368709 / 536870912.
(** FMMatrix33.cpp:98. *)
Definition safe_det3 (det : R) : R := if IsEquivalent det 0 then replacement3 else det.
(** FMMatrix33.cpp:101-111. *)
Definition scalar_times3 (a : R) (m : mat3) : mat3 :=
  Mat3 (a * n00 m) (a * n01 m) (a * n02 m) (a * n10 m) (a * n11 m) (a * n12 m) (a * n20 m) (a * n21 m) (a * n22 m).
(** FMMatrix33::Inverted, FMMatrix33.cpp:79-114. *)
Definition Inverted3 (m : mat3) : mat3 :=
  let b := cofactors3 m in scalar_times3 (1 / safe_det3 (expansion3 m b)) b.
(** operator*(FMMatrix33, FMMatrix33), FMMatrix33.cpp:116-129. *)
Definition product3 (m1 m2 : mat3) : mat3 :=
  Mat3 (n00 m1 * n00 m2 + n10 m1 * n01 m2 + n20 m1 * n02 m2)
       (n01 m1 * n00 m2 + n11 m1 * n01 m2 + n21 m1 * n02 m2)
       (n02 m1 * n00 m2 + n12 m1 * n01 m2 + n22 m1 * n02 m2)
       (n00 m1 * n10 m2 + n10 m1 * n11 m2 + n20 m1 * n12 m2)
       (n01 m1 * n10 m2 + n11 m1 * n11 m2 + n21 m1 * n12 m2)
       (n02 m1 * n10 m2 + n12 m1 * n11 m2 + n22 m1 * n12 m2)
       (n00 m1 * n20 m2 + n10 m1 * n21 m2 + n20 m1 * n22 m2)
       (n01 m1 * n20 m2 + n11 m1 * n21 m2 + n21 m1 * n22 m2)
       (n02 m1 * n20 m2 + n12 m1 * n21 m2 + n22 m1 * n22 m2).
(** FMMatrix33::RotationMatrix, FMMatrix33.cpp:47-54. *)
Definition RotationMatrix3 (angle : R) : mat3 :=
  let c := cos angle in let s := sin angle in Mat3 c (- s) 0  s c 0  0 0 1.
(** FMMatrix33::TranslationMatrix, FMMatrix33.cpp:56-61. *)
Definition TranslationMatrix3 (tx ty : R) : mat3 := Mat3 1 0 0  0 1 0  tx ty 1.
(** FMMatrix33::ScaleMatrix, FMMatrix33.cpp:63-68. *)
Definition ScaleMatrix3 (sx sy : R) : mat3 := Mat3 sx 0 0  0 sy 0  0 0 1.
