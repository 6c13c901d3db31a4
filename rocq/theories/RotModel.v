(** The builders of transformations in FMMatrix44 (FMath/FMMatrix44.cpp:107-176, 313-421) and the conversions and the
    interpolation of FMQuaternion (FMath/FMQuaternion.cpp:96-177), in exact real arithmetic: rounding, overflow and
    NaN are not modelled, sinf and cosf are the sine and cosine, FMath::Pi is pi. *)
From Coq Require Import Reals.
From Verif Require Import MatrixModel QuatModel.
Local Open Scope R_scope.

(** FMVector3.h:80, 84, 91: LengthSquared, Length, Normalize. *)
Definition vLengthSquared (v : vec3) : R := x3 v * x3 v + y3 v * y3 v + z3 v * z3 v.
Definition vLength (v : vec3) : R := sqrt (x3 v * x3 v + y3 v * y3 v + z3 v * z3 v).
Definition vNormalize (v : vec3) : vec3 :=
  let l := vLength v in if Rlt_dec 0 l then V3 (x3 v / l) (y3 v / l) (z3 v / l) else XAxis.
(** FMVector3.h:87: NormalizeIt. *)
Definition vNormalizeIt (v : vec3) : vec3 :=
  let l := vLength v in if Rlt_dec 0 l then V3 (x3 v / l) (y3 v / l) (z3 v / l) else V3 0 0 1.
(** FMVector3.h:181, 193, 211, 223: the operators -, - (unary), * (scalar) and ^ (cross product). *)
Definition vsub (a b : vec3) : vec3 := V3 (x3 a - x3 b) (y3 a - y3 b) (z3 a - z3 b).
Definition vneg (a : vec3) : vec3 := V3 (- x3 a) (- y3 a) (- z3 a).
Definition vscale (k : R) (b : vec3) : vec3 := V3 (k * x3 b) (k * y3 b) (k * z3 b).
Definition cross (a b : vec3) : vec3 :=
  V3 (y3 a * z3 b - z3 a * y3 b) (z3 a * x3 b - x3 a * z3 b) (x3 a * y3 b - y3 a * x3 b).

(** atan2f of the C library, without the distinction of signed zeros. *)
Definition atan2 (y x : R) : R :=
  if Rlt_dec 0 x then atan (y / x)
  else if Rlt_dec x 0 then (if Rle_dec 0 y then atan (y / x) + PI else atan (y / x) - PI)
  else if Rlt_dec 0 y then PI / 2 else if Rlt_dec y 0 then - (PI / 2) else 0.

(** FMMatrix44::TranslationMatrix, FMMatrix44.cpp:313-321. *)
Definition TranslationMatrix (t : vec3) : mat := Mat 1 0 0 0  0 1 0 0  0 0 1 0  (x3 t) (y3 t) (z3 t) 1.
(** FMMatrix44::AxisRotationMatrix, FMMatrix44.cpp:323-349. *)
Definition AxisRotationMatrix (axis : vec3) (angle : R) : mat :=
  let a := if IsEquivalent (vLengthSquared axis) 1 then axis else vNormalize axis in
  let xSq := x3 a * x3 a in let ySq := y3 a * y3 a in let zSq := z3 a * z3 a in
  let cT := cos angle in let sT := sin angle in
  Mat (xSq + (ySq + zSq) * cT) (x3 a * y3 a * (1 - cT) + z3 a * sT) (x3 a * z3 a * (1 - cT) - y3 a * sT) 0
      (x3 a * y3 a * (1 - cT) - z3 a * sT) (ySq + (xSq + zSq) * cT) (y3 a * z3 a * (1 - cT) + x3 a * sT) 0
      (x3 a * z3 a * (1 - cT) + y3 a * sT) (y3 a * z3 a * (1 - cT) - x3 a * sT) (zSq + (xSq + ySq) * cT) 0
      0 0 0 1.
(** FMMatrix44::XAxisRotationMatrix, FMMatrix44.cpp:351-357. *)
Definition XAxisRotationMatrix (angle : R) : mat :=
  Mat 1 0 0 0  0 (cos angle) (sin angle) 0  0 (- sin angle) (cos angle) 0  0 0 0 1.
(** FMMatrix44::YAxisRotationMatrix, FMMatrix44.cpp:359-365. *)
Definition YAxisRotationMatrix (angle : R) : mat :=
  Mat (cos angle) 0 (- sin angle) 0  0 1 0 0  (sin angle) 0 (cos angle) 0  0 0 0 1.
(** FMMatrix44::ZAxisRotationMatrix, FMMatrix44.cpp:367-373. *)
Definition ZAxisRotationMatrix (angle : R) : mat :=
  Mat (cos angle) (sin angle) 0 0  (- sin angle) (cos angle) 0 0  0 0 1 0  0 0 0 1.
(** FMMatrix44::EulerRotationMatrix, FMMatrix44.cpp:375-383. *)
Definition EulerRotationMatrix (r : vec3) : mat :=
  let t := if IsEquivalent (x3 r) 0 then Identity else XAxisRotationMatrix (x3 r) in
  let t := if IsEquivalent (y3 r) 0 then t else product t (YAxisRotationMatrix (y3 r)) in
  if IsEquivalent (z3 r) 0 then t else product t (ZAxisRotationMatrix (z3 r)).
(** FMMatrix44::ScaleMatrix, FMMatrix44.cpp:385-390. *)
Definition ScaleMatrix (s : vec3) : mat := Mat (x3 s) 0 0 0  0 (y3 s) 0 0  0 0 (z3 s) 0  0 0 0 1.

(** FMMatrix44::LookAtMatrix, FMMatrix44.cpp:392-421. *)
Definition LookAtMatrix (eye target up : vec3) : mat :=
  let forward := vNormalize (vsub target eye) in
  let sideways :=
    if (negb (IsEquivalent3 forward up) && negb (IsEquivalent3 forward (vneg up)))%bool then vNormalize (cross forward up)
    else if negb (IsEquivalent3 up XAxis) then XAxis
    else ZAxis in
  let upward := cross sideways forward in
  Mat (x3 sideways) (y3 sideways) (z3 sideways) 0
      (x3 upward) (y3 upward) (z3 upward) 0
      (- x3 forward) (- y3 forward) (- z3 forward) 0
      (x3 eye) (y3 eye) (z3 eye) 1.

(** FMMatrix44.cpp:116-118. *)
Definition not_zero (s : R) : R := if IsEquivalent s 0 then FLT_TOLERANCE else s.
(** FMMatrix44::Decompose, FMMatrix44.cpp:107-169: scale, rotation, translation, inverted; replacement3 is 0.01f. *)
Definition Decompose (m : mat) : vec3 * vec3 * vec3 * R :=
  let sx := sqrt (m00 m * m00 m + m01 m * m01 m + m02 m * m02 m) in
  let sy := sqrt (m10 m * m10 m + m11 m * m11 m + m12 m * m12 m) in
  let sz := sqrt (m20 m * m20 m + m21 m * m21 m + m22 m * m22 m) in
  let inverted := Sign (det3x3 (m00 m) (m01 m) (m02 m) (m10 m) (m11 m) (m12 m) (m20 m) (m21 m) (m22 m)) in
  let flip s := if Rlt_dec inverted 0 then - s else s in
  let scx := flip (not_zero sx) in let scy := flip (not_zero sy) in let scz := flip (not_zero sz) in
  let '(ry, c) :=
    if Rle_dec (1 - FLT_TOLERANCE) (m20 m / scz) then (PI / 2, 0)
    else if Rle_dec (m20 m / scz) (-1 + FLT_TOLERANCE) then (PI / -2, 0)
    else let y := asin (m20 m / scz) in (y, cos y) in
  let '(rx, rz) :=
    if Rlt_dec replacement3 (Rabs c) then
      (atan2 (- m21 m / scz / c) (m22 m / scz / c), atan2 (- m10 m / scy / c) (m00 m / scx / c))
    else (atan2 (m12 m / scy) (m11 m / scy), 0) in
  (V3 sx sy sz, V3 rx ry rz, GetTranslation m, inverted).
(** FMMatrix44::Recompose, FMMatrix44.cpp:171-176. *)
Definition Recompose (scale rot translation : vec3) (inverted : R) : mat :=
  product (product (product (product (TranslationMatrix translation) (AxisRotationMatrix ZAxis (z3 rot)))
    (AxisRotationMatrix YAxis (y3 rot))) (AxisRotationMatrix XAxis (x3 rot))) (ScaleMatrix (vscale inverted scale)).

(** FMQuaternion::ToAngleAxis, FMQuaternion.cpp:124-140. *)
Definition ToAngleAxis (q : quat) : vec3 * R :=
  let angle := 2 * acos (qw q) in
  let s := sin (angle / 2) in
  if IsEquivalent s 0 then (XAxis, angle)
  else (vNormalizeIt (V3 (qx q / s) (qy q / s) (qz q / s)), angle).
(** FMQuaternion::ToEuler, FMQuaternion.cpp:142-177, without previous angles (see AngleModel for PatchEuler). *)
Definition ToEuler (q : quat) : vec3 :=
  let x := qx q in let y := qy q in let z := qz q in let w := qw q in
  let siny := 2 * (x * z + y * w) in
  if Rlt_dec (1 - FLT_TOLERANCE) siny then V3 (2 * atan2 x w) (PI / 2) 0
  else if Rlt_dec siny (-1 + FLT_TOLERANCE) then V3 (-2 * atan2 x w) (- PI / 2) 0
  else V3 (atan2 (x * w - y * z) (1 - 2 * (x * x + y * y))) (asin siny)
          (atan2 (2 * (z * w - x * y)) (1 - 2 * (y * y + z * z))).
(** FMQuaternion::slerp, FMQuaternion.cpp:96-122. *)
Definition slerp (q other : quat) (t : R) : quat :=
  let dot := qx q * qx other + qy q * qy other + qz q * qz other + qw q * qw other in
  if IsEquivalent dot 1 then q else
  let theta := acos dot in
  let theta := if Rlt_dec theta 0 then - theta else theta in
  let st := sin theta in let sut := sin (t * theta) in let sout := sin ((1 - t) * theta) in
  let interp1 := sout / st in let interp2 := sut / st in
  NormalizeIt (Q4 (interp1 * qx q + interp2 * qx other) (interp1 * qy q + interp2 * qy other)
                  (interp1 * qz q + interp2 * qz other) (interp1 * qw q + interp2 * qw other)).
