(** FMQuaternion (FMath/FMQuaternion.h, FMath/FMQuaternion.cpp) in exact real arithmetic: rounding, overflow and NaN
    of the float computations are not modelled. *)
From Coq Require Import Reals.
From Verif Require Import MatrixModel.
Local Open Scope R_scope.

(** FMQuaternion.h:27-30. *)
Record quat := Q4 { qx : R; qy : R; qz : R; qw : R }.
(** FMQuaternion.cpp:46-47. *)
Definition Zero : quat := Q4 0 0 0 0.
Definition QIdentity : quat := Q4 0 0 0 1.
(** FMQuaternion(axis, angle), FMQuaternion.cpp:71-78. *)
Definition from_axis (axis : vec3) (angle : R) : quat :=
  let s := sin (angle / 2) in Q4 (x3 axis * s) (y3 axis * s) (z3 axis * s) (cos (angle / 2)).
(** FMQuaternion::operator*(q), FMQuaternion.cpp:80-88; [t] is this. *)
Definition times (t q : quat) : quat :=
  Q4 (qw q * qx t + qx q * qw t + qy q * qz t - qz q * qy t)
     (qw q * qy t + qy q * qw t + qz q * qx t - qx q * qz t)
     (qw q * qz t + qz q * qw t + qx q * qy t - qy q * qx t)
     (qw q * qw t - qx q * qx t - qy q * qy t - qz q * qz t).
(** operator~, FMQuaternion.h:106. *)
Definition conj (q : quat) : quat := Q4 (- qx q) (- qy q) (- qz q) (qw q).
(** FMQuaternion::operator*(FMVector3), FMQuaternion.cpp:90-94. *)
Definition rotate (t : quat) (v : vec3) : vec3 :=
  let out := times (times t (Q4 (x3 v) (y3 v) (z3 v) 0)) (conj t) in V3 (qx out) (qy out) (qz out).
(** LengthSquared and Length, FMQuaternion.h:78, 82. *)
Definition LengthSquared (q : quat) : R := qx q * qx q + qy q * qy q + qz q * qz q + qw q * qw q.
Definition Length (q : quat) : R := sqrt (LengthSquared q).
(** NormalizeIt, FMQuaternion.h:85. *)
Definition NormalizeIt (q : quat) : quat :=
  let l := Length q in if Rlt_dec 0 l then Q4 (qx q / l) (qy q / l) (qz q / l) (qw q / l) else q.

(** FMQuaternion::SetToMatrix, FMQuaternion.cpp:192-222. There is no operator== for quaternions: in
    [*this == FMQuaternion::Identity] both sides are converted to const float* (FMQuaternion.h:60), so that the test
    asks whether this is the object FMQuaternion::Identity; [is_Identity] is the answer. *)
Definition SetToMatrix (is_Identity : bool) (q : quat) (m : mat) : mat :=
  if is_Identity then Identity else
  let x := qx q in let y := qy q in let z := qz q in let w := qw q in
  let den := x * x + y * y + z * z + w * w in
  let s := if Req_EM_T den 0 then 1 else 2 / den in
  let xs := x * s in let ys := y * s in let zs := z * s in
  let wx := w * xs in let wy := w * ys in let wz := w * zs in
  let xx := x * xs in let xy := x * ys in let xz := x * zs in
  let yy := y * ys in let yz := y * zs in let zz := z * zs in
  Mat (1 - (yy + zz)) (xy + wz) (xz - wy) (m03 m)
      (xy - wz) (1 - (xx + zz)) (yz + wx) (m13 m)
      (xz + wy) (yz - wx) (1 - (xx + yy)) (m23 m)
      (m30 m) (m31 m) (m32 m) (m33 m).
(** FMQuaternion::ToMatrix, FMQuaternion.cpp:179-189, for a quaternion that is not the object Identity. *)
Definition ToMatrix (q : quat) : mat := SetToMatrix false q Identity.

(** FMVector3::XAxis, YAxis, ZAxis, FMVector3.cpp:20-22. *)
Definition XAxis : vec3 := V3 1 0 0.
Definition YAxis : vec3 := V3 0 1 0.
Definition ZAxis : vec3 := V3 0 0 1.
(** FMQuaternion::EulerRotationQuaternion, FMQuaternion.cpp:225-231. *)
Definition EulerRotationQuaternion (x y z : R) : quat :=
  times (times (from_axis ZAxis z) (from_axis YAxis y)) (from_axis XAxis x).

(** 0.00001f, FMQuaternion.cpp:240, as a float. *)
Definition tr_limit : R := 2748779 / 274877906944.
(** FMQuaternion::MatrixRotationQuaternion, FMQuaternion.cpp:233-272. *)
Definition MatrixRotationQuaternion (m : mat) : quat :=
  let tr := 1 + m00 m + m11 m + m22 m in
  if Rlt_dec tr_limit tr then
    let s := sqrt tr * 2 in
    Q4 ((m12 m - m21 m) / s) ((m20 m - m02 m) / s) ((m01 m - m10 m) / s) (s * (1 / 4))
  else if Rlt_dec (m11 m) (m00 m) then
    let s := sqrt (1 + m00 m - m11 m - m22 m) * 2 in
    Q4 (1 / 4 * s) ((m01 m + m10 m) / s) ((m20 m + m02 m) / s) ((m12 m - m21 m) / s)
  else if Rlt_dec (m22 m) (m11 m) then
    let s := sqrt (1 + m11 m - m00 m - m22 m) * 2 in
    Q4 ((m01 m + m10 m) / s) (1 / 4 * s) ((m12 m + m21 m) / s) ((m20 m - m02 m) / s)
  else
    let s := sqrt (1 + m22 m - m00 m - m11 m) * 2 in
    Q4 ((m20 m + m02 m) / s) ((m12 m + m21 m) / s) (1 / 4 * s) ((m01 m - m10 m) / s).
