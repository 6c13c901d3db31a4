(** FUBoundingBox (FUtils/FUBoundingBox.h, FUtils/FUBoundingBox.cpp).
    Coordinates are rational numbers.  Every finite float is one, and Reset, Include, Contains, IsValid,
    Equals and Overlaps only compare and copy coordinates, so for finite coordinates they are modelled
    without error; NaN and infinities are not modelled.  The overlap centre and Transform use exact
    arithmetic instead of rounding. *)
From Coq Require Import List QArith.
Import ListNotations.
Local Open Scope Q_scope.

(** FMVector3.h:31-33. *)
Record vec3 := V3 { vx : Q; vy : Q; vz : Q }.
(** FUBoundingBox.h:27-28. *)
Record box := Box { minimum : vec3; maximum : vec3 }.
(** FLT_MAX of <cfloat>: (2^24 - 1) * 2^104. *)
Definition FLT_MAX : Q := inject_Z ((2 ^ 24 - 1) * 2 ^ 104).
(** FMVector3(q, q, q) (FMVector3.h:58). *)
Definition all3 (q : Q) : vec3 := V3 q q q.
(** FUBoundingBox.cpp:32-36 and 52-56: the empty constructor and Reset. *)
Definition Reset : box := Box (all3 FLT_MAX) (all3 (- FLT_MAX)).
(** FUBoundingBox.cpp:30: Infinity. *)
Definition Infinity : box := Box (all3 (- FLT_MAX)) (all3 FLT_MAX).

(** The C++ operator < on floats. *)
Definition lt (a b : Q) : bool := if Qlt_le_dec a b then true else false.
Definition le (a b : Q) : bool := negb (lt b a).

(** FUBoundingBox.cpp:58-61. *)
Definition IsValid (b : box) : bool :=
  negb (lt (vx (maximum b)) (vx (minimum b)) || lt (vy (maximum b)) (vy (minimum b)) || lt (vz (maximum b)) (vz (minimum b))).
(** FUBoundingBox.cpp:63-68. *)
Definition Contains (b : box) (p : vec3) : bool :=
  le (vx (minimum b)) (vx p) && le (vx p) (vx (maximum b)) &&
  le (vy (minimum b)) (vy p) && le (vy p) (vy (maximum b)) &&
  le (vz (minimum b)) (vz p) && le (vz p) (vz (maximum b)).
(** std::max and std::min. *)
Definition fmax (a b : Q) : Q := if lt a b then b else a.
Definition fmin (a b : Q) : Q := if lt b a then b else a.
(** FUBoundingBox.cpp:70-86: the result and the overlap centre. *)
Definition Overlaps (b c : box) : bool :=
  le (vx (minimum b)) (vx (maximum c)) && le (vx (minimum c)) (vx (maximum b)) &&
  le (vy (minimum b)) (vy (maximum c)) && le (vy (minimum c)) (vy (maximum b)) &&
  le (vz (minimum b)) (vz (maximum c)) && le (vz (minimum c)) (vz (maximum b)).
Definition overlapCenter (b c : box) : vec3 :=
  let overlapMinX := fmax (vx (minimum b)) (vx (minimum c)) in
  let overlapMaxX := fmin (vx (maximum b)) (vx (maximum c)) in
  let overlapMinY := fmax (vy (minimum b)) (vy (minimum c)) in
  let overlapMaxY := fmin (vy (maximum b)) (vy (maximum c)) in
  let overlapMinZ := fmax (vz (minimum b)) (vz (minimum c)) in
  let overlapMaxZ := fmin (vz (maximum b)) (vz (maximum c)) in
  V3 ((overlapMaxX + overlapMinX) / 2) ((overlapMaxY + overlapMinY) / 2) ((overlapMaxZ + overlapMinZ) / 2).
(** FUBoundingBox.cpp:94-104: Include of a box. *)
Definition IncludeBox (b : box) (o : box) : box :=
  let n := minimum o in
  let x := maximum o in
  Box (V3 (if lt (vx n) (vx (minimum b)) then vx n else vx (minimum b))
          (if lt (vy n) (vy (minimum b)) then vy n else vy (minimum b))
          (if lt (vz n) (vz (minimum b)) then vz n else vz (minimum b)))
      (V3 (if lt (vx (maximum b)) (vx x) then vx x else vx (maximum b))
          (if lt (vy (maximum b)) (vy x) then vy x else vy (maximum b))
          (if lt (vz (maximum b)) (vz x) then vz x else vz (maximum b))).
(** FUBoundingBox.cpp:108-109 (and 110-113): one coordinate of Include of a point; the pair is the new
    minimum and maximum. *)
Definition include_coordinate (mn mx p : Q) : Q * Q :=
  if lt p mn then (p, mx) else if lt mx p then (mn, p) else (mn, mx).
(** FUBoundingBox.cpp:106-114: Include of a point. *)
Definition IncludePoint (b : box) (p : vec3) : box :=
  let x := include_coordinate (vx (minimum b)) (vx (maximum b)) (vx p) in
  let y := include_coordinate (vy (minimum b)) (vy (maximum b)) (vy p) in
  let z := include_coordinate (vz (minimum b)) (vz (maximum b)) (vz p) in
  Box (V3 (fst x) (fst y) (fst z)) (V3 (snd x) (snd y) (snd z)).

(** FUBoundingBox.cpp:141-149: Equals. *)
Definition Equals (b c : box) : bool :=
  Qeq_bool (vx (minimum b)) (vx (minimum c)) && Qeq_bool (vx (maximum b)) (vx (maximum c)) &&
  Qeq_bool (vy (minimum b)) (vy (minimum c)) && Qeq_bool (vy (maximum b)) (vy (maximum c)) &&
  Qeq_bool (vz (minimum b)) (vz (minimum c)) && Qeq_bool (vz (maximum b)) (vz (maximum c)).
(** FMMatrix44.cpp:70-77: TransformCoordinate uses the first three rows of the matrix (coefficients of x, y,
    z and the translation) and ignores the projective row. *)
Record row := Row { cx : Q; cy : Q; cz : Q; ct : Q }.
Record affine := Affine { rx : row; ry : row; rz : row }.
Definition apply_row (r : row) (p : vec3) : Q := cx r * vx p + cy r * vy p + cz r * vz p + ct r.
Definition TransformCoordinate (m : affine) (p : vec3) : vec3 :=
  V3 (apply_row (rx m) p) (apply_row (ry m) p) (apply_row (rz m) p).
(** FUBoundingBox.cpp:122-127: the six corners other than minimum and maximum, in the order of the code. *)
Definition testPoints (b : box) : list vec3 :=
  let n := minimum b in let x := maximum b in
  [V3 (vx n) (vy x) (vz n); V3 (vx n) (vy x) (vz x); V3 (vx x) (vy x) (vz n);
   V3 (vx n) (vy n) (vz x); V3 (vx x) (vy n) (vz n); V3 (vx x) (vy n) (vz x)].
(** FUBoundingBox.cpp:116-139: Transform. *)
Definition Transform (m : affine) (b : box) : box :=
  if negb (IsValid b) || Equals b Infinity then b
  else
    let t := fold_left (fun t p => IncludePoint t (TransformCoordinate m p)) (testPoints b) Reset in
    IncludePoint (IncludePoint t (TransformCoordinate m (minimum b))) (TransformCoordinate m (maximum b)).
