(** FUBoundingSphere (FUtils/FUBoundingSphere.h, FUtils/FUBoundingSphere.cpp) in exact real arithmetic:
    rounding, overflow and NaN of the float computations are not modelled. *)
From Coq Require Import List Reals.
Import ListNotations.
Local Open Scope R_scope.

(** FMVector3.h:31-33. *)
Record vec := V { px : R; py : R; pz : R }.
(** FMVector3.h:175, 181, 211, 217: the operators + - * (scalar) and / (scalar). *)
Definition add (a b : vec) := V (px a + px b) (py a + py b) (pz a + pz b).
Definition sub (a b : vec) := V (px a - px b) (py a - py b) (pz a - pz b).
Definition scale (k : R) (b : vec) := V (k * px b) (k * py b) (k * pz b).
Definition divide (a : vec) (k : R) := V (px a / k) (py a / k) (pz a / k).
(** FMVector3.h:80, 84. *)
Definition LengthSquared (a : vec) : R := px a * px a + py a * py a + pz a * pz a.
Definition Length (a : vec) : R := sqrt (px a * px a + py a * py a + pz a * pz a).

(** FUBoundingSphere.h:27-28. *)
Record sphere := Sphere { center : vec; radius : R }.
(** FUBoundingSphere.cpp:28-31 and 47-51: the empty constructor and Reset. *)
Definition Reset : sphere := Sphere (V 0 0 0) (-1).
(** FUBoundingSphere.cpp:53-56. *)
Definition IsValid (s : sphere) : bool := if Rle_dec 0 (radius s) then true else false.
(** FMFloat.h:24, 29. *)
Definition FLT_TOLERANCE : R := / 10000.
Definition IsEquivalent (f1 f2 : R) : bool :=
  if Rlt_dec (f1 - f2) FLT_TOLERANCE then if Rlt_dec (f2 - f1) FLT_TOLERANCE then true else false else false.
(** FUBoundingSphere.cpp:58-67. *)
Definition Contains (s : sphere) (p : vec) : bool :=
  if Rle_dec 0 (radius s) then
    let a := LengthSquared (sub (center s) p) in
    let b := radius s * radius s in
    if Rlt_dec a b then true else IsEquivalent a b
  else false.
(** FUBoundingSphere.cpp:69-87: the result (the overlap centre is not modelled). *)
Definition Overlaps (s o : sphere) : bool :=
  if Rle_dec 0 (radius s) then
    let distanceSquared := LengthSquared (sub (center s) (center o)) in
    if Rlt_dec distanceSquared ((radius s + radius o) * (radius s + radius o)) then true else false
  else false.
(** FUBoundingBox.h:27-28. *)
Record box := Box { minimum : vec; maximum : vec }.
(** FUBoundingSphere.cpp:94-102: one coordinate of the vector from the centre to the box. *)
Definition toward (c mn mx : R) : R := if Rlt_dec mx c then mx - c else if Rlt_dec mn c then 0 else mn - c.
(** FUBoundingSphere.cpp:89-112: the result and the overlap centre. *)
Definition OverlapsBox (s : sphere) (b : box) : bool * vec :=
  if Rle_dec 0 (radius s) then
    let rx := toward (px (center s)) (px (minimum b)) (px (maximum b)) in
    let ry := toward (py (center s)) (py (minimum b)) (py (maximum b)) in
    let rz := toward (pz (center s)) (pz (minimum b)) (pz (maximum b)) in
    (if Rlt_dec (rx * rx + ry * ry + rz * rz) (radius s * radius s) then true else false,
     add (center s) (V rx ry rz))
  else (false, center s).
(** FUBoundingSphere.cpp:114-129: Include of a point. *)
Definition IncludePoint (s : sphere) (p : vec) : sphere :=
  if Rle_dec 0 (radius s) then
    let distanceSquared := LengthSquared (sub (center s) p) in
    if Rlt_dec (radius s * radius s) distanceSquared then Sphere (center s) (sqrt distanceSquared) else s
  else Sphere p 0.
(** FUBoundingSphere.cpp:131-147: Include of a sphere. *)
Definition IncludeSphere (s o : sphere) : sphere :=
  if Rle_dec 0 (radius s) then
    let distance := Length (sub (center s) (center o)) in
    if Rlt_dec (radius s) (distance + radius o) then
      Sphere (divide (add (scale (radius s + distance / 2) (center s)) (scale (radius o + distance / 2) (center o)))
                     (radius s + radius o + distance))
             ((radius s + radius o + distance) / 2)
    else s
  else o.
(** FUBoundingSphere.cpp:13-23: the eight corners in the order of the macro FUBOUNDINGBOX_COORDINATES. *)
Definition coordinates (b : box) : list vec :=
  let n := minimum b in let x := maximum b in
  [n; V (px n) (py n) (pz x); V (px n) (py x) (pz n); V (px x) (py n) (pz n);
   V (px n) (py x) (pz x); V (px x) (py n) (pz x); V (px x) (py x) (pz n); x].
(** FUBoundingSphere.cpp:149-164: Include of a box; GetCenter is FUBoundingBox.h:76. *)
Definition IncludeBox (s : sphere) (b : box) : sphere :=
  if Rle_dec 0 (radius s) then fold_left IncludePoint (coordinates b) s
  else let c := divide (add (minimum b) (maximum b)) 2 in Sphere c (Length (sub (maximum b) c)).
(** FMMatrix44.cpp:89-96: TransformVector; the columns are the images of the axes.  The translation is
    added by TransformCoordinate (FMMatrix44.cpp:70-77). *)
Record affine := Affine { colx : vec; coly : vec; colz : vec; translation : vec }.
Definition TransformVector (m : affine) (v : vec) : vec :=
  V (px (colx m) * px v + px (coly m) * py v + px (colz m) * pz v)
    (py (colx m) * px v + py (coly m) * py v + py (colz m) * pz v)
    (pz (colx m) * px v + pz (coly m) * py v + pz (colz m) * pz v).
Definition TransformCoordinate (m : affine) (v : vec) : vec := add (TransformVector m v) (translation m).
(** FUBoundingSphere.cpp:181-189: one turn of the loop. *)
Definition grow (m : affine) (r : R) (p : vec) : R :=
  let lengthSquared := LengthSquared (TransformVector m p) in
  if Rlt_dec (r * r) lengthSquared then sqrt lengthSquared else r.
(** FUBoundingSphere.cpp:166-192: Transform. *)
Definition Transform (m : affine) (s : sphere) : sphere :=
  if IsValid s then
    let r := radius s in
    Sphere (TransformCoordinate m (center s)) (fold_left (grow m) [V r 0 0; V 0 r 0; V 0 0 r] 0)
  else s.
