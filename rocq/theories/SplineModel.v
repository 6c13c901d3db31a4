(** Splines and their conversions, FCDocument/FCDGeometrySpline.cpp. A control vertex (FMVector3) is a value of any
    type [A]; weights and knots are rational numbers. Reading a control vertex that does not exist (fm::vector's
    operator[] does not check) is [None]. *)
From Coq Require Import List Arith ZArith QArith Lia.
Import ListNotations.

(** The members of FCDSpline, FCDGeometrySpline.h:38-42; [closed] is IsClosed() (h:67), the other forms are open. *)
Record spline (A : Type) := Spline { cvs : list A; closed : bool }.
Arguments Spline {A}. Arguments cvs {A}. Arguments closed {A}.
(** The members of FCDNURBSSpline, FCDGeometrySpline.h:183-186, with those of FCDSpline. *)
Record nurbs (A : Type) := Nurbs { ncvs : list A; weights : list Q; knots : list Q; degree : Z; nclosed : bool }.
Arguments Nurbs {A}. Arguments ncvs {A}. Arguments weights {A}. Arguments knots {A}. Arguments degree {A}. Arguments nclosed {A}.

(** FCDSpline::ClearCVs h:91, SetClosed h:71, FCDBezierSpline::AddCV h:165. *)
Definition ClearCVs {A} (s : spline A) : spline A := Spline [] (closed s).
Definition SetClosed {A} (s : spline A) (c : bool) : spline A := Spline (cvs s) c.
Definition AddCV {A} (s : spline A) (cv : A) : spline A := Spline (cvs s ++ [cv]) (closed s).

(** FCDLinearSpline::IsValid, FCDGeometrySpline.cpp:94-97. *)
Definition linear_IsValid {A} (s : spline A) : bool := (2 <=? length (cvs s))%nat.
(** The loop of FCDLinearSpline::ToBezier, FCDGeometrySpline.cpp:75-91; [l] are the control vertices from index [i]. *)
Fixpoint bezier_loop {A} (isclosed : bool) (count i : nat) (l : list A) (bezier : spline A) : spline A :=
  match l with
  | [] => bezier
  | cv :: r =>
    let bezier :=
      if (negb isclosed && ((i =? 0) || (i =? count - 1)))%nat%bool
      then AddCV (AddCV bezier cv) cv
      else AddCV (AddCV (AddCV bezier cv) cv) cv in
    bezier_loop isclosed count (S i) r bezier
  end.
(** FCDLinearSpline::ToBezier, FCDGeometrySpline.cpp:60-92. *)
Definition ToBezier {A} (s : spline A) (bezier : spline A) : spline A :=
  if negb (linear_IsValid s) then bezier else
  let bezier := ClearCVs bezier in
  let bezier := if closed s then SetClosed bezier true else bezier in
  bezier_loop (closed s) (length (cvs s)) 0 (cvs s) bezier.

(** FCDNURBSSpline: the constructor cpp:190-193 with SetDegree(3) (the constructor leaves the degree uninitialised),
    AddCV cpp:222-229, AddKnot h:212. *)
Definition new_cubic {A} : nurbs A := Nurbs [] [] [] 3 false.
Definition nurbs_AddCV {A} (n : nurbs A) (cv : A) (weight : Q) : nurbs A :=
  if Qlt_le_dec weight 0 then n
  else Nurbs (ncvs n ++ [cv]) (weights n ++ [weight]) (knots n) (degree n) (nclosed n).
Definition AddKnot {A} (n : nurbs A) (k : Q) : nurbs A :=
  Nurbs (ncvs n) (weights n) (knots n ++ [k]) (degree n) (nclosed n).
Definition nurbs_SetClosed {A} (n : nurbs A) (c : bool) : nurbs A :=
  Nurbs (ncvs n) (weights n) (knots n) (degree n) c.
Fixpoint repeat_knot {A} (k : nat) (v : Q) (n : nurbs A) : nurbs A :=
  match k with O => n | S k => repeat_knot k v (AddKnot n v) end.
(** FCDGeometrySpline.cpp:140-145 and 162-167. *)
Definition finish {A} (n : nurbs A) : nurbs A := nurbs_SetClosed (repeat_knot 4 1 (repeat_knot 4 0 n)) false.
(** The inner loop, FCDGeometrySpline.cpp:131-134: [k] control vertices from index [cur] on. *)
Fixpoint add_cvs {A} (l : list A) (k cur : nat) (n : nurbs A) : option (nurbs A) :=
  match k with
  | O => Some n
  | S k => match nth_error l cur with None => None | Some cv => add_cvs l k (S cur) (nurbs_AddCV n cv 1) end
  end.
(** The loop over the segments, FCDGeometrySpline.cpp:125-149; after each the index goes back by one. *)
Fixpoint segments {A} (l : list A) (k cur : nat) (fill : list (nurbs A)) : option (list (nurbs A)) :=
  match k with
  | O => Some fill
  | S k =>
    match add_cvs l (3 + 1) cur new_cubic with
    | None => None
    | Some n => segments l k (cur + (3 + 1) - 1) (fill ++ [finish n])
    end
  end.
(** An index that is computed in int and may be negative. *)
Definition at_ {A} (l : list A) (i : Z) : option A := if (i <? 0)%Z then None else nth_error l (Z.to_nat i).
(** FCDBezierSpline::ToNURBs, FCDGeometrySpline.cpp:114-171. Counts above INT_MAX are not modelled; the division of
    int truncates towards zero. *)
Definition ToNURBs {A} (s : spline A) (fill : list (nurbs A)) : option (list (nurbs A)) :=
  let cvsCount := Z.of_nat (length (cvs s)) in
  let nurbCount := if negb (closed s) then Z.quot (cvsCount - 1) 3 else Z.quot cvsCount 3 in
  let curCV := if negb (closed s) then 0%nat else 1%nat in
  let lastNurb := if negb (closed s) then nurbCount else (nurbCount - 1)%Z in
  match segments (cvs s) (Z.to_nat lastNurb) curCV fill with
  | None => None
  | Some fill =>
    if closed s then
      match at_ (cvs s) (cvsCount - 2), at_ (cvs s) (cvsCount - 1), at_ (cvs s) 0, at_ (cvs s) 1 with
      | Some a, Some b, Some c, Some d =>
        Some (fill ++ [finish (nurbs_AddCV (nurbs_AddCV (nurbs_AddCV (nurbs_AddCV new_cubic a 1) b 1) c 1) d 1)])
      | _, _, _, _ => None
      end
    else Some fill
  end.
(** FCDGeometrySpline::ConvertBezierToNURBS, FCDGeometrySpline.cpp:335-348, for a set of type BEZIER. *)
Fixpoint ConvertBezierToNURBS {A} (splines : list (spline A)) (fill : list (nurbs A)) : option (list (nurbs A)) :=
  match splines with
  | [] => Some fill
  | s :: r => match ToNURBs s fill with None => None | Some fill => ConvertBezierToNURBS r fill end
  end.

(** FCDNURBSSpline::IsValid, FCDGeometrySpline.cpp:231-252; size_t has 64 bits and wraps. *)
Definition nurbs_IsValid {A} (n : nurbs A) : bool :=
  let size := Z.of_nat (length (ncvs n)) in
  (negb (size =? 0) && (size =? Z.of_nat (length (weights n)))
   && (size =? (Z.of_nat (length (knots n)) - degree n - 1) mod 2 ^ 64))%Z%bool.
