(** Model of FCollada/FMath/FMColor.cpp in IEEE binary32 arithmetic (standard library SpecFloat,
    precision 24, emax 128, round to nearest even; FLT_EVAL_METHOD 0 is assumed). *)
From Coq Require Import ZArith List SpecFloat.
Import ListNotations.
Local Open Scope Z_scope.

(** float(r) for an integer r. *)
Definition of_int (r : Z) : spec_float := binary_normalize 24 128 r 0 false.
Definition fdiv (a b : spec_float) : spec_float := SFdiv 24 128 a b.
Definition fmul (a b : spec_float) : spec_float := SFmul 24 128 a b.

(** (uint8) f: truncation toward zero; undefined ([None]) if the truncated value does not fit. *)
Definition to_uint8 (f : spec_float) : option Z :=
  match f with
  | S754_zero _ => Some 0
  | S754_finite s m e =>
      let t := if 0 <=? e then Zpos m * 2 ^ e else Zpos m / 2 ^ (- e) in
      let v := if s then - t else t in
      if (0 <=? v) && (v <=? 255) then Some v else None
  | _ => None
  end%bool.

(** FMColor.h: four uint8 components. *)
Record color := { r : Z; g : Z; b : Z; a : Z }.

(** FMColor.cpp:63-93, ToFloats. *)
Definition component (v : Z) : spec_float := fdiv (of_int v) (of_int 255).
Definition ToFloats (c : color) (count : nat) : list spec_float :=
  match count with
  | 1%nat => [component (r c)]
  | 2%nat => [component (r c); component (g c)]
  | 3%nat => [component (r c); component (g c); component (b c)]
  | 4%nat => [component (r c); component (g c); component (b c); component (a c)]
  | _ => repeat (S754_zero false) count
  end.

(** FMColor.cpp:12-45, FMColor(const float* components, uint32 componentCount). *)
Definition scaled (f : spec_float) : option Z := to_uint8 (fmul f (of_int 255)).
Definition FromFloats (l : list spec_float) (count : nat) : option color :=
  match count, l with
  | 1%nat, x :: _ =>
      match scaled x with Some r => Some {| r := r; g := 0; b := 0; a := 255 |} | _ => None end
  | 2%nat, x :: y :: _ =>
      match scaled x, scaled y with
      | Some r, Some g => Some {| r := r; g := g; b := 0; a := 255 |} | _, _ => None end
  | 3%nat, x :: y :: z :: _ =>
      match scaled x, scaled y, scaled z with
      | Some r, Some g, Some b => Some {| r := r; g := g; b := b; a := 255 |} | _, _, _ => None end
  | 4%nat, x :: y :: z :: w :: _ =>
      match scaled x, scaled y, scaled z, scaled w with
      | Some r, Some g, Some b, Some a => Some {| r := r; g := g; b := b; a := a |} | _, _, _, _ => None end
  | 1%nat, _ | 2%nat, _ | 3%nat, _ | 4%nat, _ => None
  | _, _ => Some {| r := 0; g := 0; b := 0; a := 255 |}
  end.
