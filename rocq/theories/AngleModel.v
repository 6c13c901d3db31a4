(** Model of AngleApproach and PatchEuler, FMath/FMQuaternion.cpp:18-40: in exact arithmetic, with the values
    that the constants really have, and AngleApproach in binary32 arithmetic.
    [None] is running out of fuel: the loop is still running after that many iterations. *)
From Coq Require Import QArith ZArith SpecFloat Lqa.
Local Open Scope Q_scope.

(** FMath::Pi, FMath.h:66: the double nearest to pi. *)
Definition Pi : Q := 884279719003555 # 281474976710656.
(** FMath::Pif, FMath.h:67: the float nearest to pi. *)
Definition Pif : Q := 13176795 # 4194304.

(** FMQuaternion.cpp:20. *)
Fixpoint down (fuel : nat) (p v : Q) : option Q :=
  match fuel with
  | O => None
  | S f => if Qlt_le_dec Pi (v - p) then down f p (v - Pif * 2) else Some v
  end.
(** FMQuaternion.cpp:21. *)
Fixpoint up (fuel : nat) (p v : Q) : option Q :=
  match fuel with
  | O => None
  | S f => if Qlt_le_dec (v - p) (- Pi) then up f p (v + Pif * 2) else Some v
  end.
(** AngleApproach, FMQuaternion.cpp:18-22. *)
Definition AngleApproach (fuel : nat) (p v : Q) : option Q :=
  match down fuel p v with Some v' => up fuel p v' | None => None end.

(** float[3]. *)
Definition angles := (Q * Q * Q)%type.
(** The loops over the three angles, FMQuaternion.cpp:27, 32. *)
Definition approach3 (fuel : nat) (p v : angles) : option angles :=
  let '(p0, p1, p2) := p in let '(v0, v1, v2) := v in
  match AngleApproach fuel p0 v0, AngleApproach fuel p1 v1, AngleApproach fuel p2 v2 with
  | Some a, Some b, Some c => Some (a, b, c)
  | _, _, _ => None
  end.
(** FMQuaternion.cpp:28, 33. *)
Definition distanceSq (p v : angles) : Q :=
  let '(p0, p1, p2) := p in let '(v0, v1, v2) := v in
  (v0 - p0) * (v0 - p0) + (v1 - p1) * (v1 - p1) + (v2 - p2) * (v2 - p2).
(** FMQuaternion.cpp:31. *)
Definition alternative (v : angles) : angles := let '(v0, v1, v2) := v in (v0 + Pif, Pif - v1, v2 + Pif).
(** PatchEuler, FMQuaternion.cpp:24-40. *)
Definition PatchEuler (fuel : nat) (p v : angles) : option angles :=
  match approach3 fuel p v with
  | Some v1 =>
      match approach3 fuel p (alternative v1) with
      | Some a => Some (if Qlt_le_dec (distanceSq p a) (distanceSq p v1) then a else v1)
      | None => None
      end
  | None => None
  end.

(** The float arithmetic of AngleApproach: binary32 subtraction and addition, the difference widened to double
    for the comparison (which is exact). *)
(** The value of a finite float. *)
Definition value (f : spec_float) : Q :=
  match f with
  | S754_finite s m e => (if s then - inject_Z 1 else inject_Z 1) * inject_Z (Zpos m) * Qpower 2 e
  | _ => 0
  end.
(** f > c. *)
Definition above (f : spec_float) (c : Q) : bool :=
  match f with
  | S754_infinity s => negb s
  | S754_nan => false
  | _ => if Qlt_le_dec c (value f) then true else false
  end.
(** f < c. *)
Definition below (f : spec_float) (c : Q) : bool :=
  match f with
  | S754_infinity s => s
  | S754_nan => false
  | _ => if Qlt_le_dec (value f) c then true else false
  end.
(** FMath::Pif * 2.0f, FMQuaternion.cpp:20-21: 13176795 * 2^-21. *)
Definition twoPif : spec_float := S754_finite false 13176795 (-21).
(** FMQuaternion.cpp:20. *)
Fixpoint down_f (fuel : nat) (p v : spec_float) : option spec_float :=
  match fuel with
  | O => None
  | S f => if above (SFsub 24 128 v p) Pi then down_f f p (SFsub 24 128 v twoPif) else Some v
  end.
(** FMQuaternion.cpp:21. *)
Fixpoint up_f (fuel : nat) (p v : spec_float) : option spec_float :=
  match fuel with
  | O => None
  | S f => if below (SFsub 24 128 v p) (- Pi) then up_f f p (SFadd 24 128 v twoPif) else Some v
  end.
(** AngleApproach, FMQuaternion.cpp:18-22. *)
Definition AngleApproach_f (fuel : nat) (p v : spec_float) : option spec_float :=
  match down_f fuel p v with Some v' => up_f fuel p v' | None => None end.
