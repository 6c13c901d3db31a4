(** Model of the scalar helpers of FCollada/FMath/FMath.h on integer types. Signed overflow and division
    by zero are the outcome [None]. *)
From Coq Require Import ZArith Bool.
From Verif Require Import TextModel.
Local Open Scope Z_scope.

(** FMath.h:115-116, Sign. *)
Definition Sign (v : Z) : Z := if 0 <=? v then 1 else -1.

(** FMath.h:127-128, Clamp with T = T2 = T3. *)
Definition Clamp (v mn mx : Z) : Z := if mx <? v then mx else if v <? mn then mn else v.

(** An int operation: the exact result, or [None] on overflow. *)
Definition int_op (z : Z) : option Z := if in_int32 z then Some z else None.
Definition bind {A B} (o : option A) (f : A -> option B) : option B :=
  match o with Some a => f a | None => None end.
(** The % operator on int: truncated remainder, undefined for a zero divisor. *)
Definition int_rem (a b : Z) : option Z := if b =? 0 then None else int_op (Z.rem a b).

(** FMath.h:156-160, Wrap for int. *)
Definition Wrap_int (v mn mx : Z) : option Z :=
  if mx <? v then
    bind (int_op (v - mx)) (fun a => bind (int_op (mx - mn)) (fun d =>
      bind (int_rem a d) (fun r => int_op (mn + r))))
  else if v <? mn then
    bind (int_op (mn - v)) (fun a => bind (int_op (mx - mn)) (fun d =>
      bind (int_rem a d) (fun r => int_op (mx - r))))
  else Some v.

(** FMath.h:162-166, Wrap for uint32: arithmetic modulo 2^32. *)
Definition Wrap_uint32 (v mn mx : Z) : option Z :=
  if mx <? v then
    let d := u32 (mx - mn) in if d =? 0 then None else Some (u32 (mn + u32 (v - mx) mod d))
  else if v <? mn then
    let d := u32 (mx - mn) in if d =? 0 then None else Some (u32 (mx - u32 (mn - v) mod d))
  else Some v.

(** FMath.h:139-140, the generic Wrap, for a type without overflow. [fuel] bounds the iterations of each
    loop; [None] is running out of it. *)
Fixpoint wrap_down (fuel : nat) (v mx d : Z) : option Z :=
  if mx <? v then match fuel with O => None | S f => wrap_down f (v - d) mx d end else Some v.
Fixpoint wrap_up (fuel : nat) (v mn d : Z) : option Z :=
  if v <? mn then match fuel with O => None | S f => wrap_up f (v + d) mn d end else Some v.
Definition Wrap_loop (fuel : nat) (v mn mx : Z) : option Z :=
  bind (wrap_down fuel v mx (mx - mn)) (fun v' => wrap_up fuel v' mn (mx - mn)).
