(** Model of FCollada/FUtils/FUObjectType.cpp. *)
From Coq Require Import List PeanoNat.
Import ListNotations.

(** FUObjectType.h:31-50: a type object is its address (here an index) and a parent pointer.  A C++ class
    is defined after its base class, so a parent has a smaller index ([wf]). *)
Definition hierarchy := list (option nat).
Definition wf (h : hierarchy) : Prop := forall i p, nth_error h i = Some (Some p) -> p < i.

(** FUObjectType.cpp:24-29, Includes; [operator==] compares addresses (FUObjectType.h:76).
    [None] is an invalid address or lack of fuel. *)
Fixpoint includes (fuel : nat) (h : hierarchy) (this other : nat) : option bool :=
  match fuel with
  | O => None
  | S f =>
      if other =? this then Some true
      else match nth_error h this with
           | Some (Some p) => includes f h p other
           | Some None => Some false
           | None => None
           end
  end.
Definition Includes (h : hierarchy) (this other : nat) : option bool := includes (S this) h this other.
