(** Specification vocabulary for the unique-name properties (C14, C15, C16): nothing here refers to
    the model.  A string is a list of byte values. *)
From Coq Require Import List ZArith.
Import ListNotations.
Local Open Scope Z_scope.

Definition is_digit (c : Z) : Prop := 48 <= c <= 57.
Definition is_letter (c : Z) : Prop := 65 <= c <= 90 \/ 97 <= c <= 122.
(** The value of a sequence of decimal digits (0 for the empty one). *)
Definition number (ds : list Z) : Z := fold_left (fun v c => 10 * v + (c - 48)) ds 0.

(** [s] is the base name [p] followed by the maximal run [ds] of final digits. *)
Definition parts (s p ds : list Z) : Prop :=
  s = p ++ ds /\ Forall is_digit ds /\ (forall q c, p = q ++ [c] -> ~ is_digit c).

(** The same base name and the same number, or no number on both sides ("a01" and "a1"). *)
Definition same_name (s t : list Z) : Prop :=
  exists p ds es, parts s p ds /\ parts t p es /\
    ((ds = [] /\ es = []) \/ (ds <> [] /\ es <> [] /\ number ds = number es)).

(** The final number of [s] (if any) is below [b]. *)
Definition modest (b : Z) (s : list Z) : Prop := forall p ds, parts s p ds -> number ds < b.

(** No superfluous zero in front of the final number. *)
Definition no_leading_zero (s : list Z) : Prop :=
  forall p ds, parts s p ds -> forall es, ds = 48 :: es -> es = [].
