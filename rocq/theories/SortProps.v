(** Property C07: sorting is memory safe, terminates, permutes and orders. *)
From Coq Require Import List Arith Bool Permutation Sorted.
From Verif Require Import SortModel SortProofs.
Import ListNotations.

(** For every comparison function whatsoever: no access outside the array, termination within a
    recursion depth of length+1 (both: the result is not [None]), and the result is a permutation.
    If the comparison is a strict weak order, no later element compares before an earlier one. *)
Theorem C07_sort_safe_and_correct :
  forall (T : Type) (compare : T -> T -> bool) (data : list T),
  exists out, sort compare data = Some out /\ Permutation data out /\
    ((forall a, compare a a = false) /\
     (forall a b c, compare a b = true -> compare b c = true -> compare a c = true) /\
     (forall a b c, compare a b = false -> compare b c = false -> compare a c = false) ->
     StronglySorted (fun a b => compare b a = false) out).
Proof. exact @sort_spec. Qed.
Print Assumptions C07_sort_safe_and_correct.

Example C07_demo : sort Nat.ltb [5; 3; 9; 1; 3; 7; 3; 0] = Some [0; 1; 3; 3; 3; 5; 7; 9].
Proof. vm_compute. reflexivity. Qed.

(** An inconsistent comparator ("always smaller") still terminates in bounds. *)
Example C07_demo_inconsistent : exists out, sort (fun _ _ => true) [4; 2; 8; 6] = Some out /\
  Permutation [4; 2; 8; 6] out.
Proof.
  destruct (C07_sort_safe_and_correct nat (fun _ _ => true) [4; 2; 8; 6]) as (out & E & P & _).
  exists out. split; assumption.
Qed.
