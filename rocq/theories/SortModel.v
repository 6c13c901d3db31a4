(** Model of [fm::comparator<T>::sort], FCollada/FMath/FMSort.h.
    An array is a list; every access is bounds checked ([None] = access outside the array or
    fuel exhausted).  The comparison function is an arbitrary boolean function of two values
    (simplification: a comparator with internal mutable state is not modelled). *)
From Coq Require Import List Arith Bool.
Import ListNotations.

Section SortModel.
Context {T : Type} (compare : T -> T -> bool).

(** FMSort.h:62,66,68,70: assignment [data[i] = x]. *)
Fixpoint set (data : list T) (i : nat) (x : T) : option (list T) :=
  match data, i with
  | [], _ => None
  | _ :: d, O => Some (x :: d)
  | y :: d, S i' => option_map (cons y) (set d i' x)
  end.

(** FMSort.h:21-26, fm::swap applied to [data[i]] and [data[j]]. *)
Definition swap (data : list T) (i j : nat) : option (list T) :=
  match nth_error data i, nth_error data j with
  | Some a, Some b =>
      match set data i b with
      | Some d => set d j a
      | None => None
      end
  | _, _ => None
  end.

(** FMSort.h:61-68: the partition loop; returns the final [data], [l] and [r]. *)
Fixpoint partition (fuel : nat) (data : list T) (beg l r : nat) : option (list T * nat * nat) :=
  if l <? r then
    match fuel with
    | O => None
    | S f =>
        match nth_error data l, nth_error data beg with
        | Some x, Some pivot =>
            if compare x pivot then partition f data beg (S l) r
            else match swap data l (r - 1) with
                 | Some d => partition f d beg l (r - 1)
                 | None => None
                 end
        | _, _ => None
        end
    end
  else Some (data, l, r).

(** FMSort.h:55-73, quicksort over [[beg, end)]; [fuel] bounds the recursion depth. *)
Fixpoint quicksort (fuel : nat) (data : list T) (beg en : nat) : option (list T) :=
  match fuel with
  | O => None
  | S f =>
      if beg + 1 <? en then
        match partition (en - beg) data beg (beg + 1) en with
        | Some (d, l, r) =>
            match swap d (l - 1) beg with
            | Some d1 =>
                match quicksort f d1 beg (l - 1) with
                | Some d2 => quicksort f d2 r en
                | None => None
                end
            | None => None
            end
        | None => None
        end
      else Some data
  end.

(** FMSort.h:48-52, sort. *)
Definition sort (data : list T) : option (list T) := quicksort (S (length data)) data 0 (length data).

End SortModel.
