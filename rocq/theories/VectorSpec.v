(** Specification of [fm::vector] as a plain list (properties C05, C06, C55, C56). *)
From Coq Require Import List Arith.
From Verif Require Import VectorModel.
Import ListNotations.

Section Spec.
Context {T : Type}.

(** The public calls. *)
Inductive op :=
| Push (x : T) | Pop | Insert (i : nat) (x : T) | InsertN (i n : nat) (x : T)
| InsertRange (i : nat) (xs : list T) | Erase (i : nat) | EraseRange (a b : nat)
| Resize (n : nat) (x : T) | Reserve (n : nat) | Clear | AssignFrom (xs : list T)
| Set_ (i : nat) (x : T).

(** What each call means on the list of elements; [None]: the call is outside its precondition
    (only an inverted range and writing past the last element are). An out-of-range insert or erase
    position changes nothing.  Reserve keeps at most [n] elements, as documented. *)
Definition meaning (l : list T) (o : op) : option (list T) :=
  match o with
  | Push x => Some (l ++ [x])
  | Pop => Some (removelast l)
  | Insert i x => Some (if i <=? length l then firstn i l ++ x :: skipn i l else l)
  | InsertN i n x => Some (if i <=? length l then firstn i l ++ repeat x n ++ skipn i l else l)
  | InsertRange i xs => Some (if i <=? length l then firstn i l ++ xs ++ skipn i l else l)
  | Erase i => Some (if i <? length l then firstn i l ++ skipn (S i) l else l)
  | EraseRange a b =>
      if a <=? b then Some (if b <=? length l then firstn a l ++ skipn b l else l) else None
  | Resize n x => Some (if n <=? length l then firstn n l else l ++ repeat x (n - length l))
  | Reserve n => Some (firstn n l)
  | Clear => Some []
  | AssignFrom xs => Some xs
  | Set_ i x => if i <? length l then Some (firstn i l ++ x :: skipn (S i) l) else None
  end.

Definition step (v : vec T) (o : op) : option (vec T) :=
  match o with
  | Push x => push_back v x
  | Pop => Some (pop_back v)
  | Insert i x => insert v i x
  | InsertN i n x => insert_n v i n x
  | InsertRange i xs => insert_range v i xs
  | Erase i => erase v i
  | EraseRange a b => erase_range v a b
  | Resize n x => resize v n x
  | Reserve n => reserve v n
  | Clear => clear v
  | AssignFrom xs => assign v xs
  | Set_ i x => set v i x
  end.

Fixpoint meanings (l : list T) (ops : list op) : option (list T) :=
  match ops with
  | [] => Some l
  | o :: ops' => match meaning l o with Some l' => meanings l' ops' | None => None end
  end.
Fixpoint run (v : vec T) (ops : list op) : option (vec T) :=
  match ops with
  | [] => Some v
  | o :: ops' => match step v o with Some v' => run v' ops' | None => None end
  end.
End Spec.
Arguments op : clear implicits.
