(** Specification vocabulary for [fm::tree] (properties C01-C04), independent of how the tree is
    balanced: what a history of calls means, and what "balanced" means. *)
From Coq Require Import ZArith List Bool.
From Verif Require Import TreeModel.
Import ListNotations.
Open Scope Z_scope.

Section Spec.
Context {K V : Type}.

(** The public mutating calls of FMTree.h:422-618. *)
Inductive op :=
| Insert (k : K) (v : V)      (* insert(k, v), FMTree.h:422 *)
| Assign (k : K) (v : V)      (* m[k] = v, FMTree.h:485 *)
| Erase (k : K)               (* erase(k), FMTree.h:500 *)
| Clear.                      (* clear(), FMTree.h:593 *)

(** What a history (most recent call first) says about key [k]: the last write that was not
    erased. *)
Fixpoint meaning (eqb : K -> K -> bool) (recent_first : list op) (k : K) : option V :=
  match recent_first with
  | [] => None
  | Insert k' v :: h => if eqb k k' then Some v else meaning eqb h k
  | Assign k' v :: h => if eqb k k' then Some v else meaning eqb h k
  | Erase k' :: h => if eqb k k' then None else meaning eqb h k
  | Clear :: _ => None
  end.

(** The keys are totally ordered by the template parameter's [operator<] and [operator==]. *)
Definition lawful (ltb eqb : K -> K -> bool) : Prop :=
  (forall a b, eqb a b = true <-> a = b) /\
  (forall a, ltb a a = false) /\
  (forall a b c, ltb a b = true -> ltb b c = true -> ltb a c = true) /\
  (forall a b, ltb a b = true \/ a = b \/ ltb b a = true).

(** Pairs in order of strictly increasing keys. *)
Fixpoint increasing (ltb : K -> K -> bool) (l : list (K * V)) : Prop :=
  match l with
  | [] => True
  | x :: l' => (forall y, In y l' -> ltb (fst x) (fst y) = true) /\ increasing ltb l'
  end.

(** Number of nodes on the longest downward path. *)
Fixpoint height (t : tree K V) : Z :=
  match t with
  | Leaf => 0
  | Node _ l _ _ _ r => 1 + Z.max (height l) (height r)
  end.

(** Every stored weight is the height difference and is -1, 0 or 1 (the same condition as the
    TREE_DEBUG check, FMTree.h:145-153). *)
Fixpoint avl (t : tree K V) : Prop :=
  match t with
  | Leaf => True
  | Node _ l _ _ w r => avl l /\ avl r /\ w = height r - height l /\ -1 <= w <= 1
  end.

(** The node with address [i], if it is part of the tree: what an iterator holding that address
    designates. *)
Fixpoint node_at (i : nat) (t : tree K V) : option (K * V) :=
  match t with
  | Leaf => None
  | Node j l k v _ r =>
      if Nat.eqb i j then Some (k, v)
      else match node_at i l with
           | Some x => Some x
           | None => node_at i r
           end
  end.

(** Running one call / a history (in chronological order) on the model. *)
Definition step (ltb eqb : K -> K -> bool) (dflt : V) (m : map K V) (o : op) : option (map K V) :=
  match o with
  | Insert k v => insert ltb eqb m k v
  | Assign k v => assign ltb eqb m k dflt v
  | Erase k => erase ltb eqb m k
  | Clear => Some (clear m)
  end.

Fixpoint run (ltb eqb : K -> K -> bool) (dflt : V) (ops : list op) (m : map K V)
  : option (map K V) :=
  match ops with
  | [] => Some m
  | o :: ops' => match step ltb eqb dflt m o with
                 | Some m' => run ltb eqb dflt ops' m'
                 | None => None
                 end
  end.

End Spec.
Arguments op : clear implicits.
