(** Specification for C79: what a builder is for its user - a text.  Only the names of the operations are
    taken from the model. *)
From Coq Require Import List ZArith.
From Verif Require Import BuilderModel.
Import ListNotations.

(** The texts of the builders alive, by identifier, and the next identifier. *)
Definition texts := nat -> option (list Z).
Definition texts_put (T : texts) (i : nat) (x : option (list Z)) : texts := fun j => if Nat.eqb j i then x else T j.

(** The components of a vector, separated by blanks. *)
Fixpoint fields (ts : list (list Z)) : list Z :=
  match ts with
  | [] => []
  | [t] => t
  | t :: ts => t ++ [32%Z] ++ fields ts
  end.

(** The new text of a builder whose text is [t]; [T] gives the texts of the others. *)
Inductive edit (T : texts) (t : list Z) : op -> nat -> list Z -> Prop :=
| E_reserve : forall i n, edit T t (Reserve i n) i (firstn n t)
| E_clear : forall i, edit T t (Clear i) i []
| E_pop : forall i, edit T t (PopBack i) i (removelast t)
| E_char : forall i c, edit T t (AppendChar i c) i (t ++ [c])
| E_text : forall i u, edit T t (AppendText i u) i (t ++ u)
| E_len : forall i u, edit T t (AppendLen i u) i (t ++ u)
| E_line : forall i u, edit T t (AppendLine i u) i (t ++ u ++ [10%Z])
| E_builder : forall i j u, T j = Some u -> edit T t (AppendBuilder i j) i (t ++ u)
| E_vector_first : forall i ts, t = [] -> edit T t (AppendVector i ts) i (fields ts)
| E_vector : forall i ts, t <> [] -> edit T t (AppendVector i ts) i (t ++ [32%Z] ++ fields ts)
| E_remove1 : forall i a, a < length t -> edit T t (Remove1 i (Z.of_nat a)) i (firstn a t)
| E_remove1_not : forall i z, (z < 0 \/ Z.of_nat (length t) <= z)%Z -> edit T t (Remove1 i z) i t
| E_remove2 : forall i a b, a < b <= length t -> edit T t (Remove2 i (Z.of_nat a) (Z.of_nat b)) i (firstn a t ++ skipn b t)
| E_remove2_not : forall i y z, (y < 0 \/ z <= y \/ Z.of_nat (length t) < z)%Z -> edit T t (Remove2 i y z) i t
| E_chars : forall i, edit T t (CharPtr i) i t.
(** One operation on the texts.  Copying a builder is not among them. *)
Inductive change : texts * nat -> op -> texts * nat -> Prop :=
| Ch_new : forall T k n, change (T, k) (New n) (texts_put T k (Some []), S k)
| Ch_text : forall T k t, change (T, k) (NewText t) (texts_put T k (Some t), S k)
| Ch_fill : forall T k c n, change (T, k) (NewFill c n) (texts_put T k (Some (repeat c n)), S k)
| Ch_delete : forall T k i t, T i = Some t -> change (T, k) (Delete i) (texts_put T i None, k)
| Ch_edit : forall T k o i t t', T i = Some t -> edit T t o i t' -> change (T, k) o (texts_put T i (Some t'), k).
(** A history in which every removal meets a text of less than 2^31 characters and int32 parameters whose
    difference is an int32. *)
Definition int32s (T : texts) (o : op) : Prop :=
  match o with
  | Remove1 i y => forall t, T i = Some t -> (Z.of_nat (length t) < 2147483648)%Z
  | Remove2 i y z => (-2147483648 <= z - y <= 2147483647)%Z /\
                     forall t, T i = Some t -> (Z.of_nat (length t) < 2147483648)%Z
  | _ => True
  end.
Inductive changes : texts * nat -> list op -> texts * nat -> Prop :=
| Chs_nil : forall T, changes T [] T
| Chs_cons : forall T o T1 os T2, int32s (fst T) o -> change T o T1 -> changes T1 os T2 -> changes T (o :: os) T2.
Definition no_texts : texts * nat := (fun _ => None, 0).
