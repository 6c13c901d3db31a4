(** Specification for C81 and C82: a list of slots, each with a value and possibly an animation helper that belongs to
    the value and moves with it.  Only the names of the operations are taken from the model. *)
From Coq Require Import List ZArith.
From Verif Require Import ParamModel.
Import ListNotations.

(** A value ([None]: not given) and the identity of its helper, with whether that helper has a curve. *)
Notation slot := (option Z * option (nat * bool))%type (only parsing).
Definition plain (v : Z) : slot := (Some v, None).
(** The slots and the identity of the next helper. *)
Notation slots := (list slot * nat)%type (only parsing).

Inductive change : slots -> op -> slots -> Prop :=
| C_set : forall a x h b k v, change (a ++ (x, h) :: b, k) (Set_ (length a) v) (a ++ (Some v, h) :: b, k)
| C_insert : forall a b k v, change (a ++ b, k) (Insert (length a) v) (a ++ plain v :: b, k)
| C_insert_list : forall a b k vs, change (a ++ b, k) (InsertList (length a) vs) (a ++ map plain vs ++ b, k)
| C_insert_count : forall a b k n v, change (a ++ b, k) (InsertCount (length a) n v) (a ++ repeat (plain v) n ++ b, k)
| C_erase : forall a x b k, change (a ++ x :: b, k) (Erase (length a)) (a ++ b, k)
| C_erase_value : forall a v h b k, Forall (fun y => exists w, fst y = Some w /\ w <> v) a ->
    change (a ++ (Some v, h) :: b, k) (EraseValue v) (a ++ b, k)
| C_erase_value_not : forall s v k, Forall (fun y => exists w, fst y = Some w /\ w <> v) s -> change (s, k) (EraseValue v) (s, k)
| C_erase_range : forall a m b k, change (a ++ m ++ b, k) (EraseRange (length a) (length a + length m)) (a ++ b, k)
| C_clear : forall s k, change (s, k) Clear ([], k)
| C_push_back : forall s k v, change (s, k) (PushBack v) (s ++ [plain v], k)
| C_push_front : forall s k v, change (s, k) (PushFront v) (plain v :: s, k)
| C_pop_back : forall s k, change (s, k) PopBack (removelast s, k)
| C_pop_front : forall s k, change (s, k) PopFront (tl s, k)
| C_resize : forall s k n, change (s, k) (Resize n) (firstn n s ++ repeat (None, None) (n - length s), k)
| C_resize_value : forall s k n v, change (s, k) (ResizeValue n v) (firstn n s ++ repeat (plain v) (n - length s), k)
| C_helper_old : forall a x h b k, change (a ++ (x, Some h) :: b, k) (GetHelper (length a)) (a ++ (x, Some h) :: b, k)
| C_helper_new : forall a x b k, change (a ++ (x, None) :: b, k) (GetHelper (length a)) (a ++ (x, Some (k, false)) :: b, S k)
| C_curve : forall a x h c b k, change (a ++ (x, Some (h, c)) :: b, k) (Curve h) (a ++ (x, Some (h, true)) :: b, k)
| C_free : forall a x h c b k, change (a ++ (x, Some (h, c)) :: b, k) (Free h) (a ++ (x, None) :: b, k)
| C_eval : forall a x h b k v, change (a ++ (x, Some (h, true)) :: b, k) (Eval h v) (a ++ (Some v, Some (h, true)) :: b, k)
| C_eval_none : forall a x h b k v, change (a ++ (x, Some (h, false)) :: b, k) (Eval h v) (a ++ (x, Some (h, false)) :: b, k).

(** Histories of lists of less than 2^31 values in which every operation meets the condition [ok]. *)
Inductive changes (ok : list slot -> op -> Prop) : slots -> list op -> slots -> Prop :=
| Cs_nil : forall s, changes ok s [] s
| Cs_cons : forall s o s1 os s2, change s o s1 -> (Z.of_nat (length (fst s1)) < 2147483648)%Z -> ok (fst s) o ->
    changes ok s1 os s2 -> changes ok s (o :: os) s2.
Definition no_slots : slots := ([], 0).

(** The list is not shortened by resize(count, value). *)
Definition grows (s : list slot) (o : op) : Prop :=
  match o with
  | ResizeValue n _ => length s <= n
  | _ => True
  end.
Definition evaluates (o : op) : Prop := match o with Eval _ _ => True | _ => False end.

(** No value among these has a helper. *)
Definition quiet (s : list slot) : Prop := Forall (fun x => snd x = None) s.
(** Values that keep their place and values that change it do not both have helpers. *)
Definition calm (s : list slot) (o : op) : Prop :=
  match o with
  | Insert i _ | InsertList i _ | InsertCount i _ _ => quiet (firstn i s) \/ quiet (skipn i s)
  | Erase i => quiet (firstn i s) \/ quiet (skipn (S i) s)
  | EraseRange i j => quiet (firstn i s) \/ quiet (skipn j s)
  | EraseValue v => forall a h b, s = a ++ (Some v, h) :: b -> Forall (fun y => fst y <> Some v) a -> quiet a \/ quiet b
  | _ => True
  end.

(** Whether the value at a place has a helper with a curve. *)
Definition animated_at (s : list slot) (i : nat) : Prop := exists x h, nth_error s i = Some (x, Some (h, true)).
