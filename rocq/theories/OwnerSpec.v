(** Specification of C22: what the operations of FUObjectRef and FUObjectContainer do to the objects, references and
    containers a user sees. *)
From Coq Require Import List Arith Lia Bool.
From Verif Require Import OwnerModel.
Import ListNotations.

(** *** What the user sees: objects, references and containers, without owner pointers *)
Record view := View { live : nat -> bool; ref_to : nat -> option (option nat); members : nat -> option (list nat); fresh : nat }.
Definition among (l : list nat) (x : nat) : bool := existsb (Nat.eqb x) l.
(** The objects of [victims] are destroyed: references to them become NULL, containers lose them. *)
Definition kill (victims : list nat) (s : view) : view :=
  View (fun x => live s x && negb (among victims x))
       (fun r => match ref_to s r with Some (Some o) => if among victims o then Some None else Some (Some o) | p => p end)
       (fun c => option_map (filter (fun x => negb (among victims x))) (members s c))
       (fresh s).
Definition put_ref (s : view) (r : nat) p := View (live s) (fun x => if x =? r then p else ref_to s x) (members s) (fresh s).
Definition put_members (s : view) (c : nat) l := View (live s) (ref_to s) (fun x => if x =? c then l else members s x) (fresh s).

Inductive op :=
  | NewObject
  | RefNew (r : nat) (p : option nat) | RefAssign (r : nat) (p : option nat) | RefDelete (r : nat)
  | ContNew (c : nat) | Insert (c i o : nat) | PushBack (c o : nat) | Erase (c i : nat) | PopBack (c : nat) | PopFront (c : nat)
  | EraseRange (c i n : nat) | Clear (c : nat) | ContDelete (c : nat) | DetachAt (c i : nat) | ReleaseObject (o : nat).
Definition run_op (h : heap) (x : op) : option heap :=
  match x with
  | NewObject => Some (new_object h)
  | RefNew r p => ref_new h r p
  | RefAssign r p => ref_assign h r p
  | RefDelete r => ref_delete h r
  | ContNew c => Some (cont_new h c)
  | Insert c i o => cont_insert h c i o
  | PushBack c o => cont_push_back h c o
  | Erase c i => cont_erase h c i
  | PopBack c => cont_pop_back h c
  | PopFront c => cont_pop_front h c
  | EraseRange c i n => cont_erase_range h c i n
  | Clear c => cont_clear h c
  | ContDelete c => cont_delete h c
  | DetachAt c i => cont_detach h c i
  | ReleaseObject o => Release h o
  end.
Definition size (s : view) (c : nat) : nat := match members s c with Some l => length l | None => 0 end.
Definition elements (s : view) (c : nat) : list nat := match members s c with Some l => l | None => [] end.
Definition pointee (s : view) (r : nat) : list nat := match ref_to s r with Some (Some o) => [o] | _ => [] end.
(** What each operation should do. *)
Definition expected (s : view) (x : op) : view :=
  match x with
  | NewObject => View (fun y => if y =? fresh s then true else live s y) (ref_to s) (members s) (S (fresh s))
  | RefNew r p => put_ref s r (Some p)
  | RefAssign r p => put_ref (kill (pointee s r) s) r (Some p)
  | RefDelete r => put_ref (kill (pointee s r) s) r None
  | ContNew c => put_members s c (Some [])
  | Insert c i o => put_members s c (Some (firstn i (elements s c) ++ o :: skipn i (elements s c)))
  | PushBack c o => put_members s c (Some (elements s c ++ [o]))
  | Erase c i => kill (firstn 1 (skipn i (elements s c))) s
  | PopBack c => kill (skipn (size s c - 1) (elements s c)) s
  | PopFront c => kill (firstn 1 (elements s c)) s
  | EraseRange c i n => kill (firstn n (skipn i (elements s c))) s
  | Clear c => kill (elements s c) s
  | ContDelete c => put_members (kill (elements s c) s) c None
  | DetachAt c i => put_members s c (Some (firstn i (elements s c) ++ skipn (S i) (elements s c)))
  | ReleaseObject o => kill [o] s
  end.
(** An object that nothing owns. *)
Definition held (s : view) (o : nat) : Prop :=
  (exists r, ref_to s r = Some (Some o)) \/ (exists c l, members s c = Some l /\ In o l).
Definition free_object (s : view) (o : nat) : Prop := live s o = true /\ ~ held s o.
(** What the caller has to ensure: objects, references and containers exist, positions are inside the list, and only
    an object that nothing owns yet is given to an owner. *)
Definition allowed (s : view) (x : op) : Prop :=
  match x with
  | NewObject => True
  | RefNew r p => ref_to s r = None /\ match p with Some o => free_object s o | None => True end
  | RefAssign r p => ref_to s r <> None /\ match p with Some o => free_object s o | None => True end
  | RefDelete r => ref_to s r <> None
  | ContNew c => members s c = None
  | Insert c i o => members s c <> None /\ i <= size s c /\ free_object s o
  | PushBack c o => members s c <> None /\ free_object s o
  | Erase c i | DetachAt c i => members s c <> None /\ i < size s c
  | PopBack c | PopFront c | Clear c | ContDelete c => members s c <> None
  | EraseRange c i n => members s c <> None /\ i + n <= size s c
  | ReleaseObject o => live s o = true
  end.

