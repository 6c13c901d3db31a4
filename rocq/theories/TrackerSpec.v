(** Specification of C23: what the operations of FUTrackedPtr and FUTrackedList do to the objects, pointers and lists a
    user sees ([ref_to] are the tracked pointers, [members] the tracked lists). *)
From Coq Require Import List Arith.
From Verif Require Import OwnerSpec TrackerModel.
Import ListNotations.

Inductive top :=
  | TNew
  | PNew (p : nat) (v : option nat) | PAssign (p : nat) (v : option nat) | PAssignPtr (p q : nat) | PDelete (p : nat)
  | LNew (l : nat) | LInsert (l i o : nat) | LPush (l o : nat) | LInsertRange (l i : nat) (os : list nat)
  | LErase (l i : nat) | LEraseRange (l i n : nat) | LEraseValue (l o : nat) | LPopBack (l : nat) | LPopFront (l : nat)
  | LClear (l : nat) | LDelete (l : nat) | LRelease (l o : nat)
  | TRelease (o : nat).
Definition run_top (m : mem) (x : top) : option mem :=
  match x with
  | TNew => Some (new_trackable m)
  | PNew p v => ptr_new m p v
  | PAssign p v => ptr_assign m p v
  | PAssignPtr p q => ptr_assign_ptr m p q
  | PDelete p => ptr_delete m p
  | LNew l => list_new m l
  | LInsert l i o => list_insert m l i o
  | LPush l o => list_push_back m l o
  | LInsertRange l i os => list_insert_range m l i os
  | LErase l i => list_erase m l i
  | LEraseRange l i n => list_erase_range m l i n
  | LEraseValue l o => option_map fst (list_erase_value m l o)
  | LPopBack l => list_pop_back m l
  | LPopFront l => list_pop_front m l
  | LClear l => list_clear m l
  | LDelete l => list_delete m l
  | LRelease l o => option_map fst (list_release m l o)
  | TRelease o => ReleaseTrackable m o
  end.
(** All entries of a list but one object. *)
Definition without (o : nat) (xs : list nat) : list nat := filter (fun x => negb (x =? o)) xs.
Definition texpected (s : view) (x : top) : view :=
  match x with
  | TNew => View (fun y => if y =? fresh s then true else live s y) (ref_to s) (members s) (S (fresh s))
  | PNew p v | PAssign p v => put_ref s p (Some v)
  | PAssignPtr p q => put_ref s p (ref_to s q)
  | PDelete p => put_ref s p None
  | LNew l => put_members s l (Some [])
  | LInsert l i o => put_members s l (Some (firstn i (elements s l) ++ o :: skipn i (elements s l)))
  | LPush l o => put_members s l (Some (elements s l ++ [o]))
  | LInsertRange l i os => put_members s l (Some (firstn i (elements s l) ++ os ++ skipn i (elements s l)))
  | LErase l i => put_members s l (Some (firstn i (elements s l) ++ skipn (S i) (elements s l)))
  | LEraseRange l i n => put_members s l (Some (firstn i (elements s l) ++ skipn (i + n) (elements s l)))
  | LEraseValue l o => put_members s l (Some (without o (elements s l)))
  | LPopBack l => put_members s l (Some (removelast (elements s l)))
  | LPopFront l => put_members s l (Some (tl (elements s l)))
  | LClear l => put_members s l (Some [])
  | LDelete l => put_members s l None
  | LRelease l o => if among (elements s l) o then kill [o] s else s
  | TRelease o => kill [o] s
  end.
(** What the caller has to ensure: everything named exists (or is new), positions are inside the list, the objects are
    alive, and a list does not get an object twice. *)
Definition live_or_null (s : view) (v : option nat) : Prop := match v with Some o => live s o = true | None => True end.
Definition tallowed (s : view) (x : top) : Prop :=
  match x with
  | TNew => True
  | PNew p v => ref_to s p = None /\ live_or_null s v
  | PAssign p v => ref_to s p <> None /\ live_or_null s v
  | PAssignPtr p q => ref_to s p <> None /\ ref_to s q <> None
  | PDelete p => ref_to s p <> None
  | LNew l => members s l = None
  | LInsert l i o => members s l <> None /\ i <= size s l /\ live s o = true /\ ~ In o (elements s l)
  | LPush l o => members s l <> None /\ live s o = true /\ ~ In o (elements s l)
  | LInsertRange l i os => members s l <> None /\ i <= size s l /\ NoDup os /\
      (forall o, In o os -> live s o = true /\ ~ In o (elements s l))
  | LErase l i => members s l <> None /\ i < size s l
  | LEraseRange l i n => members s l <> None /\ i + n <= size s l
  | LEraseValue l _ | LPopBack l | LPopFront l | LClear l | LDelete l | LRelease l _ => members s l <> None
  | TRelease o => live s o = true
  end.
