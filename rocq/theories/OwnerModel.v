(** FUObject, FUObjectRef and FUObjectContainer (FUtils/FUObject.h, FUObject.cpp) over a heap of objects.
    Objects, references and containers are named by numbers (their addresses).  The objects are leaves: their
    destructors run no further owners.  A failed FUAssert takes its fall-back (FUAssert.h:64).  None: an
    object, reference or container is used after its destruction, or an iterator that points behind the list is
    dereferenced. *)
From Coq Require Import List Arith.
Import ListNotations.

(** FUObject.h:102-126: what may own an object. *)
Inductive owner := Ref (r : nat) | Cont (c : nat).
(** The heap.  [alive o]: o has been constructed and not destroyed; [owner_of]: objectOwner (FUObject.h:35);
    [refs r]: None after the destruction of the reference, else its ptr (FUObject.h:153, None for NULL);
    [conts c]: None after the destruction, else the pointers in the container; objects from [next] on are not
    allocated yet. *)
Record heap := Heap {
  alive : nat -> bool; owner_of : nat -> option owner;
  refs : nat -> option (option nat); conts : nat -> option (list nat); next : nat }.

(** Assignments to one cell of the heap. *)
Definition upd {A} (f : nat -> A) (i : nat) (a : A) : nat -> A := fun x => if x =? i then a else f x.
Definition set_alive h o b := Heap (upd (alive h) o b) (owner_of h) (refs h) (conts h) (next h).
Definition set_owner h o w := Heap (alive h) (upd (owner_of h) o w) (refs h) (conts h) (next h).
Definition set_ref h r p := Heap (alive h) (owner_of h) (upd (refs h) r p) (conts h) (next h).
Definition set_cont h c l := Heap (alive h) (owner_of h) (refs h) (upd (conts h) c l) (next h).
(** Comparison of owner pointers. *)
Definition owner_eqb (a b : owner) : bool :=
  match a, b with Ref x, Ref y => x =? y | Cont x, Cont y => x =? y | _, _ => false end.
Definition is_owner (a : option owner) (b : owner) : bool := match a with Some x => owner_eqb x b | None => false end.

(** new ObjectClass: FUObject.cpp:18-21. *)
Definition new_object (h : heap) : heap :=
  Heap (upd (alive h) (next h) true) (upd (owner_of h) (next h) None) (refs h) (conts h) (S (next h)).
(** FUObject.h:85-92: SetObjectOwner. *)
Definition SetObjectOwner (h : heap) (o : nat) (w : option owner) : option heap :=
  if alive h o then
    match owner_of h o, w with
    | Some _, Some _ => Some h
    | _, _ => Some (set_owner h o w)
    end
  else None.
(** FUObject.h:106: AttachObject. *)
Definition AttachObject (h : heap) (w : owner) (o : nat) : option heap := SetObjectOwner h o (Some w).
(** FUObject.h:112-117: DetachObject. *)
Definition DetachObject (h : heap) (w : owner) (o : nat) : option heap :=
  if alive h o then (if is_owner (owner_of h o) w then SetObjectOwner h o None else Some h) else None.

(** FMArrayPointer.h: contains; erase(value), which removes the first occurrence. *)
Definition contains (l : list nat) (o : nat) : bool := existsb (fun x => x =? o) l.
Fixpoint remove_first (l : list nat) (o : nat) : list nat :=
  match l with [] => [] | x :: r => if x =? o then r else x :: remove_first r o end.
(** FUObject.h:219-223 (reference) and 534-538 (container): OnOwnedObjectReleased. *)
Definition OnOwnedObjectReleased (h : heap) (w : owner) (o : nat) : option heap :=
  match w with
  | Ref r => match refs h r with
             | None => None
             | Some (Some p) => if p =? o then Some (set_ref h r (Some None)) else Some h
             | Some None => Some h
             end
  | Cont c => match conts h c with
              | None => None
              | Some l => if contains l o then Some (set_cont h c (Some (remove_first l o))) else Some h
              end
  end.
(** FUObject.cpp:30-43: Release and Detach; the destructor (lines 23-27) then finds no owner. *)
Definition Release (h : heap) (o : nat) : option heap :=
  if alive h o then
    match owner_of h o with
    | None => Some (set_alive h o false)
    | Some w => match OnOwnedObjectReleased h w o with
                | None => None
                | Some h1 => Some (set_alive (set_owner h1 o None) o false)
                end
    end
  else None.

(** *** FUObjectRef *)
(** FUObject.h:159-163: the constructor; [p] may be NULL. *)
Definition ref_new (h : heap) (r : nat) (p : option nat) : option heap :=
  let h1 := set_ref h r (Some p) in
  match p with None => Some h1 | Some o => AttachObject h1 (Ref r) o end.
(** FUObject.h:167-179: the destructor. *)
Definition ref_delete (h : heap) (r : nat) : option heap :=
  match refs h r with
  | None => None
  | Some None => Some (set_ref h r None)
  | Some (Some o) =>
      match DetachObject h (Ref r) o with
      | None => None
      | Some h1 => match Release h1 o with None => None | Some h2 => Some (set_ref h2 r None) end
      end
  end.
(** FUObject.h:184-191: assignment of a pointer. *)
Definition ref_assign (h : heap) (r : nat) (p : option nat) : option heap :=
  match refs h r with
  | None => None
  | Some old =>
      match match old with None => Some h | Some o => Release h o end with
      | None => None
      | Some h1 =>
          match refs h1 r with
          | Some None => match p with
                         | None => Some (set_ref h1 r (Some None))
                         | Some o => AttachObject (set_ref h1 r (Some (Some o))) (Ref r) o
                         end
          | _ => Some h1
          end
      end
  end.
(** FUObject.h:199-204: assignment of another reference. *)
Definition ref_move (h : heap) (r r2 : nat) : option heap :=
  match refs h r2 with
  | None => None
  | Some p => match ref_assign h r p with
              | None => None
              | Some h1 => Some (set_ref h1 r2 (Some None))
              end
  end.

(** *** FUObjectContainer *)
(** A new container is empty. *)
Definition cont_new (h : heap) (c : nat) : heap := set_cont h c (Some []).
(** FUObject.h:304-323: push_back and insert of one object; the index may be the size. *)
Definition cont_insert (h : heap) (c i o : nat) : option heap :=
  match conts h c with
  | None => None
  | Some l =>
      if i <=? length l then
        match AttachObject h (Cont c) o with
        | None => None
        | Some h1 => Some (set_cont h1 c (Some (firstn i l ++ o :: skipn i l)))
        end
      else None
  end.
(** FUObject.h:304-308. *)
Definition cont_push_back (h : heap) (c o : nat) : option heap :=
  match conts h c with None => None | Some l => cont_insert h c (length l) o end.
(** FUObject.h:372-380 (erase), 349-356 (pop_back), 361-368 (pop_front): the entry at index i is taken out of
    the list, detached and released. *)
Definition cont_erase (h : heap) (c i : nat) : option heap :=
  match conts h c with
  | None => None
  | Some l =>
      match nth_error l i with
      | None => None
      | Some o =>
          match DetachObject (set_cont h c (Some (firstn i l ++ skipn (S i) l))) (Cont c) o with
          | None => None
          | Some h1 => Release h1 o
          end
      end
  end.
(** FUObject.h:349-356. *)
Definition cont_pop_back (h : heap) (c : nat) : option heap :=
  match conts h c with
  | None => None
  | Some [] => Some h
  | Some l => cont_erase h c (length l - 1)
  end.
(** FUObject.h:361-368. *)
Definition cont_pop_front (h : heap) (c : nat) : option heap :=
  match conts h c with
  | None => None
  | Some [] => Some h
  | Some l => cont_erase h c 0
  end.
(** FUObject.h:385-394: erase of a range: the objects are detached and released one by one, then the entries
    are removed. *)
Fixpoint release_all (h : heap) (c : nat) (os : list nat) : option heap :=
  match os with
  | [] => Some h
  | o :: r => match DetachObject h (Cont c) o with
              | None => None
              | Some h1 => match Release h1 o with None => None | Some h2 => release_all h2 c r end
              end
  end.
(** FUObject.h:385-399. *)
Definition cont_erase_range (h : heap) (c i n : nat) : option heap :=
  match conts h c with
  | None => None
  | Some l =>
      if i + n <=? length l then
        match release_all h c (firstn n (skipn i l)) with
        | None => None
        | Some h1 => match conts h1 c with
                     | None => None
                     | Some l1 => Some (set_cont h1 c (Some (firstn i l1 ++ skipn (i + n) l1)))
                     end
        end
      else None
  end.
(** FUObject.h:248-257: clear; one turn per entry. *)
Fixpoint clear_loop (n : nat) (h : heap) (c : nat) : option heap :=
  match n with
  | O => Some h
  | S m => match cont_pop_back h c with None => None | Some h1 => clear_loop m h1 c end
  end.
(** FUObject.h:248-257. *)
Definition cont_clear (h : heap) (c : nat) : option heap :=
  match conts h c with None => None | Some l => clear_loop (length l) h c end.
(** FUObject.h:245: the destructor. *)
Definition cont_delete (h : heap) (c : nat) : option heap :=
  match cont_clear h c with None => None | Some h1 => Some (set_cont h1 c None) end.
(** FUObject.h:416-423: Detach of one entry. *)
Definition cont_detach (h : heap) (c i : nat) : option heap :=
  match conts h c with
  | None => None
  | Some l =>
      match nth_error l i with
      | None => None
      | Some o => DetachObject (set_cont h c (Some (firstn i l ++ skipn (S i) l))) (Cont c) o
      end
  end.
