(** FUTrackable, FUTracker, FUTrackedPtr and FUTrackedList (FUtils/FUTracker.h, FUTracker.cpp).  Objects, tracked
    pointers and tracked lists are named by numbers (their addresses).  The owner of an object (FUObject) is left out
    (see OwnerModel.v), and lists hold no NULL entries.  A failed FUAssert takes its fall-back (FUAssert.h:64).  None:
    something is used after its destruction or behind the end of a list. *)
From Coq Require Import List Arith.
From Verif Require Import OwnerModel.
Import ListNotations.

(** FUTracker.h:77-100: the two classes of trackers. *)
Inductive tracker := Ptr (p : nat) | Lst (l : nat).
(** Comparison of tracker addresses. *)
Definition tracker_eqb (a b : tracker) : bool :=
  match a, b with Ptr x, Ptr y => x =? y | Lst x, Lst y => x =? y | _, _ => false end.
(** The memory.  [trackers]: FUTracker.h:39; [ptrs p]: None after the destruction of the pointer, else ptr
    (FUTracker.h:113, None for NULL); [lists l]: None after the destruction, else the entries (FUTracker.h:176). *)
Record mem := Mem {
  obj_alive : nat -> bool; trackers : nat -> list tracker;
  ptrs : nat -> option (option nat); lists : nat -> option (list nat); next_obj : nat }.
(** Assignments to one cell. *)
Definition set_trackers m o l := Mem (obj_alive m) (upd (trackers m) o l) (ptrs m) (lists m) (next_obj m).
Definition set_ptr m p v := Mem (obj_alive m) (trackers m) (upd (ptrs m) p v) (lists m) (next_obj m).
Definition set_list m l v := Mem (obj_alive m) (trackers m) (ptrs m) (upd (lists m) l v) (next_obj m).

(** FUTracker.cpp:18-20: the constructor. *)
Definition new_trackable (m : mem) : mem :=
  Mem (upd (obj_alive m) (next_obj m) true) (upd (trackers m) (next_obj m) []) (ptrs m) (lists m) (S (next_obj m)).
(** FMArrayPointer.h:181-186: erase of a value. *)
Fixpoint remove_tracker (l : list tracker) (t : tracker) : list tracker :=
  match l with [] => [] | x :: r => if tracker_eqb x t then r else x :: remove_tracker r t end.
(** FUTracker.h:95 and FUTracker.cpp:41-45: TrackObject. *)
Definition TrackObject (m : mem) (t : tracker) (o : nat) : option mem :=
  if obj_alive m o then
    if existsb (tracker_eqb t) (trackers m o) then Some m else Some (set_trackers m o (trackers m o ++ [t]))
  else None.
(** FUTracker.h:99 and FUTracker.cpp:46-51: UntrackObject. *)
Definition UntrackObject (m : mem) (t : tracker) (o : nat) : option mem :=
  if obj_alive m o then Some (set_trackers m o (remove_tracker (trackers m o) t)) else None.
(** FUTracker.h:161-165 (pointer) and 375-379 (list): OnObjectReleased. *)
Definition OnObjectReleased (m : mem) (t : tracker) (o : nat) : option mem :=
  match t with
  | Ptr p => match ptrs m p with
             | None => None
             | Some (Some q) => if q =? o then Some (set_ptr m p (Some None)) else Some m
             | Some None => Some m
             end
  | Lst l => match lists m l with
             | None => None
             | Some xs => if contains xs o then Some (set_list m l (Some (remove_first xs o))) else Some m
             end
  end.
(** FUTracker.cpp:30-33: the loop of Detach over the trackers. *)
Fixpoint notify (m : mem) (ts : list tracker) (o : nat) : option mem :=
  match ts with
  | [] => Some m
  | t :: r => match OnObjectReleased m t o with None => None | Some m1 => notify m1 r o end
  end.
(** FUObject.cpp:29-33 with FUTracker.cpp:22-38: Release destroys the object; its destructor tells the trackers. *)
Definition ReleaseTrackable (m : mem) (o : nat) : option mem :=
  if obj_alive m o then
    match notify m (trackers m o) o with
    | None => None
    | Some m1 => Some (Mem (upd (obj_alive m1) o false) (upd (trackers m1) o []) (ptrs m1) (lists m1) (next_obj m1))
    end
  else None.

(** *** FUTrackedPtr *)
(** FUTracker.h:119-122: construction from a pointer, which may be NULL. *)
Definition ptr_new (m : mem) (p : nat) (v : option nat) : option mem :=
  let m1 := set_ptr m p (Some v) in
  match v with None => Some m1 | Some o => TrackObject m1 (Ptr p) o end.
(** FUTracker.h:108-166 declares no copy constructor: the compiler's copies ptr and nothing else. *)
Definition ptr_copy (m : mem) (p q : nat) : option mem :=
  match ptrs m q with None => None | Some v => Some (set_ptr m p (Some v)) end.
(** FUTracker.h:126-130: the destructor. *)
Definition ptr_delete (m : mem) (p : nat) : option mem :=
  match ptrs m p with
  | None => None
  | Some None => Some (set_ptr m p None)
  | Some (Some o) => match UntrackObject m (Ptr p) o with None => None | Some m1 => Some (set_ptr m1 p None) end
  end.
(** FUTracker.h:135-141: assignment of a pointer. *)
Definition ptr_assign (m : mem) (p : nat) (v : option nat) : option mem :=
  match ptrs m p with
  | None => None
  | Some old =>
      match match old with None => Some m | Some o => UntrackObject m (Ptr p) o end with
      | None => None
      | Some m1 => let m2 := set_ptr m1 p (Some v) in
                   match v with None => Some m2 | Some o => TrackObject m2 (Ptr p) o end
      end
  end.
(** FUTracker.h:142: assignment of a tracked pointer. *)
Definition ptr_assign_ptr (m : mem) (p q : nat) : option mem :=
  match ptrs m q with None => None | Some v => ptr_assign m p v end.

(** *** FUTrackedList *)
(** FUTracker.h:185: an empty list. *)
Definition list_new (m : mem) (l : nat) : option mem := Some (set_list m l (Some [])).
(** FUTracker.h:337: the defaulted copy constructor. *)
Definition list_copy (m : mem) (l k : nat) : option mem :=
  match lists m k with None => None | Some xs => Some (set_list m l (Some xs)) end.
(** FUTracker.h:344: the defaulted assignment. *)
Definition list_assign (m : mem) (l k : nat) : option mem :=
  match lists m l, lists m k with Some _, Some xs => Some (set_list m l (Some xs)) | _, _ => None end.
(** FUTracker.h:195, 276 and 304: one call per entry. *)
Fixpoint untrack_all (m : mem) (t : tracker) (os : list nat) : option mem :=
  match os with [] => Some m | o :: r => match UntrackObject m t o with None => None | Some m1 => untrack_all m1 t r end end.
(** FUTracker.h:273-277. *)
Fixpoint track_all (m : mem) (t : tracker) (os : list nat) : option mem :=
  match os with [] => Some m | o :: r => match TrackObject m t o with None => None | Some m1 => track_all m1 t r end end.
(** FUTracker.h:264-279: insertion of a range; the entries are written and tracked one by one. *)
Definition list_insert_range (m : mem) (l i : nat) (os : list nat) : option mem :=
  match lists m l with
  | None => None
  | Some xs => if i <=? length xs then
      match track_all m (Lst l) os with
      | None => None
      | Some m1 => Some (set_list m1 l (Some (firstn i xs ++ os ++ skipn i xs)))
      end else None
  end.
(** FUTracker.h:247-256: insertion of one object. *)
Definition list_insert (m : mem) (l i o : nat) : option mem :=
  match lists m l with
  | None => None
  | Some xs => if i <=? length xs then
      match TrackObject m (Lst l) o with
      | None => None
      | Some m1 => Some (set_list m1 l (Some (firstn i xs ++ o :: skipn i xs)))
      end else None
  end.
(** FUTracker.h:237-241. *)
Definition list_push_back (m : mem) (l o : nat) : option mem :=
  match lists m l with None => None | Some xs => list_insert m l (length xs) o end.
(** FUTracker.h:302-311: removal of the entries first .. first + n - 1. *)
Definition list_erase_range (m : mem) (l i n : nat) : option mem :=
  match lists m l with
  | None => None
  | Some xs => if i + n <=? length xs then
      match untrack_all m (Lst l) (firstn n (skipn i xs)) with
      | None => None
      | Some m1 => Some (set_list m1 l (Some (firstn i xs ++ skipn (i + n) xs)))
      end else None
  end.
(** FUTracker.h:293-297 and 330: removal of one entry. *)
Definition list_erase (m : mem) (l i : nat) : option mem := list_erase_range m l i 1.
(** FUTracker.h:282-289. *)
Definition list_pop_back (m : mem) (l : nat) : option mem :=
  match lists m l with None => None | Some [] => Some m | Some xs => list_erase m l (length xs - 1) end.
(** FUTracker.h:363-370. *)
Definition list_pop_front (m : mem) (l : nat) : option mem :=
  match lists m l with None => None | Some [] => Some m | Some xs => list_erase m l 0 end.
(** FMArray.h: find, the index of the first occurrence. *)
Fixpoint index_of (xs : list nat) (o : nat) : option nat :=
  match xs with [] => None | x :: r => if x =? o then Some O else option_map S (index_of r o) end.
(** FUTracker.h:316-326: removal of a value; whether it was there. *)
Definition list_erase_value (m : mem) (l o : nat) : option (mem * bool) :=
  match lists m l with
  | None => None
  | Some xs => match index_of xs o with
               | None => Some (m, false)
               | Some i => match list_erase m l i with None => None | Some m1 => Some (m1, true) end
               end
  end.
(** FUTracker.h:355-360: release. *)
Definition list_release (m : mem) (l o : nat) : option (mem * bool) :=
  match list_erase_value m l o with
  | Some (m1, true) => match ReleaseTrackable m1 o with None => None | Some m2 => Some (m2, true) end
  | x => x
  end.
(** FUTracker.h:191-198: clear. *)
Definition list_clear (m : mem) (l : nat) : option mem :=
  match lists m l with
  | None => None
  | Some xs => match untrack_all m (Lst l) xs with None => None | Some m1 => Some (set_list m1 l (Some [])) end
  end.
(** FUTracker.h:188: the destructor. *)
Definition list_delete (m : mem) (l : nat) : option mem :=
  match list_clear m l with None => None | Some m1 => Some (set_list m1 l None) end.
