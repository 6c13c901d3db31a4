(** Model of targeted entities (cameras, lights) and the target count of scene nodes:
    FCDocument/FCDTargetedEntity.cpp and FCDocument/FCDSceneNode.h.  Objects are numbers; the memory is a record
    of functions.  Not modelled: what else a clone copies, and the dirty flags. *)
From Coq Require Import List Arith NArith Bool.
Import ListNotations.

(** Live nodes with their targetCount (FCDSceneNode.h:70), live targeted entities with their targetNode, a tracked
    pointer (FCDTargetedEntity.h:47).  Numbers of destroyed objects are not used again. *)
Record state := State {
  next_node : nat; node_alive : nat -> bool; count : nat -> N;
  next_ent : nat; ent_alive : nat -> bool; target : nat -> option nat }.
(** Writing one cell. *)
Definition upd {A} (f : nat -> A) (i : nat) (v : A) : nat -> A := fun x => if x =? i then v else f x.

(** An empty document. *)
Definition start : state := State 0 (fun _ => false) (fun _ => 0%N) 0 (fun _ => false) (fun _ => None).

(** ++targetCount on an uint32, FCDSceneNode.h:291. *)
Definition Increment (c : N) : N := ((c + 1) mod 4294967296)%N.
(** FCDSceneNode.h:295. *)
Definition Decrement (c : N) : N := (if 0 <? c then c - 1 else c)%N.
(** FCDSceneNode.h:255. *)
Definition IsTarget (s : state) (n : nat) : bool := (0 <? count s n)%N.

(** FCDSceneNode::FCDSceneNode, FCDSceneNode.cpp:45-56. *)
Definition NewNode (s : state) : state :=
  State (S (next_node s)) (upd (node_alive s) (next_node s) true) (upd (count s) (next_node s) 0%N)
        (next_ent s) (ent_alive s) (target s).
(** FCDTargetedEntity::FCDTargetedEntity, FCDTargetedEntity.cpp:28-32. *)
Definition NewEntity (s : state) : state :=
  State (next_node s) (node_alive s) (count s)
        (S (next_ent s)) (upd (ent_alive s) (next_ent s) true) (upd (target s) (next_ent s) None).
(** FCDTargetedEntity::SetTargetNode, FCDTargetedEntity.cpp:39-54. *)
Definition SetTargetNode (s : state) (e : nat) (t : option nat) : state :=
  let c1 := match target s e with Some n => upd (count s) n (Decrement (count s n)) | None => count s end in
  let c2 := match t with Some n => upd c1 n (Increment (c1 n)) | None => c1 end in
  State (next_node s) (node_alive s) c2 (next_ent s) (ent_alive s) (upd (target s) e t).
(** FCDTargetedEntity::Clone into a new entity, FCDTargetedEntity.cpp:56-74. *)
Definition Clone (s : state) (e : nat) : state := SetTargetNode (NewEntity s) (next_ent s) (target s e).
(** FCDTargetedEntity::Clone into a given entity, FCDTargetedEntity.cpp:66-71. *)
Definition CloneInto (s : state) (e e' : nat) : state := SetTargetNode s e' (target s e).
(** FCDTargetedEntity::~FCDTargetedEntity, FCDTargetedEntity.cpp:34-36: nothing is done for the target; its
    tracked pointer only stops tracking. *)
Definition ReleaseEntity (s : state) (e : nat) : state :=
  State (next_node s) (node_alive s) (count s) (next_ent s) (upd (ent_alive s) e false) (target s).
(** Release of a node: the tracked pointers at it become NULL, FUTracker.cpp:28-38, FUTracker.h FUTrackedPtr. *)
Definition ReleaseNode (s : state) (n : nat) : state :=
  State (next_node s) (upd (node_alive s) n false) (count s) (next_ent s) (ent_alive s)
        (fun e => if ent_alive s e then match target s e with Some m => if m =? n then None else Some m | None => None end
                  else target s e).

(** The public calls. *)
Inductive op :=
| ONewNode | ONewEntity | OSetTarget (e : nat) (t : option nat) | OClone (e : nat) | OCloneInto (e e' : nat)
| OReleaseEntity (e : nat) | OReleaseNode (n : nat).
(** Calls on or with destroyed objects are errors of the caller. *)
Definition step (s : state) (o : op) : option state :=
  match o with
  | ONewNode => Some (NewNode s)
  | ONewEntity => Some (NewEntity s)
  | OSetTarget e t =>
      if ent_alive s e && match t with Some n => node_alive s n | None => true end then Some (SetTargetNode s e t) else None
  | OClone e => if ent_alive s e then Some (Clone s e) else None
  | OCloneInto e e' => if ent_alive s e && ent_alive s e' then Some (CloneInto s e e') else None
  | OReleaseEntity e => if ent_alive s e then Some (ReleaseEntity s e) else None
  | OReleaseNode n => if node_alive s n then Some (ReleaseNode s n) else None
  end.
(** Any history. *)
Fixpoint run (s : state) (os : list op) : option state :=
  match os with
  | [] => Some s
  | o :: r => match step s o with Some s' => run s' r | None => None end
  end.
