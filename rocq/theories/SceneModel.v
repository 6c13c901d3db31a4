(** The graph of scene nodes: FCDocument/FCDSceneNode.cpp, FCDocument/FCDSceneNode.h and the iterator of
    FCDocument/FCDSceneNodeIterator.hpp.
    Nodes are numbers; the transforms, names, flags and the kinds of instances that do not lead to scene nodes are not
    modelled.  The lists of parents and children are tracked lists (FUtils/FUTracker.h), see TrackerModel.v. *)
From Coq Require Import List Arith Bool.
Import ListNotations.

(** Outcome: a result, the given number of rounds was not enough, or freed memory is used. *)
Inductive res (A : Type) := Done (a : A) | Fuel | Bad.
Arguments Done {A}. Arguments Fuel {A}. Arguments Bad {A}.
(** FCDSceneNode.h:60-63: parents, children and instances (the scene node an instance leads to, None for any other
    instance), the document of a node and whether the node exists. *)
Record graph := Graph { next : nat; alive : nat -> bool; par : nat -> list nat; chi : nat -> list nat; ins : nat -> list (option nat); doc : nat -> nat }.
(** Assignment of one entry. *)
Definition upd {A} (f : nat -> A) (i : nat) (v : A) : nat -> A := fun x => if x =? i then v else f x.
(** A member of a node is replaced. *)
Definition set_par (g : graph) (n : nat) (l : list nat) : graph := Graph (next g) (alive g) (upd (par g) n l) (chi g) (ins g) (doc g).
Definition set_chi (g : graph) (n : nat) (l : list nat) : graph := Graph (next g) (alive g) (par g) (upd (chi g) n l) (ins g) (doc g).
(** No node at all. *)
Definition no_nodes : graph := Graph 0 (fun _ => false) (fun _ => []) (fun _ => []) (fun _ => []) (fun _ => 0).
(** FCDSceneNode.cpp:45-57: a new scene node of document d. *)
Definition NewNode (g : graph) (d : nat) : graph := Graph (S (next g)) (upd (alive g) (next g) true) (par g) (chi g) (ins g) (upd (doc g) (next g) d).
(** FUTracker.h:316-326, FMArrayPointer.h:181-186: removes the value once. *)
Fixpoint erase (v : nat) (l : list nat) : list nat := match l with [] => [] | x :: r => if x =? v then r else x :: erase v r end.
(** FMArray.h:217. *)
Definition contains (v : nat) (l : list nat) : bool := existsb (Nat.eqb v) l.

(** FCDSceneNode.cpp:102-111: the search through the ancestors; the queue with its last element first.  Some true: the
    node is an ancestor. *)
Fixpoint search (fuel : nat) (g : graph) (c : nat) (queue : list nat) : res bool :=
  match fuel with
  | 0 => Fuel
  | S f => match queue with
           | [] => Done false
           | p :: q => if p =? c then Done true else search f g c (rev (par g p) ++ q)
           end
  end.
(** FCDSceneNode.cpp:91-117: AddChildNode; None is the NULL pointer. *)
Definition AddChildNode (fuel : nat) (g : graph) (n : nat) (node : option nat) : res (bool * graph) :=
  match node with
  | None => Done (false, g)
  | Some c =>
      if n =? c then Done (false, g) else
      if contains c (chi g n) then Done (false, g) else
      match search fuel g c (rev (par g n)) with
      | Done true => Done (false, g)
      | Done false => let g1 := set_chi g n (chi g n ++ [c]) in Done (true, set_par g1 c (par g1 c ++ [n]))
      | Fuel => Fuel
      | Bad => Bad
      end
  end.
(** FCDSceneNode.cpp:126-130. *)
Definition RemoveChildNode (g : graph) (n c : nat) : graph :=
  let g1 := set_par g c (erase n (par g c)) in set_chi g1 n (erase c (chi g1 n)).
(** FCDSceneNode.cpp:132-148, FCDEntityInstance: a further instance. *)
Definition AddInstance (g : graph) (n : nat) (entity : option nat) : graph :=
  Graph (next g) (alive g) (par g) (chi g) (upd (ins g) n (ins g n ++ [entity])) (doc g).

(** *** Destruction *)
(** FUTracker.cpp:22-38, FUTracker.h:375-379: after the destructor of the scene node the base class takes the node out of
    all the lists that contain it; the references of instances to it become NULL (FCDEntityReference.cpp:180-193). *)
Definition detach (g : graph) (n : nat) : graph :=
  Graph (next g) (upd (alive g) n false) (fun x => erase n (upd (par g) n [] x)) (fun x => erase n (upd (chi g) n [] x))
        (fun x => map (fun o => match o with Some i => if i =? n then None else o | None => o end) (upd (ins g) n [] x)) (doc g).
(** FCDSceneNode.cpp:72-84: the loop over the parents of the destroyed node: (children of the node, hasLocalReferences). *)
Fixpoint local_references (g : graph) (n : nat) (ps : list nat) (cs : list nat) (local : bool) : list nat * bool :=
  match ps with
  | [] => (cs, local)
  | p :: r => if p =? n then local_references g n r (erase p cs) local else local_references g n r cs (local || (doc g p =? doc g n))
  end.
(** FUObject.cpp:29-33, FCDSceneNode.cpp:59-88: Release and the destructor; the second function is the loop over the
    children. *)
Fixpoint Release (fuel : nat) (g : graph) (n : nat) : res graph :=
  match fuel with
  | 0 => Fuel
  | S f => if alive g n then
             match release_children f (set_par g n []) n with Done g1 => Done (detach g1 n) | Fuel => Fuel | Bad => Bad end
           else Bad
  end
with release_children (fuel : nat) (g : graph) (n : nat) : res graph :=
  match fuel with
  | 0 => Fuel
  | S f =>
      match chi g n with
      | [] => Done g
      | c :: _ =>
          if alive g c then
            let g1 := set_par g c (erase n (par g c)) in
            match par g1 c with
            | [] => match Release f g1 c with Done g2 => release_children f g2 n | Fuel => Fuel | Bad => Bad end
            | _ => let (cs, local) := local_references g1 n (par g1 n) (chi g1 n) false in
                   let g2 := set_chi g1 n cs in
                   if local then release_children f g2 n
                   else match Release f g2 c with Done g3 => release_children f g3 n | Fuel => Fuel | Bad => Bad end
            end
          else Bad
      end
  end.

(** *** Iteration *)
(** FCDSceneNodeIterator.h:38-54. *)
Inductive order := BREADTH_FIRST | DEPTH_FIRST_PREORDER | DEPTH_FIRST_POSTORDER.
(** FCDSceneNode.h:104: GetParent(0) == it (the node c has the node n as first parent). *)
Definition first_parent (g : graph) (n c : nat) : bool := match par g c with p :: _ => p =? n | [] => false end.
(** FCDSceneNodeIterator.hpp:38-43: the scene nodes an instance list leads to. *)
Fixpoint nodes_of (l : list (option nat)) : list nat := match l with [] => [] | Some n :: r => n :: nodes_of r | None :: r => nodes_of r end.
(** FCDSceneNodeIterator.hpp:26-46: breadth first. *)
Fixpoint breadth (fuel : nat) (g : graph) (pure : bool) (queue : list nat) (index : nat) : res (list nat) :=
  match fuel with
  | 0 => Fuel
  | S f =>
      match nth_error queue index with
      | None => Done queue
      | Some n =>
          let q1 := queue ++ (if pure then filter (first_parent g n) (chi g n) else chi g n) in
          breadth f g pure (if pure then q1 else q1 ++ nodes_of (ins g n)) (S index)
      end
  end.
(** FCDSceneNodeIterator.hpp:68, 87: a node without children and instances is not put on the stack. *)
Definition no_more (g : graph) (n : nat) : bool := match chi g n, ins g n with [], [] => true | _, _ => false end.
(** FCDSceneNodeIterator.hpp:80-99: the loop over the instances from number [k] of the children and instances on:
    (it.second afterwards, nodes added to the queue, node that goes on the stack). *)
Fixpoint instances (g : graph) (l : list (option nat)) (k : nat) : nat * list nat * option nat :=
  match l with
  | [] => (k, [], None)
  | None :: r => instances g r (S k)
  | Some n :: r => if no_more g n then let '(k', out, add) := instances g r (S k) in (k', n :: out, add) else (k, [], Some n)
  end.
(** FMArray.h:379-384: the capacity after a push_back. *)
Definition grown (size cap : nat) : nat := if size =? cap then size + (if 31 <? size then 32 else S size) else cap.
(** FCDSceneNodeIterator.hpp:58-106: depth first; the stack processQueue with its last element first and its capacity.
    The reference [it] is used after the push_back of line 94: Bad if that moves the stack. *)
Fixpoint depth (fuel : nat) (g : graph) (pure pre : bool) (stack : list (nat * nat)) (cap : nat) (queue : list nat) : res (list nat) :=
  match fuel with
  | 0 => Fuel
  | S f =>
      match stack with
      | [] => Done queue
      | (n, k) :: rest =>
          match nth_error (chi g n) k with
          | Some c =>
              if pure && negb (first_parent g n c) then depth f g pure pre ((n, S k) :: rest) cap queue
              else if no_more g c then depth f g pure pre ((n, S k) :: rest) cap (queue ++ [c])
              else depth f g pure pre ((c, 0) :: (n, S k) :: rest) (grown (length stack) cap) (if pre then queue ++ [c] else queue)
          | None =>
              if (k <? length (chi g n) + length (ins g n)) && negb pure then
                let '(k', out, add) := instances g (skipn (k - length (chi g n)) (ins g n)) k in
                match add with
                | None => depth f g pure pre ((n, k') :: rest) cap (queue ++ out)
                | Some a => if length stack =? cap then Bad else depth f g pure pre ((a, 0) :: (n, S k') :: rest) cap (queue ++ out)
                end
              else depth f g pure pre rest cap (if pre then queue else queue ++ [n])
          end
      end
  end.
(** FCDSceneNodeIterator.hpp:18-110: the nodes that the iterator visits, in order. *)
Definition iterate (fuel : nat) (g : graph) (o : order) (pure : bool) (root : nat) : res (list nat) :=
  match o with
  | BREADTH_FIRST => breadth fuel g pure [root] 0
  | DEPTH_FIRST_PREORDER => depth fuel g pure true [(root, 0)] 8 [root]
  | DEPTH_FIRST_POSTORDER => depth fuel g pure false [(root, 0)] 8 []
  end.
