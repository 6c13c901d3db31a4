(** Model of [fm::tree] (the class behind [fm::map]), FCollada/FMath/FMTree.h.

    Representation.  A C++ node carries [left], [right], [parent], [weight] and [data].
    The model keeps everything except the [parent] pointer: a node reached by walking from the
    sentinel [root] is represented by a zipper (the subtree hanging at the node and the list of
    frames between the node and the sentinel), so "go to the parent" is "pop a frame".
    The sentinel node itself (FMTree.h:360, [root]) is not represented: the user's tree is
    [root->right]; the sentinel's own [weight] is written but never read by the code.
    Each node also carries an address [id], so that moving data between nodes is visible.
    A NULL dereference is the outcome [None].
    Not modelled: allocation failure, key/data destructors, the 32-bit range of [weight]
    (proved to stay within -2..2) and of [sized]. *)
From Coq Require Import ZArith List Bool.
Import ListNotations.
Open Scope Z_scope.

Section TreeModel.
Context {K V : Type} (ltb eqb : K -> K -> bool).

(** FMTree.h:74-83, class node: [left], [data.first], [data.second], [weight], [right];
    NULL is [Leaf]. *)
Inductive tree : Type :=
| Leaf
| Node (id : nat) (l : tree) (k : K) (v : V) (w : Z) (r : tree).

(** FMTree.h:79 (the [parent] link), as the frame to be put back around the current subtree. *)
Inductive frame : Type :=
| InLeft (id : nat) (k : K) (v : V) (w : Z) (r : tree)
| InRight (id : nat) (l : tree) (k : K) (v : V) (w : Z).

Definition path := list frame.

(** FMTree.h:79: one step up the parent link. *)
Definition up (t : tree) (f : frame) : tree :=
  match f with
  | InLeft i k v w r => Node i t k v w r
  | InRight i l k v w => Node i l k v w t
  end.

(** FMTree.h:79: all the way up to the child of the sentinel. *)
Fixpoint plug (t : tree) (p : path) : tree :=
  match p with
  | [] => t
  | f :: p' => plug (up t f) p'
  end.

(** FMTree.h:87-110, node::rotateLeft. *)
Definition rotate_left (t : tree) : option tree :=
  match t with
  | Node i l k v w (Node j rl k2 v2 w2 rr) =>
      let w' := w - 1 - (if w2 >? 0 then w2 else 0) in
      let w2' := w2 - (if 0 >? - w' then 0 else - w') - 1 in
      Some (Node j (Node i l k v w' rl) k2 v2 w2' rr)
  | _ => None
  end.

(** FMTree.h:112-135, node::rotateRight. *)
Definition rotate_right (t : tree) : option tree :=
  match t with
  | Node i (Node j ll k2 v2 w2 lr) k v w r =>
      let w' := w + 1 + (if 0 >? w2 then - w2 else 0) in
      let w2' := (w2 + 1) + (if 0 >? w' then 0 else w') in
      Some (Node j ll k2 v2 w2' (Node i lr k v w' r))
  | _ => None
  end.

(** FMTree.h:451-456 and 558-563: the two rotations when [it->weight > 1]. *)
Definition fix_right_heavy (t : tree) : option tree :=
  match t with
  | Node i l k v w (Node _ _ _ _ rw _ as r) =>
      if rw <? 0 then
        match rotate_right r with
        | Some r' => rotate_left (Node i l k v w r')
        | None => None
        end
      else rotate_left t
  | _ => None
  end.

(** FMTree.h:458-463 and 564-569: the two rotations when [it->weight < -1]. *)
Definition fix_left_heavy (t : tree) : option tree :=
  match t with
  | Node i (Node _ _ _ _ lw _ as l) k v w r =>
      if lw >? 0 then
        match rotate_left l with
        | Some l' => rotate_right (Node i l' k v w r)
        | None => None
        end
      else rotate_right t
  | _ => None
  end.

(** FMTree.h:446-471: the balancing loop of insert; [t] is the subtree at [it], whose weight has
    already been updated. *)
Fixpoint insert_up (t : tree) (p : path) {struct p} : option tree :=
  match t with
  | Leaf => None
  | Node i l k v w r =>
      if w >? 1 then option_map (fun t' => plug t' p) (fix_right_heavy t)
      else if w <? -1 then option_map (fun t' => plug t' p) (fix_left_heavy t)
      else if w =? 0 then Some (plug t p)
      else match p with
           | [] => Some t
           | InLeft i2 k2 v2 w2 r2 :: p' => insert_up (Node i2 t k2 v2 (w2 - 1) r2) p'
           | InRight i2 l2 k2 v2 w2 :: p' => insert_up (Node i2 l2 k2 v2 (w2 + 1) t) p'
           end
  end.

(** FMTree.h:403-412 (find) and 424-435 (insert's search): the descent by [key < ..] / [key == ..].
    The result is the zipper where the search stopped: either at a node with that key
    or at an empty slot. *)
Fixpoint descend (key : K) (t : tree) (p : path) : tree * path :=
  match t with
  | Leaf => (Leaf, p)
  | Node i l k v w r =>
      if ltb key k then descend key l (InLeft i k v w r :: p)
      else if eqb key k then (t, p)
      else descend key r (InRight i l k v w :: p)
  end.

(** FMTree.h:360-361, the members [root] (here [root->right]) and [sized]; [fresh] stands for the
    allocator's next address. *)
Record map := { root : tree; sized : nat; fresh : nat }.

(** FMTree.h:365-369, constructor. *)
Definition empty_map : map := {| root := Leaf; sized := 0; fresh := 0 |}.

(** FMTree.h:403-413, find; [None] is end(). *)
Definition find (m : map) (key : K) : option (nat * V) :=
  match fst (descend key (root m) []) with
  | Node i _ _ v _ _ => Some (i, v)
  | Leaf => None
  end.

(** FMTree.h:422-478, insert. *)
Definition insert (m : map) (key : K) (data : V) : option map :=
  match descend key (root m) [] with
  | (Node i l k _ w r, p) =>
      Some {| root := plug (Node i l k data w r) p; sized := sized m; fresh := fresh m |}
  | (Leaf, p) =>
      let n := Node (fresh m) Leaf key data 0 Leaf in
      let res :=
        match p with
        | [] => Some n
        | InLeft i k v w r :: p' => insert_up (Node i n k v (w - 1) r) p'
        | InRight i l k v w :: p' => insert_up (Node i l k v (w + 1) n) p'
        end in
      option_map (fun t => {| root := t; sized := S (sized m); fresh := S (fresh m) |}) res
  end.

(** FMTree.h:404-411 then the assignment through the returned reference: overwrite the value of
    an existing key. *)
Definition set_value (m : map) (key : K) (data : V) : option map :=
  match descend key (root m) [] with
  | (Node i l k _ w r, p) =>
      Some {| root := plug (Node i l k data w r) p; sized := sized m; fresh := fresh m |}
  | (Leaf, _) => None
  end.

(** FMTree.h:485-496, [m[key] = data] with the non-constant operator[]; [dflt] is [DATA()]. *)
Definition assign (m : map) (key : K) (dflt data : V) : option map :=
  match find m key with
  | Some _ => set_value m key data
  | None => match insert m key dflt with
            | Some m' => set_value m' key data
            | None => None
            end
  end.

(** FMTree.h:391, 517-518: walk right while possible. *)
Fixpoint go_right (t : tree) (p : path) : tree * path :=
  match t with
  | Node i l k v w (Node _ _ _ _ _ _ as r) => go_right r (InRight i l k v w :: p)
  | _ => (t, p)
  end.

(** FMTree.h:216, 531-532: walk left while possible. *)
Fixpoint go_left (t : tree) (p : path) : tree * path :=
  match t with
  | Node i (Node _ _ _ _ _ _ as l) k v w r => go_left l (InLeft i k v w r :: p)
  | _ => (t, p)
  end.

(** FMTree.h:553-577: the balancing loop of erase. *)
Fixpoint erase_up (t : tree) (p : path) {struct p} : option tree :=
  match t with
  | Leaf => None
  | Node _ _ _ _ w _ =>
      let bal := if w >? 1 then fix_right_heavy t
                 else if w <? -1 then fix_left_heavy t
                 else Some t in
      match bal with
      | Some (Node _ _ _ _ w' _ as t') =>
          if negb (w' =? 0) then Some (plug t' p)
          else match p with
               | [] => Some t'
               | InLeft i2 k2 v2 w2 r2 :: p' => erase_up (Node i2 t' k2 v2 (w2 + 1) r2) p'
               | InRight i2 l2 k2 v2 w2 :: p' => erase_up (Node i2 l2 k2 v2 (w2 - 1) t') p'
               end
      | _ => None
      end
  end.

(** FMTree.h:544-551: unlink the released node (given by its path) and start balancing at its
    parent. *)
Definition unlink (p : path) : option tree :=
  match p with
  | [] => Some Leaf
  | InLeft i k v w r :: p' => erase_up (Node i Leaf k v (w + 1) r) p'
  | InRight i l k v w :: p' => erase_up (Node i l k v (w - 1) Leaf) p'
  end.

(** FMTree.h:504-541: choice of the node to release and the data moves; [n] is the node of the
    iterator with path [p]. *)
Definition erase_at (n : tree) (p : path) : option tree :=
  match n with
  | Leaf => None
  | Node _ Leaf _ _ _ Leaf => unlink p
  | Node i l k v w r =>
      if (w <=? 0) && (match l with Leaf => false | _ => true end) then
        (* 515-527 *)
        match fst (go_right l []) with
        | Node _ _ rk rv _ _ =>
            match go_right l (InLeft i rk rv w r :: p) with
            | (Node j (Node _ _ ck cv _ _) _ _ jw jr, rp) => unlink (InLeft j ck cv jw jr :: rp)
            | (Node _ Leaf _ _ _ _, rp) => unlink rp
            | (Leaf, _) => None
            end
        | Leaf => None
        end
      else
        (* 530-541 *)
        match fst (go_left r []) with
        | Node _ _ rk rv _ _ =>
            match go_left r (InRight i l rk rv w :: p) with
            | (Node j jl _ _ jw (Node _ _ ck cv _ _), rp) => unlink (InRight j jl ck cv jw :: rp)
            | (Node _ _ _ _ _ Leaf, rp) => unlink rp
            | (Leaf, _) => None
            end
        | Leaf => None
        end
  end.

(** FMTree.h:500 and 504-581, erase(key): find, then erase(iterator); nothing happens at end(). *)
Definition erase (m : map) (key : K) : option map :=
  match descend key (root m) [] with
  | (Leaf, _) => Some m
  | (n, p) => option_map (fun t => {| root := t; sized := pred (sized m); fresh := fresh m |})
                         (erase_at n p)
  end.

(** FMTree.h:593-618, clear: every node is released and [sized] decremented once per node
    (simplification: the post-order walk is replaced by its effect). *)
Fixpoint count (t : tree) : nat :=
  match t with
  | Leaf => O
  | Node _ l _ _ _ r => S (count l + count r)
  end.

(** FMTree.h:593-618, clear. *)
Definition clear (m : map) : map :=
  {| root := Leaf; sized := (sized m - count (root m))%nat; fresh := fresh m |}.

(** FMTree.h:163-171, an iterator: [None] is the sentinel, i.e. end(). *)
Definition iter := option (tree * path).

(** FMTree.h:199-209: climb while coming from the right child. *)
Fixpoint climb_right (t : tree) (p : path) : iter :=
  match p with
  | [] => None
  | InRight i l k v w :: p' => climb_right (Node i l k v w t) p'
  | InLeft i k v w r :: p' => Some (Node i t k v w r, p')
  end.

(** FMTree.h:229-239: climb while coming from the left child; reaching the sentinel means end(). *)
Fixpoint climb_left (t : tree) (p : path) : iter :=
  match p with
  | [] => None
  | InLeft i k v w r :: p' => climb_left (Node i t k v w r) p'
  | InRight i l k v w :: p' => Some (Node i l k v w t, p')
  end.

(** FMTree.h:194-220, operator++ on an iterator that is not end(). *)
Definition next (t : tree) (p : path) : iter :=
  match t with
  | Leaf => None
  | Node i l k v w Leaf => climb_right t p
  | Node i l k v w r => Some (go_left r (InRight i l k v w :: p))
  end.

(** FMTree.h:224-250, operator-- on an iterator that is not end(). *)
Definition prev (t : tree) (p : path) : iter :=
  match t with
  | Leaf => None
  | Node i Leaf k v w r => climb_left t p
  | Node i l k v w r => Some (go_right l (InLeft i k v w r :: p))
  end.

(** FMTree.h:383, begin(): ++ from the sentinel goes to [root->right] and then all the way left. *)
Definition begin (m : map) : iter :=
  match root m with
  | Leaf => None
  | t => Some (go_left t [])
  end.

(** FMTree.h:394, last(). *)
Definition last (m : map) : iter :=
  match root m with
  | Leaf => None
  | t => Some (go_right t [])
  end.

(** FMTree.h:254-255, operator* / operator->. *)
Definition deref (it : tree * path) : option (K * V) :=
  match fst it with
  | Leaf => None
  | Node _ _ k v _ _ => Some (k, v)
  end.

(** The user's loop [for (it = first; it != end(); ++it) visit the pair], cut off after [fuel] steps
    ([None] if end() was not reached by then).  FMTree.h:194-220, 383-389. *)
Fixpoint walk (step : tree -> path -> iter) (fuel : nat) (it : iter) : option (list (K * V)) :=
  match it with
  | None => Some []
  | Some (t, p) =>
      match fuel with
      | O => None
      | S f => match deref (t, p), walk step f (step t p) with
               | Some kv, Some rest => Some (kv :: rest)
               | _, _ => None
               end
      end
  end.

End TreeModel.

Arguments tree : clear implicits.
Arguments frame : clear implicits.
Arguments path : clear implicits.
Arguments map : clear implicits.
Arguments iter : clear implicits.
