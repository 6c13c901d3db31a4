(** Properties C01-C04: [fm::tree] (fm::map) as a finite ordered map. *)
From Coq Require Import ZArith List Bool.
From Verif Require Import TreeModel TreeSpec TreeProofs.
Import ListNotations.
Open Scope Z_scope.

(** C01.  Whatever the history of insert / m[k]=v / erase / clear, no NULL pointer is followed,
    [find] answers what the history says, and [size()] counts the distinct present keys. *)
Theorem C01_tree_is_finite_map :
  forall (K V : Type) (ltb eqb : K -> K -> bool), lawful ltb eqb ->
  forall (dflt : V) (ops : list (op K V)),
  exists m, run ltb eqb dflt ops empty_map = Some m /\
    (forall k, option_map snd (find ltb eqb m k) = meaning eqb (rev ops) k) /\
    exists keys, NoDup keys /\ (forall k, In k keys <-> meaning eqb (rev ops) k <> None) /\
                 sized m = length keys.
Proof. exact @tree_find_correct. Qed.
Print Assumptions C01_tree_is_finite_map.

(** C02.  Walking from begin() with ++ reaches end() in size() steps and visits exactly the present
    pairs, keys strictly increasing; walking from last() with -- visits them in reverse. *)
Theorem C02_tree_iteration_sorted_complete :
  forall (K V : Type) (ltb eqb : K -> K -> bool), lawful ltb eqb ->
  forall (dflt : V) (ops : list (op K V)) m, run ltb eqb dflt ops empty_map = Some m ->
  exists l, walk next (sized m) (begin m) = Some l /\
            walk prev (sized m) (last m) = Some (rev l) /\
            length l = sized m /\ increasing ltb l /\
            forall k v, In (k, v) l <-> meaning eqb (rev ops) k = Some v.
Proof. exact @tree_iteration. Qed.
Print Assumptions C02_tree_iteration_sorted_complete.

(** C03.  In every reachable tree the stored weights are the true height differences, within
    -1..1; the height is logarithmic and bounds the number of comparisons of any look-up. *)
Theorem C03_tree_balanced :
  forall (K V : Type) (ltb eqb : K -> K -> bool), lawful ltb eqb ->
  forall (dflt : V) (ops : list (op K V)) m, run ltb eqb dflt ops empty_map = Some m ->
  avl (root m) /\ 2 ^ (height (root m) / 2) <= Z.of_nat (sized m) + 1 /\
  forall k, Z.of_nat (length (snd (descend ltb eqb k (root m) []))) <= height (root m).
Proof. exact @tree_balanced. Qed.
Print Assumptions C03_tree_balanced.

(** C04 is false: after inserting 2, 1, 3 and erasing 2, the iterator obtained for key 1 designates
    a released node although 1 is still in the tree (FMTree.h:515-527 moves the data of 1 into the
    node of 2 and releases the node of 1). *)
Theorem C04_erase_keeps_other_iterators_refuted :
  exists (ops : list (op Z Z)) m m' i,
    run Z.ltb Z.eqb 0 ops empty_map = Some m /\
    find Z.ltb Z.eqb m 1 = Some (i, 10) /\ node_at i (root m) = Some (1, 10) /\
    erase Z.ltb Z.eqb m 2 = Some m' /\
    option_map snd (find Z.ltb Z.eqb m' 1) = Some 10 /\ node_at i (root m') = None.
Proof.
  exists [Insert 2 20; Insert 1 10; Insert 3 30].
  eexists; eexists; exists 1%nat. vm_compute. repeat split; reflexivity.
Qed.
Print Assumptions C04_erase_keeps_other_iterators_refuted.

(** C04, the part that holds: erasing a key whose node has no children leaves every other node
    (address, key and value) in place.  Missing: erasing a node with children. *)
Theorem C04_erase_keeps_other_iterators_partial :
  forall (K V : Type) (ltb eqb : K -> K -> bool),
  forall (dflt : V) (ops : list (op K V)) m m' key i w p,
  run ltb eqb dflt ops empty_map = Some m ->
  (exists k v, descend ltb eqb key (root m) [] = (Node i Leaf k v w Leaf, p)) ->
  erase ltb eqb m key = Some m' ->
  forall j, j <> i -> node_at j (root m') = node_at j (root m).
Proof. exact @erase_childless. Qed.
Print Assumptions C04_erase_keeps_other_iterators_partial.

(** Concrete instances. *)
Lemma Z_lawful : lawful Z.ltb Z.eqb.
Proof.
  split; [|split; [|split]].
  - intros a b. apply Z.eqb_eq.
  - intros a. apply Z.ltb_irrefl.
  - intros a b c. rewrite !Z.ltb_lt. apply Z.lt_trans.
  - intros a b. rewrite !Z.ltb_lt. destruct (Z.lt_trichotomy a b) as [|[|]]; auto.
Qed.

Definition demo_ops : list (op Z Z) :=
  [Insert 5 50; Insert 3 30; Insert 8 80; Insert 1 10; Insert 4 40; Assign 7 70; Insert 9 90;
   Insert 2 20; Insert 6 60; Erase 5; Erase 8; Assign 3 33; Erase 100].

Example C01_demo : exists m, run Z.ltb Z.eqb 0 demo_ops empty_map = Some m /\
  sized m = 7%nat /\ option_map snd (find Z.ltb Z.eqb m 3) = Some 33 /\
  find Z.ltb Z.eqb m 5 = None.
Proof. eexists. vm_compute. repeat split; reflexivity. Qed.

Example C02_demo : exists m, run Z.ltb Z.eqb 0 demo_ops empty_map = Some m /\
  walk next (sized m) (begin m) =
    Some [(1, 10); (2, 20); (3, 33); (4, 40); (6, 60); (7, 70); (9, 90)].
Proof. eexists. vm_compute. repeat split; reflexivity. Qed.

Example C03_demo : exists m, run Z.ltb Z.eqb 0 demo_ops empty_map = Some m /\ height (root m) = 3.
Proof. eexists. vm_compute. repeat split; reflexivity. Qed.

Example C04_demo : exists m m' i p, run Z.ltb Z.eqb 0 demo_ops empty_map = Some m /\
  (exists k v, descend Z.ltb Z.eqb 9 (root m) [] = (Node i Leaf k v 0 Leaf, p)) /\
  erase Z.ltb Z.eqb m 9 = Some m'.
Proof. do 4 eexists. vm_compute. repeat split; eauto. Qed.
