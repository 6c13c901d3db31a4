(** Scene graphs: the notions the theorems about FCDSceneNode speak of. *)
From Coq Require Import List Arith Relations.
From Verif Require Import SceneModel.
Import ListNotations.

(** [descendant g a b]: b is below a, by one or more steps from a node to one of its children. *)
Definition descendant (g : graph) : nat -> nat -> Prop := clos_trans nat (fun p c => In c (chi g p)).
(** The scene graphs that come about by calls on existing nodes. *)
Inductive history : graph -> Prop :=
| h_none : history no_nodes
| h_new g d : history g -> history (NewNode g d)
| h_add fuel g n c b g' : history g -> alive g n = true -> (forall x, c = Some x -> alive g x = true) ->
    AddChildNode fuel g n c = Done (b, g') -> history g'
| h_remove g n c : history g -> alive g n = true -> alive g c = true -> history (RemoveChildNode g n c)
| h_instance g n e : history g -> alive g n = true -> (forall x, e = Some x -> alive g x = true) -> history (AddInstance g n e)
| h_release fuel g n g' : history g -> alive g n = true -> Release fuel g n = Done g' -> history g'.

(** The tree of all paths down from a node. *)
Inductive tree := Node (n : nat) (below : list tree).
Definition root (t : tree) : nat := match t with Node n _ => n end.
Definition below (t : tree) : list tree := match t with Node _ l => l end.
(** The nodes one step below a node: the children and the scene nodes of its instances, or, for "pure" iteration, the
    children whose first parent it is. *)
Definition under (g : graph) (pure : bool) (n : nat) : list nat :=
  if pure then filter (fun c => match par g c with p :: _ => Nat.eqb p n | [] => false end) (chi g n)
  else chi g n ++ flat_map (fun o => match o with Some i => [i] | None => [] end) (ins g n).
Inductive unfolds (g : graph) (pure : bool) : nat -> tree -> Prop :=
| unfold_node n ts : Forall2 (unfolds g pure) (under g pure n) ts -> unfolds g pure n (Node n ts).
(** The three orders on trees. *)
Fixpoint preorder (t : tree) : list nat := match t with Node n ts => n :: flat_map preorder ts end.
Fixpoint postorder (t : tree) : list nat := match t with Node n ts => flat_map postorder ts ++ [n] end.
Fixpoint height (t : tree) : nat := match t with Node _ ts => S (list_max (map height ts)) end.
(** One level after the other, d levels. *)
Fixpoint levels (d : nat) (ts : list tree) : list nat :=
  match d with 0 => [] | S d' => map root ts ++ levels d' (flat_map below ts) end.
