(** What the <visual_scene> and <node> elements of a document mean, and what is kept of a scene that is written and read back.  Of the
    model only its types are used (xml, tvalue, transform, graph, lstate), and the notations of numbers of FloatSpec.v and RigSpec.v. *)
From Coq Require Import String List ZArith QArith Qabs Bool.
From Verif Require Import TextModel TextSpec FloatModel FloatSpec DaeModel DaeSpec RigSpec UniqueSpec IdProps SceneModel SceneSpec NodeModel.
From Verif Require IdModel UniqueModel.
Import ListNotations.
Local Open Scope nat_scope.
Local Open Scope list_scope.

(** *** Names *)
Definition id_text (t : list Z) : Prop := legal id_char t /\ List.length t <= 512.
Definition name_text (t : list Z) : Prop := legal name_char t /\ List.length t <= 512.
(** The name of a node that has only an id: the id, with underscores for dots. *)
Definition dots_replaced (t : list Z) : list Z := map (fun c => if Z.eqb c 46 then 95%Z else c) t.
(** Ids that the map of unique names tells apart: no two have the same base name and the same final number. *)
Inductive told_apart : list (list Z) -> Prop :=
| A_nil : told_apart []
| A_cons : forall x l, Forall (fun y => ~ same_name x y) l -> modest 4294967295 x -> told_apart l -> told_apart (x :: l).

(** *** Transformations *)
Definition away (x y z : Q) : Prop := (1 # 10000 <= Qabs x \/ 1 # 10000 <= Qabs y \/ 1 # 10000 <= Qabs z)%Q.
(** The element and the numbers in it. *)
Inductive notation : tvalue -> string -> list Q -> Prop :=
| O_translate : forall x y z, notation (Translation (x, y, z)) "translate" [x; y; z]
| O_rotate : forall x y z w, notation (Rotation (x, y, z) w) "rotate" [x; y; z; w]
| O_scale : forall x y z, notation (Scale (x, y, z)) "scale" [x; y; z]
| O_skew : forall w x1 y1 z1 x2 y2 z2, away x1 y1 z1 -> away x2 y2 z2 ->
    notation (Skew w (Given (x1, y1, z1)) (Given (x2, y2, z2))) "skew" [w; x1; y1; z1; x2; y2; z2]
| O_matrix : forall m, notation (Matrix m) "matrix" (components m)
| O_lookat : forall x1 y1 z1 x2 y2 z2 x3 y3 z3,
    notation (LookAt (x1, y1, z1) (x2, y2, z2) (x3, y3, z3)) "lookat" [x1; y1; z1; x2; y2; z2; x3; y3; z3].
(** The sub id of an element; the empty text: none. *)
Definition sid_is (c : xml) (s : list Z) : Prop := (s = [] /\ no_attr c "sid") \/ (has_attr c "sid" s /\ name_text s).
Definition transform_in (c : xml) (s : list Z) (v : tvalue) : Prop :=
  exists name l t, notation v name l /\ is_elem name c /\ has_text c t /\ numbers_of float_text t l /\ sid_is c s.
(** The value v' stands for the same transformation as v; R relates the numbers.  The axes of a skew come back normalised. *)
Definition vec_rel (R : Q -> Q -> Prop) (v v' : vec) : Prop := let '(x, y, z) := v in let '(x', y', z') := v' in R x x' /\ R y y' /\ R z z'.
Definition value_rel (R : Q -> Q -> Prop) (v v' : tvalue) : Prop :=
  match v, v' with
  | Translation p, Translation p' => vec_rel R p p'
  | Rotation p w, Rotation p' w' => vec_rel R p p' /\ R w w'
  | Scale p, Scale p' => vec_rel R p p'
  | Skew w (Given r) (Given p), Skew w' (Unit r') (Unit p') => R w w' /\ vec_rel R r r' /\ vec_rel R p p'
  | Matrix m, Matrix m' => forall i j, i < 4 -> j < 4 -> R (m i j) (m' i j)
  | LookAt p t u, LookAt p' t' u' => vec_rel R p p' /\ vec_rel R t t' /\ vec_rel R u u'
  | _, _ => False
  end.
Definition transform_rel (R : Q -> Q -> Prop) (p : list Z * tvalue) (t : transform) : Prop := t_sid t = fst p /\ value_rel R (snd p) (t_value t).

(** *** What a <node> means *)
(** A node with its id, name, sub id, joint flag and its content in order: transformations, nodes, references to nodes. *)
Inductive ntree := NTree (id name sub : list Z) (joint : bool) (items : list item)
with item := ITransform (sid : list Z) (v : tvalue) | INode (t : ntree) | IRef (id : list Z).
Definition tree_id (t : ntree) : list Z := match t with NTree id _ _ _ _ => id end.
(** The element [c] is neither a node, a reference to one nor a transformation. *)
Definition foreign (c : xml) : Prop :=
  exists name attrs ch, c = Elem name attrs ch /\ ~ In name (map tx ["node"; "instance_node"; "rotate"; "translate"; "scale"; "skew"; "matrix"; "lookat"]%string).
(** [accepted c]: the reader of instances of other entities does not fail on c. *)
Inductive describes (accepted : xml -> Prop) : xml -> ntree -> Prop :=
| D_node : forall nm attrs ch id name sub (joint : bool) items,
    has_attr (Elem nm attrs ch) "id" id -> id_text id ->
    (has_attr (Elem nm attrs ch) "name" name /\ name_text name \/ no_attr (Elem nm attrs ch) "name" /\ name = dots_replaced id) ->
    sid_is (Elem nm attrs ch) sub ->
    (if joint then has_attr (Elem nm attrs ch) "type" (tx "JOINT")
     else no_attr (Elem nm attrs ch) "type" \/ has_attr (Elem nm attrs ch) "type" (tx "NODE")) ->
    content_is accepted ch items -> describes accepted (Elem nm attrs ch) (NTree id name sub joint items)
with content_is (accepted : xml -> Prop) : list xml -> list item -> Prop :=
| K_nil : content_is accepted [] []
| K_text : forall t ch items, content_is accepted ch items -> content_is accepted (Text t :: ch) items
| K_foreign : forall c ch items, foreign c -> is_elem "extra" c \/ is_elem "asset" c \/ accepted c -> content_is accepted ch items ->
    content_is accepted (c :: ch) items
| K_transform : forall c s v ch items, transform_in c s v -> content_is accepted ch items -> content_is accepted (c :: ch) (ITransform s v :: items)
| K_node : forall c t ch items, is_elem "node" c -> describes accepted c t -> content_is accepted ch items -> content_is accepted (c :: ch) (INode t :: items)
| K_ref : forall c id ch items, is_elem "instance_node" c -> has_attr c "url" (35%Z :: id) -> id_text id -> content_is accepted ch items ->
    content_is accepted (c :: ch) (IRef id :: items).
(** The content of <library_visual_scenes>. *)
Inductive library_is (accepted : xml -> Prop) : list xml -> list ntree -> Prop :=
| L_nil : library_is accepted [] []
| L_text : forall t l ts, library_is accepted l ts -> library_is accepted (Text t :: l) ts
| L_skip : forall c l ts, is_elem "asset" c \/ is_elem "extra" c -> library_is accepted l ts -> library_is accepted (c :: l) ts
| L_scene : forall c t l ts, ~ is_elem "asset" c -> ~ is_elem "extra" c -> describes accepted c t -> library_is accepted l ts -> library_is accepted (c :: l) (t :: ts).

(** The nodes of a tree, a node before its content. *)
Record entry := Entry { e_id : list Z; e_name : list Z; e_sub : list Z; e_joint : bool; e_transforms : list (list Z * tvalue); e_children : list (list Z) }.
Fixpoint transforms_of (items : list item) : list (list Z * tvalue) :=
  match items with [] => [] | ITransform s v :: r => (s, v) :: transforms_of r | _ :: r => transforms_of r end.
Definition isin (x : list Z) (l : list (list Z)) : bool := if in_dec (list_eq_dec Z.eq_dec) x l then true else false.
(** [known]: the ids of the nodes whose elements began earlier in the document; [path]: those of the elements that are open.  A reference
    becomes a child if its node is known, not open and not yet a child. *)
Fixpoint nodes_of_tree (known path : list (list Z)) (t : ntree) : list entry :=
  match t with
  | NTree id name sub joint items =>
      let (cs, es) :=
        (fix walk (known : list (list Z)) (cs : list (list Z)) (items : list item) : list (list Z) * list entry :=
           match items with
           | [] => (cs, [])
           | ITransform _ _ :: r => walk known cs r
           | IRef x :: r => walk known (if isin x known && negb (isin x (id :: path)) && negb (isin x cs) then cs ++ [x] else cs) r
           | INode t :: r =>
               let es := nodes_of_tree known (id :: path) t in
               let (cs1, es1) := walk (known ++ map e_id es) (cs ++ [tree_id t]) r in (cs1, es ++ es1)
           end) (known ++ [id]) [] items in
      Entry id name sub joint (transforms_of items) cs :: es
  end.
Fixpoint nodes_of_library (known : list (list Z)) (ts : list ntree) : list entry :=
  match ts with [] => [] | t :: r => let es := nodes_of_tree known [] t in es ++ nodes_of_library (known ++ map e_id es) r end.
(** No node has the sub id of a node around it. *)
Inductive subs_fine : list (list Z) -> ntree -> Prop :=
| S_node : forall above id name sub joint items, (sub <> [] -> ~ In sub above) ->
    (forall t, In (INode t) items -> subs_fine (sub :: above) t) -> subs_fine above (NTree id name sub joint items).

(** *** The document that was read *)
Definition id_of (st : lstate) (k : nat) : list Z := match nth_error (IdModel.objects (l_doc st)) k with Some o => IdModel.daeId o | None => [] end.
(** Node k is the node of the entry. *)
Definition node_is (R : Q -> Q -> Prop) (st : lstate) (k : nat) (e : entry) : Prop :=
  nth_error (IdModel.objects (l_doc st)) k = Some {| IdModel.daeId := e_id e; IdModel.unique := true; IdModel.alive := true |} /\
  l_name st k = e_name e /\ l_sub st k = e_sub e /\ l_joint st k = e_joint e /\
  Forall2 (transform_rel R) (e_transforms e) (l_transforms st k) /\ map (id_of st) (chi (l_graph st) k) = e_children e.

(** *** Writing and reading a scene *)
Definition far (x y z : Q) : Prop := (1 # 9999 <= Qabs x \/ 1 # 9999 <= Qabs y \/ 1 # 9999 <= Qabs z)%Q.
(** A transformation within the limits of the format. *)
Definition proper_value (v : tvalue) : Prop :=
  match v with
  | Translation (x, y, z) | Scale (x, y, z) => finite x /\ finite y /\ finite z
  | Rotation (x, y, z) w => finite x /\ finite y /\ finite z /\ finite w
  | Skew w (Given (x1, y1, z1)) (Given (x2, y2, z2)) => finite w /\ (finite x1 /\ finite y1 /\ finite z1) /\ (finite x2 /\ finite y2 /\ finite z2) /\ far x1 y1 z1 /\ far x2 y2 z2
  | Skew _ _ _ => False
  | Matrix m => forall i j, i < 4 -> j < 4 -> finite (m i j)
  | LookAt (x1, y1, z1) (x2, y2, z2) (x3, y3, z3) =>
      (finite x1 /\ finite y1 /\ finite z1) /\ (finite x2 /\ finite y2 /\ finite z2) /\ (finite x3 /\ finite y3 /\ finite z3)
  end.
(** The texts of a list that are not empty. *)
Definition given (l : list (list Z)) : list (list Z) := filter (fun s => match s with [] => false | _ => true end) l.
(** A visual scene (a node without parents) has no sub id and no joint flag in the format. *)
Definition saved_sub (s : scene) (x : nat) : list Z := match par (s_graph s) x with [] => [] | _ => n_sub (s_data s x) end.
Definition saved_joint (s : scene) (x : nat) : bool := match par (s_graph s) x with [] => false | _ => n_joint (s_data s x) end.
(** A node without a name gets its id as name. *)
Definition saved_name (d : node_data) : list Z := match n_name d with [] => dots_replaced (n_id d) | t => t end.
(** The children of x in the order they come back; [before]: the nodes that were written before x.  The first parent of a child keeps it;
    the other parents refer to it, and the references come first. *)
Definition saved_children (g : graph) (before : list nat) (x : nat) : list nat :=
  filter (fun c => existsb (Nat.eqb c) before) (filter (fun c => negb (match par g c with p :: _ => Nat.eqb p x | [] => false end)) (chi g x)) ++ under g true x.
(** The data of a node are within the limits of the format. *)
Record proper_node (accepted : xml -> Prop) (s : scene) (x : nat) : Prop := {
  pn_id : id_text (n_id (s_data s x));
  pn_name : n_name (s_data s x) = [] \/ name_text (n_name (s_data s x));
  pn_sub : n_sub (s_data s x) = [] \/ name_text (n_sub (s_data s x));
  pn_values : Forall (fun t => proper_value (t_value t)) (n_transforms (s_data s x));
  pn_sids : Forall (fun t => t_sid t = [] \/ name_text (t_sid t)) (n_transforms (s_data s x));
  pn_distinct : NoDup (given (saved_sub s x :: map t_sid (n_transforms (s_data s x))));
  pn_instances : Forall (fun c => foreign c /\ (is_elem "extra" c \/ is_elem "asset" c \/ accepted c)) (n_instances (s_data s x)) }.
(** A scene that the theorems are about: made by the operations on nodes; [roots]: its visual scenes, all nodes without parents;
    [order]: all nodes, a node before what it holds. *)
Record proper_scene (accepted : xml -> Prop) (s : scene) (roots order : list nat) : Prop := {
  ps_history : history (s_graph s);
  ps_roots : NoDup roots /\ forall x, In x roots <-> alive (s_graph s) x = true /\ par (s_graph s) x = [];
  ps_order : exists trees, Forall2 (unfolds (s_graph s) true) roots trees /\ order = flat_map preorder trees;
  ps_nodes : forall x, alive (s_graph s) x = true -> proper_node accepted s x;
  ps_ids : told_apart (map (fun x => n_id (s_data s x)) order);
  ps_subs : forall p c, descendant (s_graph s) p c -> par (s_graph s) p <> [] -> n_sub (s_data s c) <> [] -> n_sub (s_data s p) <> n_sub (s_data s c) }.
(** Node k of the document is node x of the scene. *)
Definition node_saved (R : Q -> Q -> Prop) (s : scene) (st : lstate) (before : list nat) (x k : nat) : Prop :=
  id_of st k = n_id (s_data s x) /\ l_name st k = saved_name (s_data s x) /\ l_sub st k = saved_sub s x /\ l_joint st k = saved_joint s x /\
  Forall2 (fun t t' => t_sid t' = t_sid t /\ value_rel R (t_value t) (t_value t')) (n_transforms (s_data s x)) (l_transforms st k) /\
  map (id_of st) (chi (l_graph st) k) = map (fun c => n_id (s_data s c)) (saved_children (s_graph s) before x).

(** *** Safety *)
(** No text of the document has the letter I. *)
Inductive calm : xml -> Prop :=
| C_text : forall t, ~ In 73%Z t -> calm (Text t)
| C_elem : forall n a ch, Forall calm ch -> calm (Elem n a ch).
