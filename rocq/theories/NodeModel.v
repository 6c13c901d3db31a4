(** Scene nodes in COLLADA XML: FArchiveXML::WriteSceneNode and the writers of transformations
    (FColladaPlugins/FArchiveXML/FAXSceneExport.cpp:39-264, 358-373), LoadSceneNode, LoadEntity and the readers of transformations
    (FAXSceneImport.cpp:24-78, 104-200, 307-431), AddNodeSid (FAXColladaWriter.cpp:365-405), LoadLibrary for the visual scenes
    (FArchiveXML.cpp:928-962) and FindDaeId (FCDocument/FCDSceneNode.cpp:164-175, FCDocument/FCDLibrary.hpp:50-72), on the XML tree of
    DaeModel.v, the scene graphs of SceneModel.v, the sub ids of SubIdModel.v, the ids of IdModel.v and the texts of FloatModel.v.
    Numbers are finite rationals; the writers are relations because the digits printf chooses are.
    Not modelled: libxml2 itself, animated transformations and visibilities, extras, assets, notes, layers, the instances of entities
    other than scene nodes (they are elements given from outside, with the status their reader returns), instances of scene nodes that
    are not children, references to other files, error messages.  Bad is undefined behaviour, Fuel a search that does not end. *)
From Coq Require Import String List ZArith QArith Bool.
From Verif Require Import TextModel StringModel XmlModel FloatModel DaeModel SceneModel UriModel.
From Verif Require SubIdModel UniqueModel IdModel.
Import ListNotations.
Local Open Scope nat_scope.
Local Open Scope list_scope.

(** FMath/FMVector3.h:25-32: the three coordinates. *)
Definition vec : Type := (Q * Q * Q)%type.
Definition coords (v : vec) : list Q := let '(x, y, z) := v in [x; y; z].
(** An axis of a skew: as given, or the vector that FMVector3::Normalize (FMath/FMVector3.h:91) makes of a given one. *)
Inductive axis := Given (v : vec) | Unit (v : vec).
(** FCDocument/FCDTransform.h:150, 221, 287, 392, 452, 556: the values of the six kinds of transformation; LookAt: position, target, up; Skew: angle, rotate axis,
    around axis.  mat is indexed by column, then row. *)
Inductive tvalue :=
| Translation (v : vec) | Rotation (a : vec) (angle : Q) | Scale (v : vec) | Skew (angle : Q) (rotate around : axis)
| Matrix (m : mat) | LookAt (position target up : vec).
(** FCDocument/FCDTransform.h:48-66: the sub id and the value. *)
Record transform := Transform { t_sid : list Z; t_value : tvalue }.

(** *** Writing *)
(** FCDocument/FCDSceneNode.h:60-78, FCDEntity.h:86, FCDObjectWithId.h:42: the data of a node; [n_instances]: the elements that the instances of other entities are
    written to (FAXInstanceExport.cpp). *)
Record node_data := NodeData { n_id : list Z; n_name : list Z; n_sub : list Z; n_joint : bool; n_transforms : list transform; n_instances : list xml }.
Record scene := Scene { s_graph : graph; s_data : nat -> node_data }.

(** FAXSceneExport.cpp:177-245: the element of a transformation. *)
Definition element_of (v : tvalue) : string :=
  match v with
  | Translation _ => "translate" | Rotation _ _ => "rotate" | Scale _ => "scale" | Skew _ _ _ => "skew" | Matrix _ => "matrix" | LookAt _ _ _ => "lookat"
  end.
(** FAXSceneExport.cpp:182-184, 193, 204, 215, 227-229, 240: the numbers of a transformation in the order of the text. *)
Definition numbers (v : tvalue) : option (list Q) :=
  match v with
  | Translation v => Some (coords v)
  | Rotation a angle => Some (coords a ++ [angle])
  | Scale v => Some (coords v)
  | Skew angle (Given r) (Given a) => Some (angle :: coords r ++ coords a)
  | Skew _ _ _ => None (* the components of a normalised axis are no rationals in general *)
  | Matrix m => Some [m 0 0; m 1 0; m 2 0; m 3 0; m 0 1; m 1 1; m 2 1; m 3 1; m 0 2; m 1 2; m 2 2; m 3 2; m 0 3; m 1 3; m 2 3; m 3 3]
  | LookAt p t u => Some (coords p ++ coords t ++ coords u)
  end.
(** FAXSceneExport.cpp:177-245: the texts of a transformation: numbers with blanks between (FUStringConversion.hpp:256-277). *)
Definition value_text (eps : Q) (v : tvalue) (t : list Z) : Prop :=
  match numbers v with Some l => ToString_floats eps [] (map Fin l) t | None => False end.
(** FAXSceneExport.cpp:185, 194 (processed) and 206, 217, 231, 242 (unprocessed): the content of the element. *)
Definition value_content (v : tvalue) (t : list Z) : list xml :=
  match v with Matrix _ | LookAt _ _ _ => content (AddContent t) | _ => content t end.
(** FAXColladaWriter.cpp:394-396: wantedSid with a number; [k] counts the tries left below 100. *)
Fixpoint numbered_sid (used : list (list Z)) (wanted : list Z) (counter : Z) (k : nat) : list Z :=
  match k with
  | O => []
  | S k1 => let sid := wanted ++ append_u32 counter in
            if existsb (fun v => text_eq (XmlToString v) sid) used then numbered_sid used wanted (counter + 1)%Z k1 else sid
  end.
(** FAXColladaWriter.cpp:365-405, FAXColladaParser.cpp:61-75: AddNodeSid for an element without id and sid; [used]: the sid attributes
    of the enclosing element with an id and of everything in it.  The result is the attribute; the empty text: no attribute. *)
Definition AddNodeSid (used : list (list Z)) (wanted : list Z) : list Z :=
  if existsb (fun v => text_eq (XmlToString v) wanted) used then numbered_sid used wanted 2 98 else wanted.
(** FAXSceneExport.cpp:358-366: WriteTransformBase without animation: the sid attribute. *)
Definition written_sid (used : list (list Z)) (t : transform) : list Z :=
  match t_sid t with [] => [] | s => AddNodeSid used s end.
(** FAXSceneExport.cpp:57, 249-258, FAXColladaWriter.cpp:365-405: an attribute that is left out if it is empty. *)
Definition optional (k : string) (v : list Z) : list (list Z * list Z) := match v with [] => [] | _ => [(tx k, v)] end.
(** FAXSceneExport.cpp:74-79: the elements of the transformations, in order. *)
Inductive WriteTransforms (eps : Q) : list (list Z) -> list transform -> list xml -> Prop :=
| WT_nil : forall used, WriteTransforms eps used [] []
| WT_cons : forall used t r text out, value_text eps (t_value t) text ->
    WriteTransforms eps (match written_sid used t with [] => used | s => s :: used end) r out ->
    WriteTransforms eps used (t :: r)
      (Elem (tx (element_of (t_value t))) (optional "sid" (written_sid used t)) (value_content (t_value t) text) :: out).
(** FCDocument/FCDEntityReference.cpp:42-54, FUtils/FUFileManager.cpp:287-294, FAXInstanceExport.cpp:67-89: the <instance_node> element for
    a node of the same document; the other branches of CleanUri are not taken for the ids of documents. *)
Definition WriteNodeInstance (a : arith) (id : list Z) : option xml :=
  match parse a (35%Z :: id) with
  | Some u => match scheme u with NONE => Some (Elem (tx "instance_node") [(tx "url", 35%Z :: fragment u)] []) | _ => None end
  | None => None
  end.
(** FAXSceneExport.cpp:49-61, 247-258: the name and the attributes of the element. *)
Definition node_element (top : bool) (d : node_data) (ch : list xml) : xml :=
  Elem (tx (if top then "visual_scene" else "node"))
    ((tx "id", n_id d) :: optional "name" (n_name d) ++
     (if top then [] else optional "sid" (n_sub d) ++ [(tx "type", tx (if n_joint d then "JOINT" else "NODE"))])) ch.
(** FAXSceneExport.cpp:49: GetParentCount() == 0. *)
Definition is_top (g : graph) (n : nat) : bool := match par g n with [] => true | _ => false end.
(** FAXSceneExport.cpp:49-57: the sid attribute of the element itself. *)
Definition own_sid (top : bool) (d : node_data) : list (list Z) := if top then [] else match n_sub d with [] => [] | s => [s] end.
(** FAXSceneExport.cpp:39-166: WriteSceneNode.  Children whose first parent is another node are written as instances, then the others
    recursively. *)
Inductive WriteSceneNode (a : arith) (eps : Q) (s : scene) : nat -> xml -> Prop :=
| WN : forall n ts refs nodes,
    WriteTransforms eps (own_sid (is_top (s_graph s) n) (s_data s n)) (n_transforms (s_data s n)) ts ->
    Forall2 (fun c e => WriteNodeInstance a (n_id (s_data s c)) = Some e) (filter (fun c => negb (first_parent (s_graph s) n c)) (chi (s_graph s) n)) refs ->
    Forall2 (WriteSceneNode a eps s) (filter (first_parent (s_graph s) n) (chi (s_graph s) n)) nodes ->
    WriteSceneNode a eps s n (node_element (is_top (s_graph s) n) (s_data s n) (ts ++ n_instances (s_data s n) ++ refs ++ nodes)).
(** FArchiveXML.cpp:1066-1082 (WriteLibrary), without asset and extra: the visual scenes of the library, in order. *)
Definition WriteScenes (a : arith) (eps : Q) (s : scene) (roots : list nat) (n : xml) : Prop :=
  exists l, Forall2 (WriteSceneNode a eps s) roots l /\ n = Elem (tx "library_visual_scenes") [] l.

(** *** Reading *)
(** FCDocument/FCDocument.h:110-150, FCDSceneNode.h:60-78: the document while it is read: the graph, the ids (object i is node i), the names, sub ids, joint flags and transformations of the
    nodes, and the visual scenes of the library. *)
Record lstate := LState { l_graph : graph; l_doc : IdModel.document; l_name : nat -> list Z; l_sub : nat -> list Z;
  l_joint : nat -> bool; l_transforms : nat -> list transform; l_roots : list nat }.
Definition with_graph (st : lstate) (g : graph) := LState g (l_doc st) (l_name st) (l_sub st) (l_joint st) (l_transforms st) (l_roots st).
Definition with_doc (st : lstate) (d : IdModel.document) := LState (l_graph st) d (l_name st) (l_sub st) (l_joint st) (l_transforms st) (l_roots st).
(** FCDocument/FCDSceneNode.cpp:45-57: a new node; it has no name, sub id, flag and transformation. *)
Definition NewSceneNode (st : lstate) : lstate :=
  let i := next (l_graph st) in
  LState (NewNode (l_graph st) 0) (IdModel.NewObject (l_doc st) (tx "VisualSceneNode")) (upd (l_name st) i []) (upd (l_sub st) i [])
         (upd (l_joint st) i false) (upd (l_transforms st) i []) (l_roots st).
(** FCDocument/FCDSceneNode.cpp:119-124: AddChildNode without argument. *)
Definition AddNewChild (fuel : nat) (st : lstate) (n : nat) : res (nat * lstate) :=
  let i := next (l_graph st) in
  let st1 := NewSceneNode st in
  match AddChildNode fuel (l_graph st1) n (Some i) with
  | Done (_, g) => Done (i, with_graph st1 g)
  | Fuel => Fuel
  | Bad => Bad
  end.
(** FAXSceneImport.cpp:24-36: LoadEntity: id and name. *)
Definition LoadEntity (st : lstate) (i : nat) (n : xml) : lstate :=
  let fileId := ReadNodeProperty n "id" in
  let d := match fileId with [] => IdModel.RemoveDaeId (l_doc st) i | _ => IdModel.SetDaeId (l_doc st) i fileId end in
  let name := IdModel.CleanName (ReadNodeProperty n "name") in
  let name := match name with [] => IdModel.CleanName fileId | _ => name end in
  LState (l_graph st) d (upd (l_name st) i name) (l_sub st) (l_joint st) (l_transforms st) (l_roots st).
(** FCDocument/FCDSceneNode.cpp:164-175: FindDaeId; GetDaeId gives an id to a node that has none. *)
Fixpoint FindDaeId (fuel : nat) (g : graph) (id : list Z) (d : IdModel.document) (n : nat) : res (option nat * IdModel.document) :=
  match fuel with
  | 0 => Fuel
  | S f =>
      match IdModel.GetDaeId d n with
      | (None, _) => Bad
      | (Some s, d1) =>
          if UniqueModel.str_eqb s id then Done (Some n, d1) else
          (fix loop (d : IdModel.document) (l : list nat) : res (option nat * IdModel.document) :=
             match l with
             | [] => Done (None, d)
             | c :: r => match FindDaeId f g id d c with Done (None, d2) => loop d2 r | found => found end
             end) d1 (chi g n)
      end
  end.
(** FCDocument/FCDocument.cpp:221, FCDocument/FCDLibrary.hpp:50-72: FindSceneNode: the visual scenes of the library in order. *)
Fixpoint FindSceneNode (fuel : nat) (g : graph) (id : list Z) (d : IdModel.document) (roots : list nat) : res (option nat * IdModel.document) :=
  match roots with
  | [] => Done (None, d)
  | r :: l => match FindDaeId fuel g id d r with Done (None, d1) => FindSceneNode fuel g id d1 l | found => found end
  end.
(** FAXSceneImport.cpp:142-167, FAXColladaParser.cpp:496-500: an <instance_node> element. *)
Definition LoadNodeInstance (fuel : nat) (a : arith) (st : lstate) (i : nat) (c : xml) : res lstate :=
  match parse a (ReadNodeProperty c "url") with
  | None => Bad
  | Some u =>
      if IsFile (path u) then Done st else
      match FindSceneNode fuel (l_graph st) (fragment u) (l_doc st) (l_roots st) with
      | Done (None, d) => Done (with_doc st d)
      | Done (Some k, d) =>
          match AddChildNode fuel (l_graph st) i (Some k) with
          | Done (_, g) => Done (with_graph (with_doc st d) g)
          | Fuel => Fuel
          | Bad => Bad
          end
      | Fuel => Fuel
      | Bad => Bad
      end
  end.
(** FCDocument/FCDTransform.h:52-61: the kinds; FAXSceneImport.cpp:422-431: GetTransformType. *)
Inductive tkind := TRANSLATION | ROTATION | SCALE | SKEW | MATRIX | LOOKAT.
Definition GetTransformType (c : xml) : option tkind :=
  if named c "rotate" then Some ROTATION else if named c "translate" then Some TRANSLATION else if named c "scale" then Some SCALE
  else if named c "skew" then Some SKEW else if named c "matrix" then Some MATRIX else if named c "lookat" then Some LOOKAT else None.
(** FMath/FMMatrix44.cpp:13-14: Identity. *)
Definition identity : mat := fun i j => if i =? j then 1%Q else 0%Q.
(** FCDocument/FCDTransform.cpp:63-67, 109-113, 158-162, 198-202, 233-237, 273-277: the values of new transformations. *)
Definition initial (k : tkind) : tvalue :=
  match k with
  | TRANSLATION => Translation (0, 0, 0)%Q
  | ROTATION => Rotation (1, 0, 0)%Q 0%Q
  | SCALE => Scale (1, 1, 1)%Q
  | SKEW => Skew 0%Q (Given (1, 0, 0)%Q) (Given (0, 1, 0)%Q)
  | MATRIX => Matrix identity
  | LOOKAT => LookAt (0, 0, 0)%Q (0, 0, -1)%Q (0, 1, 0)%Q
  end.
(** FMath/FMFloat.h:29, FMath/FMVector3.h:253: IsEquivalent with FMVector3::Origin. *)
Definition near_zero (q : Q) : bool := negb (Qle_bool (1 # 10000) q) && negb (Qle_bool q (- (1 # 10000))).
Definition at_origin (v : vec) : bool := forallb near_zero (coords v).
(** FAXSceneImport.cpp:307-420: the readers of transformations: status and value.  None: undefined behaviour in the reader of numbers. *)
Definition LoadTransform (a : arith) (k : tkind) (c : xml) : option (bool * tvalue) :=
  match k with
  | MATRIX => option_map (fun r => (true, Matrix (fst r))) (ToMatrix a (ReadNodeContentDirect c) identity)
  | _ =>
      option_map (fun l =>
        match k, l with
        | TRANSLATION, [x; y; z] => (true, Translation (x, y, z))
        | ROTATION, [x; y; z; w] => (true, Rotation (x, y, z) w)
        | SCALE, [x; y; z] => (true, Scale (x, y, z))
        | SKEW, [w; x1; y1; z1; x2; y2; z2] =>
            if at_origin (x1, y1, z1) || at_origin (x2, y2, z2) then (false, Skew w (Given (x1, y1, z1)) (Given (x2, y2, z2)))
            else (true, Skew w (Unit (x1, y1, z1)) (Unit (x2, y2, z2)))
        | LOOKAT, [x1; y1; z1; x2; y2; z2; x3; y3; z3] => (true, LookAt (x1, y1, z1) (x2, y2, z2) (x3, y3, z3))
        | _, _ => (false, initial k)
        end) (ToFloatList a (ReadNodeContentDirect c) [])
  end.
(** FAXSceneImport.cpp:175-178: the transformation of node i, with the sub id that SetSubId (FCDTransform.cpp:44-48) makes. *)
Definition add_transform (st : lstate) (i : nat) (c : xml) (v : tvalue) : lstate :=
  LState (l_graph st) (l_doc st) (l_name st) (l_sub st) (l_joint st)
    (upd (l_transforms st) i (l_transforms st i ++ [Transform (IdModel.CleanSubId (ReadNodeProperty c "sid")) v])) (l_roots st).
(** FAXSceneImport.cpp:106-126: id, name, sub id and type. *)
Definition LoadHead (fuel : nat) (st : lstate) (i : nat) (n : xml) : res lstate :=
  let st1 := LoadEntity st i n in
  match SubIdModel.SetSubId fuel (l_graph st1) (l_sub st1) i (ReadNodeProperty n "sid") with
  | Done sub =>
      Done (LState (l_graph st1) (l_doc st1) (l_name st1) sub
              (if text_eq (ReadNodeProperty n "type") (tx "JOINT") then upd (l_joint st1) i true else l_joint st1) (l_transforms st1) (l_roots st1))
  | Fuel => Fuel
  | Bad => Bad
  end.
(** FAXSceneImport.cpp:104-200: LoadSceneNode for the new node i: status and document.  [other]: the status of the reader of an element
    that is an instance of another entity, true for an unknown element. *)
Fixpoint LoadSceneNode (fuel : nat) (a : arith) (other : xml -> bool) (st : lstate) (i : nat) (n : xml) {struct n} : res (bool * lstate) :=
  match n with
  | Text _ => Bad
  | Elem name attrs children =>
      match LoadHead fuel st i (Elem name attrs children) with
      | Done st1 =>
          (fix loop (st : lstate) (status : bool) (l : list xml) {struct l} : res (bool * lstate) :=
             match l with
             | [] => Done (status, st)
             | Text _ :: r => loop st status r
             | (Elem cn ca cc as c) :: r =>
                 if named c "node" then
                   match AddNewChild fuel st i with
                   | Done (k, st1) =>
                       match LoadSceneNode fuel a other st1 k c with
                       | Done (true, st2) => loop st2 true r
                       | stop => stop
                       end
                   | Fuel => Fuel
                   | Bad => Bad
                   end
                 else if named c "instance_node" then
                   match LoadNodeInstance fuel a st i c with Done st1 => loop st1 status r | Fuel => Fuel | Bad => Bad end
                 else if named c "extra" then loop st status r
                 else if named c "asset" then loop st status r
                 else match GetTransformType c with
                      | Some k => match LoadTransform a k c with
                                  | Some (ok, v) => loop (add_transform st i c v) (status && ok) r
                                  | None => Bad
                                  end
                      | None => loop st (status && other c) r
                      end
             end) st1 true children
      | Fuel => Fuel
      | Bad => Bad
      end
  end.
(** FCDocument/FCDLibrary.hpp:74-82: AddEntity. *)
Definition AddEntity (st : lstate) : nat * lstate :=
  let i := next (l_graph st) in
  let st1 := NewSceneNode st in
  (i, LState (l_graph st1) (l_doc st1) (l_name st1) (l_sub st1) (l_joint st1) (l_transforms st1) (l_roots st1 ++ [i])).
(** FArchiveXML.cpp:928-962: LoadLibrary: the children of <library_visual_scenes>. *)
Fixpoint LoadScenes (fuel : nat) (a : arith) (other : xml -> bool) (st : lstate) (status : bool) (l : list xml) : res (bool * lstate) :=
  match l with
  | [] => Done (status, st)
  | Text _ :: r => LoadScenes fuel a other st status r
  | (Elem _ _ _ as c) :: r =>
      if named c "asset" || named c "extra" then LoadScenes fuel a other st status r
      else let (i, st1) := AddEntity st in
           match LoadSceneNode fuel a other st1 i c with
           | Done (ok, st2) => LoadScenes fuel a other st2 (status && ok) r
           | Fuel => Fuel
           | Bad => Bad
           end
  end.
(** FCDocument/FCDocument.cpp:73-103: a document without scene nodes; [names]: the ids its other objects have. *)
Definition no_scenes (names : UniqueModel.names) : lstate :=
  LState no_nodes {| IdModel.doc_names := names; IdModel.objects := [] |} (fun _ => []) (fun _ => []) (fun _ => false) (fun _ => []) [].
