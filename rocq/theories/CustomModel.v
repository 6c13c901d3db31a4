(** Extra trees, notes and targets in COLLADA XML: WriteExtra, WriteExtraType, WriteExtraTechnique, WriteExtraNode
    (FColladaPlugins/FArchiveXML/FAXEntityExport.cpp:24-62, 161-213), LoadExtra, LoadExtraType, LoadExtraTechnique, LoadExtraNode
    (FAXEntityImport.cpp:26-100, 230-245), the note and target of an entity (FAXSceneExport.cpp:266-320, FAXSceneImport.cpp:41-102), on the
    in-memory XML tree of DaeModel and the extra trees of ExtraModel.
    Not modelled: libxml2 itself (writing the tree to a file and parsing it back is taken to return the same tree), namespace prefixes,
    the animated value of a node, plug-ins that take over the writing or loading of a type or node (LetWriteObject and LoadSwitch call the
    functions below when there are none), ids, names and assets of the entity.  None is undefined behaviour (the absent default type is used). *)
From Coq Require Import String List ZArith Bool.
From Verif Require Import TextModel StringModel XmlModel DaeModel IdModel ExtraModel.
Import ListNotations.
Local Open Scope Z_scope.
Local Open Scope list_scope.

(** *** Writing *)
(** FAXEntityExport.cpp:161-192, WriteExtraNode and WriteChildrenFCDENode: FUXmlWriter.cpp:82-87 adds no content for an empty
    text, FUXmlWriter.cpp:194-200 adds the attributes as they are. *)
Fixpoint WriteExtraNode (x : enode) : xml :=
  match x with
  | ENode n t attrs kids => Elem n attrs (content (AddContent t) ++ map WriteExtraNode kids)
  end.
(** FArchiveXML/FAXColladaWriter.cpp:33-46 and FAXColladaParser.cpp:78-93, AddTechniqueChild and FindTechnique: the first
    <technique> with that profile among the children, or a new one at the end; [kids] are then added to it. *)
Fixpoint AddTechniqueChild_then (profile : str) (kids l : list xml) : list xml :=
  match l with
  | [] => [Elem (tx "technique") [(tx "profile", profile)] kids]
  | n :: r =>
      if named n "technique" && text_eq (ReadNodeProperty n "profile") profile
      then match n with Elem k a c => Elem k a (c ++ kids) :: r | Text _ => n :: r end
      else n :: AddTechniqueChild_then profile kids r
  end.
(** FAXEntityExport.cpp:42-50, WriteExtraTechnique: only the children of the technique's node are written. *)
Definition WriteExtraTechnique (l : list xml) (t : technique) : list xml :=
  match snd t with ENode _ _ _ kids => AddTechniqueChild_then (fst t) (map WriteExtraNode kids) l end.
(** FAXEntityExport.cpp:52-62 and 194-202, WriteExtraType and WriteTechniquesFCDEType. *)
Definition WriteExtraType (t : etype) : list xml :=
  match fst t, snd t with
  | [], [] => []
  | n, ts => [Elem (tx "extra") (match n with [] => [] | _ => [(tx "type", n)] end) (fold_left WriteExtraTechnique ts [])]
  end.
(** FAXEntityExport.cpp:24-40, WriteExtra: what is added to the parent. *)
Definition WriteExtra (e : extra) : list xml := if HasContent e then flat_map WriteExtraType e else [].

(** *** Loading *)
(** libxml2's xmlNodeGetContent: the texts of all descendants. *)
Fixpoint all_text (n : xml) : list Z :=
  match n with Text t => t | Elem _ _ c => flat_map all_text c end.
(** FUtils/FUXmlParser.cpp:197-211, ReadNodeContentFull. *)
Definition ReadNodeContentFull (n : xml) : list Z := XmlToString (all_text n).
(** The test for an element node, FAXEntityImport.cpp:237. *)
Definition is_element (n : xml) : bool := match n with Elem _ _ _ => true | Text _ => false end.
(** FAXEntityImport.cpp:46-72 and 230-245, LoadExtraNode and LoadExtraNodeChildren, into a new node.  (They are never called
    for a text.) *)
Fixpoint LoadExtraNode (n : xml) : enode :=
  match n with
  | Text _ => new_node
  | Elem k a c =>
      let kids := flat_map (fun m => if is_element m then [LoadExtraNode m] else []) c in
      ENode (CleanENodeName k)
            (match kids with [] => ReadNodeContentFull n | _ => [] end)
            (fold_left (fun l p => AddAttribute (fst p) (snd p) l) a [])
            kids
  end.
(** FAXEntityImport.cpp:230-245, LoadExtraNodeChildren: the children are added behind those that are there. *)
Definition LoadExtraNodeChildren (n : xml) (x : enode) : enode :=
  match x with
  | ENode k t attrs kids => ENode k t attrs (kids ++ flat_map (fun m => if is_element m then [LoadExtraNode m] else []) (children_of n))
  end.
(** FAXEntityImport.cpp:74-100, LoadExtraTechnique and LoadExtraType. *)
Definition LoadExtraType (n : xml) (t : etype) : etype :=
  (fst t, fold_left (fun ts m => AddTechnique_then (ReadNodeProperty m "profile") (fun x => (fst x, LoadExtraNodeChildren m (snd x))) ts)
                    (filter (fun m => named m "technique") (children_of n)) (snd t)).
(** FCDExtra.h:78-79 and FCDExtra.cpp:54-62, GetDefaultType = FindType(""), with what the caller does to it; None: there is none. *)
Fixpoint default_then (f : etype -> etype) (e : extra) : option extra :=
  match e with
  | [] => None
  | t :: r => if str_eq_dec (fst t) [] then Some (f t :: r) else option_map (cons t) (default_then f r)
  end.
(** FAXEntityImport.cpp:26-44, LoadExtra. *)
Definition LoadExtra (n : xml) (e : extra) : option extra :=
  if named n "extra" then Some (AddType_then (ReadNodeProperty n "type") (LoadExtraType n) e)
  else default_then (LoadExtraType n) e.
(** The calls of LoadExtra for the <extra> children of an element, as in FAXSceneImport.cpp:41-47 (and e.g. FAXInstanceImport.cpp). *)
Definition LoadExtras (nodes : list xml) (e : extra) : option extra :=
  fold_left (fun r n => match r with Some e => LoadExtra n e | None => None end) (filter (fun n => named n "extra") nodes) (Some e).

(** *** The note *)
(** FCDENode::FindParameters, FCDExtra.cpp:235-246, and the test of FAXSceneImport.cpp:66: a child without children named
    "user_properties" or "note". *)
Definition is_note (x : enode) : bool :=
  match x with
  | ENode n _ _ [] => text_eq n (tx "user_properties") || text_eq n (tx "note")
  | _ => false
  end.
Definition content_of (x : enode) : str := match x with ENode _ t _ _ => t end.
(** FAXSceneImport.cpp:61-73 for the parameters of one technique: the note is overwritten by each and the node is released. *)
Definition take_notes (x : enode) (note : str) : enode * str :=
  match x with
  | ENode n t attrs kids =>
      (ENode n t attrs (filter (fun k => negb (is_note k)) kids),
       fold_left (fun _ k => content_of k) (filter is_note kids) note)
  end.
(** The same on the first technique with the profile, when there is one (FCDExtra.cpp:126-133, FindTechnique). *)
Fixpoint take_notes_of (profile : str) (ts : list technique) (note : str) : list technique * str :=
  match ts with
  | [] => ([], note)
  | t :: r =>
      if str_eq_dec (fst t) profile then let '(x, note') := take_notes (snd t) note in ((fst t, x) :: r, note')
      else let '(r', note') := take_notes_of profile r note in (t :: r', note')
  end.
(** FAXSceneImport.cpp:49-73: the MAYA, MAX3D and FCOLLADA techniques of the default type, in that order. *)
Definition ExtractNote (e : extra) (note : str) : option (extra * str) :=
  match default_then (fun t => t) e, find (fun t => if str_eq_dec (fst t) [] then true else false) e with
  | Some _, Some (_, ts) =>
      let '(ts1, note1) := take_notes_of (tx "MAYA") ts note in
      let '(ts2, note2) := take_notes_of (tx "MAX3D") ts1 note1 in
      let '(ts3, note3) := take_notes_of (tx "FCOLLADA") ts2 note2 in
      option_map (fun e' => (e', note3)) (default_then (fun t => (fst t, ts3)) e)
  | _, _ => None
  end.
(** FAXSceneImport.cpp:41-74, LoadEntity: for each <extra> child the tree is extended and the notes are taken out. *)
Definition LoadEntityExtra (nodes : list xml) (e : extra) (note : str) : option (extra * str) :=
  fold_left (fun r n => match r with
                        | Some (e, note) => match LoadExtra n e with Some e' => ExtractNote e' note | None => None end
                        | None => None
                        end)
            (filter (fun n => named n "extra") nodes) (Some (e, note)).

(** FCDENode::AddParameter, FCDExtra.cpp:315-322: a child at the end. *)
Definition AddParameter (name : string) (value : str) (x : enode) : enode :=
  match x with ENode n t attrs kids => ENode n t attrs (kids ++ [ENode (CleanENodeName (tx name)) value [] []]) end.
(** Release of the parameter just added: the last child. *)
Definition drop_parameter (x : enode) : enode :=
  match x with ENode n t attrs kids => ENode n t attrs (removelast kids) end.
Definition has_children (x : enode) : bool := match x with ENode _ _ _ [] => false | _ => true end.
(** FAXSceneExport.cpp:276 and 309, on the default type: AddTechnique("FCOLLADA") and AddParameter. *)
Definition with_parameter (name : string) (value : str) (e : extra) : option extra :=
  default_then (fun t => (fst t, AddTechnique_then (tx "FCOLLADA") (fun x => (fst x, AddParameter name value (snd x))) (snd t))) e.
(** FAXSceneExport.cpp:283-287 and 315-320: the parameter is released from the technique that was returned (the first with that
    profile), and the technique too when it has no children any more. *)
Fixpoint release_parameter (ts : list technique) : list technique :=
  match ts with
  | [] => []
  | x :: r => if str_eq_dec (fst x) (tx "FCOLLADA")
              then let y := drop_parameter (snd x) in if has_children y then (fst x, y) :: r else r
              else x :: release_parameter r
  end.
Definition without_parameter (e : extra) : option extra := default_then (fun t => (fst t, release_parameter (snd t))) e.
(** FAXSceneExport.cpp:266-289, WriteEntityExtra: what is added to the entity's element, and the extra tree afterwards. *)
Definition WriteEntityExtra (e : extra) (note : str) : option (list xml * extra) :=
  match note with
  | [] => Some (WriteExtra e, e)
  | _ => match with_parameter "user_properties" note e with
         | Some e1 => option_map (fun e2 => (WriteExtra e1, e2)) (without_parameter e1)
         | None => None
         end
  end.

(** *** The target *)
(** FAXSceneExport.cpp:299-321, WriteTargetedEntityExtra; [target] is the id of the target node, when there is one. *)
Definition WriteTargetedEntityExtra (e : extra) (note : str) (target : option str) : option (list xml * extra) :=
  match target with
  | None => WriteEntityExtra e note
  | Some id =>
      match with_parameter "target" (35 :: id) e with
      | Some e1 => match WriteEntityExtra e1 note with
                   | Some (l, e2) => option_map (fun e3 => (l, e3)) (without_parameter e2)
                   | None => None
                   end
      | None => None
      end
  end.
(** FCDEType::FindRootNode (FCDExtra.cpp:136-145) with FCDENode::FindChildNode (208-215), and the release of the node found: the
    content of the first child of that name in the first technique that has one. *)
Fixpoint take_child (name : str) (l : list enode) : option (str * list enode) :=
  match l with
  | [] => None
  | x :: r => match x with
              | ENode n t _ _ => if str_eq_dec n name then Some (t, r)
                                 else option_map (fun p => (fst p, x :: snd p)) (take_child name r)
              end
  end.
Fixpoint take_root (name : str) (ts : list technique) : option (str * list technique) :=
  match ts with
  | [] => None
  | (p, ENode n t attrs kids) :: r =>
      match take_child name kids with
      | Some (v, kids') => Some (v, (p, ENode n t attrs kids') :: r)
      | None => option_map (fun q => (fst q, (p, ENode n t attrs kids) :: snd q)) (take_root name r)
      end
  end.
(** FAXSceneImport.cpp:80-102, LoadTargetedEntity, for a new entity: the tree, the note and targetId. *)
Definition LoadTargetedEntity (n : xml) : option (extra * str * str) :=
  match LoadEntityExtra (children_of n) new_extra [] with
  | Some (e, note) =>
      match default_then (LoadExtraType n) e with
      | Some e1 =>
          match find (fun t => if str_eq_dec (fst t) [] then true else false) e1 with
          | Some (_, ts) =>
              match take_root (tx "target") ts with
              | Some (v, ts') => option_map (fun e2 => (e2, note, v)) (default_then (fun t => (fst t, ts')) e1)
              | None => Some (e1, note, [])
              end
          | None => None
          end
      | None => None
      end
  | None => None
  end.
