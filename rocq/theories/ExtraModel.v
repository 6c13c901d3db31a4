(** Model of the extra trees: FCDocument/FCDExtra.cpp and FCDExtra.h.
    A string is a list of non-zero byte values, so IsEquivalent (strcmp, FUString.h:536-539) is equality.
    Objects are owned by exactly one container, so a tree of values stands for the tree of objects; a call on
    an inner object is a call at a path.  Not modelled: the dirty and new-child flags, the animated value of a
    node and the plug-in object of a technique (neither is looked at by the functions below; the node's
    animated value is left out of Clone by the code itself, FCDExtra.cpp:344). *)
From Coq Require Import List ZArith Bool.
From Verif Require Import TextModel IdModel.
Import ListNotations.
Local Open Scope Z_scope.

(** fm::string / fstring contents. *)
Definition str := list Z.
(** IsEquivalent, FUString.h:536-539. *)
Definition str_eq_dec : forall a b : str, {a = b} + {a <> b} := list_eq_dec Z.eq_dec.

(** FCDEAttribute, FCDExtra.h:490-523: name and value. *)
Definition attribute := (str * str)%type.
(** FCDENode, FCDExtra.h:215-430: name, content, attributes, children. *)
Inductive enode := ENode (name content : str) (attributes : list attribute) (children : list enode).
(** FCDETechnique, FCDExtra.h:435-485: the profile and the node it derives from. *)
Definition technique := (str * enode)%type.
(** FCDEType, FCDExtra.h:120-210: the name and the techniques. *)
Definition etype := (str * list technique)%type.
(** FCDExtra, FCDExtra.h:45-116: the types. *)
Definition extra := list etype.

(** FCDENode::FCDENode, FCDExtra.cpp:173-182. *)
Definition new_node : enode := ENode [] [] [] [].
(** FCDETechnique::FCDETechnique, FCDExtra.cpp:373-378. *)
Definition new_technique (profile : str) : technique := (profile, new_node).
(** FCDEType::FCDEType followed by SetName, FCDExtra.cpp:46-48, 100-106. *)
Definition new_type (name : str) : etype := (name, []).
(** FCDExtra::FCDExtra, FCDExtra.cpp:25-33: the default type has an empty name. *)
Definition new_extra : extra := [new_type []].
(** FCDEAttribute::FCDEAttribute then SetName, FCDExtra.cpp:289-291, 401-406. *)
Definition new_attribute (name : str) : attribute := (name, []).

(** The shape of the three de-duplicating calls (FCDExtra.cpp:41-62, 113-133, 283-307): go through the list for
    the first entry with the key; when there is none, put a new one at the end; then [f] is done to the entry
    that the call returns. *)
Fixpoint add_then {A : Type} (key : A -> str) (mk : str -> A) (k : str) (f : A -> A) (l : list A) : list A :=
  match l with
  | [] => [f (mk k)]
  | a :: l' => if str_eq_dec (key a) k then f a :: l' else a :: add_then key mk k f l'
  end.

(** FCDExtra::AddType, FCDExtra.cpp:41-62, with what the caller does to the type returned. *)
Definition AddType_then (name : str) (f : etype -> etype) (e : extra) : extra := add_then fst new_type name f e.
(** FCDEType::AddTechnique, FCDExtra.cpp:113-133. *)
Definition AddTechnique_then (profile : str) (f : technique -> technique) (l : list technique) : list technique :=
  add_then fst new_technique profile f l.
(** FCDENode::AddAttribute, FCDExtra.cpp:283-307. *)
Definition AddAttribute (name value : str) (l : list attribute) : list attribute :=
  add_then fst new_attribute (CleanENodeName name) (fun a => (fst a, value)) l.

(** FCDENode::Clone, FCDExtra.cpp:324-347 (AddChildNode: 349-355). *)
Fixpoint CloneNode (src clone : enode) {struct src} : enode :=
  match src, clone with
  | ENode n c attrs kids, ENode _ _ attrs' kids' =>
      ENode n c (fold_left (fun l a => AddAttribute (fst a) (snd a) l) attrs attrs')
            (kids' ++ map (fun k => CloneNode k new_node) kids)
  end.
(** FCDETechnique::Clone, FCDExtra.cpp:382-395. *)
Definition CloneTechnique (src clone : technique) : technique := (fst src, CloneNode (snd src) (snd clone)).
(** FCDEType::Clone, FCDExtra.cpp:147-162. *)
Definition CloneType (src clone : etype) : etype :=
  (fst clone, fold_left (fun l t => AddTechnique_then (fst t) (CloneTechnique t) l) (snd src) (snd clone)).
(** FCDExtra::Clone, FCDExtra.cpp:79-91, into the given extra. *)
Definition CloneExtra (src clone : extra) : extra :=
  fold_left (fun l t => AddType_then (fst t) (CloneType t) l) src clone.
(** Into a new one, FCDExtra.cpp:81. *)
Definition CloneFresh (src : extra) : extra := CloneExtra src new_extra.

(** The public calls that change an extra tree. *)
(** Apply to the i-th entry of a list, as a call on GetType(i), GetTechnique(i), GetChildNode(i) or
    GetAttribute(i) (FCDExtra.h:84, 173, 303-310, 365-370); nothing happens for an absent entry. *)
Fixpoint at_nth {A : Type} (i : nat) (f : A -> A) (l : list A) : list A :=
  match l, i with
  | [], _ => []
  | a :: l', O => f a :: l'
  | a :: l', S j => a :: at_nth j f l'
  end.
(** Release of the i-th entry: the owner's list drops it (FUParameter container references). *)
Fixpoint drop_nth {A : Type} (i : nat) (l : list A) : list A :=
  match l, i with
  | [], _ => []
  | _ :: l', O => l'
  | a :: l', S j => a :: drop_nth j l'
  end.

(** Calls on a node: SetName (FCDExtra.cpp:248-253), SetContent (189-199), AddChildNode (349-364),
    AddParameter (315-322), AddAttribute (283-297), FCDEAttribute::SetName and SetValue (FCDExtra.h:514, 522), and
    the release of a child or of an attribute. *)
Inductive nodecall :=
| NSetName (n : str) | NSetContent (c : str) | NAddChildNode (n : str) | NAddParameter (n v : str)
| NAddAttribute (n v : str) | NSetAttributeName (i : nat) (n : str) | NSetAttributeValue (i : nat) (v : str)
| NReleaseChild (i : nat) | NReleaseAttribute (i : nat).
(** The effect of each, same lines. *)
Definition do_node (c : nodecall) (x : enode) : enode :=
  match x with
  | ENode n t attrs kids =>
    match c with
    | NSetName n' => ENode (CleanENodeName n') t attrs kids
    | NSetContent t' => ENode n t' attrs []
    | NAddChildNode n' => ENode n t attrs (kids ++ [ENode (CleanENodeName n') [] [] []])
    | NAddParameter n' v => ENode n t attrs (kids ++ [ENode (CleanENodeName n') v [] []])
    | NAddAttribute n' v => ENode n t (AddAttribute n' v attrs) kids
    | NSetAttributeName i n' => ENode n t (at_nth i (fun a => (n', snd a)) attrs) kids
    | NSetAttributeValue i v => ENode n t (at_nth i (fun a => (fst a, v)) attrs) kids
    | NReleaseChild i => ENode n t attrs (drop_nth i kids)
    | NReleaseAttribute i => ENode n t (drop_nth i attrs) kids
    end
  end.
(** A call on the descendant reached by the path of child indices. *)
Fixpoint at_path (p : list nat) (f : enode -> enode) (x : enode) : enode :=
  match p with
  | [] => f x
  | i :: p' => match x with ENode n t attrs kids => ENode n t attrs (at_nth i (at_path p' f) kids) end
  end.

(** Calls on the extra (AddType), on a type (SetName FCDExtra.h:159, AddTechnique, release) and on a technique
    (SetProfile FCDExtra.h:467, release), or on a node below a technique. *)
Inductive call :=
| AddTypeCall (n : str) | SetTypeName (i : nat) (n : str) | ReleaseType (i : nat)
| AddTechniqueCall (i : nat) (p : str) | SetProfile (i j : nat) (p : str) | ReleaseTechnique (i j : nat)
| OnNode (i j : nat) (path : list nat) (c : nodecall).
(** The effect of each, same lines. *)
Definition do_call (e : extra) (c : call) : extra :=
  match c with
  | AddTypeCall n => AddType_then n (fun t => t) e
  | SetTypeName i n => at_nth i (fun t => (n, snd t)) e
  | ReleaseType i => drop_nth i e
  | AddTechniqueCall i p => at_nth i (fun t => (fst t, AddTechnique_then p (fun x => x) (snd t))) e
  | SetProfile i j p => at_nth i (fun t => (fst t, at_nth j (fun x => (p, snd x)) (snd t))) e
  | ReleaseTechnique i j => at_nth i (fun t => (fst t, drop_nth j (snd t))) e
  | OnNode i j path nc => at_nth i (fun t => (fst t, at_nth j (fun x => (fst x, at_path path (do_node nc) (snd x))) (snd t))) e
  end.
(** Any sequence of calls on a new extra. *)
Definition do_calls (cs : list call) : extra := fold_left do_call cs new_extra.

(** HasContent, FCDExtra.cpp:64-77. *)
Definition HasContent (e : extra) : bool :=
  existsb (fun t => existsb (fun x => match snd x with ENode _ _ _ kids => match kids with [] => false | _ => true end end) (snd t)) e.
(** FindAttribute and ReadAttribute, FCDExtra.cpp:300-313. *)
Definition ReadAttribute (name : str) (x : enode) : str :=
  match x with
  | ENode _ _ attrs _ => match find (fun a => if str_eq_dec (fst a) name then true else false) attrs with
                         | Some a => snd a | None => [] end
  end.
