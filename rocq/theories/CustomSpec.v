(** What is meant by writing an extra tree and reading it back, and by what a document says. *)
From Coq Require Import String List ZArith Bool.
From Verif Require Import TextModel XmlModel UniqueSpec IdProps DaeModel DaeSpec ExtraModel ExtraProps.
Import ListNotations.
Local Open Scope Z_scope.
Local Open Scope list_scope.

(** *** What can be written *)
(** A node that XML can hold: a name of letters, digits and '_', attributes told apart by such names, a content without a percent
    sign, and either a content or children. *)
Inductive sound_node : enode -> Prop :=
| Sound n t attrs kids :
    n <> [] -> plain_name n -> plain t -> attributes_ok attrs -> (forall a, In a attrs -> fst a <> []) ->
    (kids = [] \/ t = []) -> (forall k, In k kids -> sound_node k) ->
    sound_node (ENode n t attrs kids).
(** A technique: only its profile and its children count. *)
Definition sound_technique (x : technique) : Prop :=
  plain (fst x) /\ exists kids, snd x = ENode [] [] [] kids /\ forall k, In k kids -> sound_node k.
Definition sound_type (t : etype) : Prop :=
  plain (fst t) /\ NoDup (map fst (snd t)) /\ forall x, In x (snd t) -> sound_technique x.
(** The default type comes first and names are used once. *)
Definition sound_extra (e : extra) : Prop :=
  hd_error (map fst e) = Some [] /\ NoDup (map fst e) /\ forall t, In t e -> sound_type t.
(** Some technique has a child. *)
Definition has_data (e : extra) : Prop :=
  exists n ts p m t attrs k kids, In (n, ts) e /\ In (p, ENode m t attrs (k :: kids)) ts.

(** *** What a document says *)
(** The name an element or attribute gets: letters, digits and '_' stay, anything else (and a digit in front) becomes '_'. *)
Definition name_of (k n : str) : Prop :=
  List.length n = List.length k /\
  forall i c d, nth_error k i = Some c -> nth_error n i = Some d ->
    if Nat.eqb i 0 then (is_letter c \/ c = 95) /\ d = c \/ ~ (is_letter c \/ c = 95) /\ d = 95
    else enode_char c /\ d = c \/ ~ enode_char c /\ d = 95.
(** The texts at any depth, in order. *)
Inductive text_at : xml -> list Z -> Prop :=
| TextAt t : text_at (Text t) t
| ElemAt k a c ts : Forall2 text_at c ts -> text_at (Elem k a c) (concat ts).
(** The attribute that counts: the last one whose name becomes k. *)
Definition last_attribute (a : list (str * str)) (k : str) (v : str) : Prop :=
  exists l k' r, a = l ++ (k', v) :: r /\ name_of k' k /\ forall k'' v'', In (k'', v'') r -> ~ name_of k'' k.
(** An element as a node of the tree: the name, the elements below it in order, the text when there are none of these, and the
    attributes, each name once. *)
Inductive says : xml -> enode -> Prop :=
| Says k a c n t attrs kids ts :
    name_of k n ->
    Forall2 says (filter (fun m => match m with Elem _ _ _ => true | Text _ => false end) c) kids ->
    text_at (Elem k a c) ts ->
    (kids = [] -> t = XmlToString ts) -> (kids <> [] -> t = []) ->
    NoDup (map fst attrs) ->
    (forall k v, In (k, v) attrs <-> last_attribute a k v) ->
    says (Elem k a c) (ENode n t attrs kids).
(** The elements below the <technique profile="p"> of the <extra type="t"> among the nodes, in document order. *)
Definition is_extra (t : str) (n : xml) : bool := named n "extra" && if str_eq_dec (ReadNodeProperty n "type") t then true else false.
Definition is_technique (p : str) (n : xml) : bool := named n "technique" && if str_eq_dec (ReadNodeProperty n "profile") p then true else false.
Definition elements_of (t p : str) (nodes : list xml) : list xml :=
  flat_map (fun n => flat_map (fun m => filter (fun x => match x with Elem _ _ _ => true | Text _ => false end) (children_of m))
                              (filter (is_technique p) (children_of n)))
           (filter (is_extra t) nodes).
(** The extra tree e is what the <extra> elements among the nodes say: a default type and each type of the document, in each each
    profile of the document, and in each technique the elements written there, all of them in order. *)
Definition extra_of (nodes : list xml) (e : extra) : Prop :=
  NoDup (map fst e) /\
  (forall t, In t (map fst e) <-> t = [] \/ exists n, In n nodes /\ is_extra t n = true) /\
  forall t ts, In (t, ts) e ->
    NoDup (map fst ts) /\
    (forall p, In p (map fst ts) <-> exists n m, In n nodes /\ is_extra t n = true /\ In m (children_of n) /\ is_technique p m = true) /\
    forall p x, In (p, x) ts -> exists kids, x = ENode [] [] [] kids /\ Forall2 says (elements_of t p nodes) kids.

(** *** Notes and targets *)
(** The nodes that are taken for a note. *)
Definition note_like (x : enode) : Prop :=
  exists n t attrs, x = ENode n t attrs [] /\ (n = tx "user_properties" \/ n = tx "note").
(** No node of the MAYA, MAX3D and FCOLLADA techniques of the default type is taken for a note. *)
Definition no_notes (e : extra) : Prop :=
  forall ts p n t attrs kids k, In ([], ts) e -> In (p, ENode n t attrs kids) ts ->
    (p = tx "MAYA" \/ p = tx "MAX3D" \/ p = tx "FCOLLADA") -> In k kids -> ~ note_like k.
(** No technique of the default type has a child named "target". *)
Definition no_targets (e : extra) : Prop :=
  forall ts p n t attrs kids m t' attrs' kids', In ([], ts) e -> In (p, ENode n t attrs kids) ts ->
    In (ENode m t' attrs' kids') kids -> m <> tx "target".
(** The tree with an FCOLLADA technique in the default type: the one that is there or an empty one. *)
Inductive with_technique (p : str) : extra -> extra -> Prop :=
| WithOld ts r : In p (map fst ts) -> with_technique p (([], ts) :: r) (([], ts) :: r)
| WithNew ts r : ~ In p (map fst ts) -> with_technique p (([], ts) :: r) (([], ts ++ [(p, ENode [] [] [] [])]) :: r).
