(** What a <spline> element says, and what is kept of a spline that is written and read back. *)
From Coq Require Import String List ZArith QArith Bool.
From Verif Require Import TextModel TextSpec XmlModel FloatSpec DaeModel DaeSpec RigSpec CustomSpec AssetSpec WireModel.
Import ListNotations.
Local Open Scope nat_scope.
Local Open Scope list_scope.

(** *** Documents *)
(** The names of the types in a document. *)
Inductive type_word : string -> Z -> Prop :=
| T_linear : type_word "LINEAR" LINEAR
| T_bezier : type_word "BEZIER" BEZIER
| T_nurbs : type_word "NURBS" NURBS.
(** The points that a list of numbers stands for; numbers missing at the end are 0. *)
Inductive points_from : list Q -> list point -> Prop :=
| P_none : points_from [] []
| P_one x : points_from [x] [(x, 0, 0)%Q]
| P_two x y : points_from [x; y] [(x, y, 0)%Q]
| P_more x y z l ps : points_from l ps -> points_from (x :: y :: z :: l) ((x, y, z) :: ps).
Definition same_point (p q : point) : Prop :=
  let '(x, y, z) := p in let '(x', y', z') := q in (x' == x /\ y' == y /\ z' == z)%Q.
(** A <technique> of a profile. *)
Definition technique_for (profile : string) (n : xml) : Prop := is_elem "technique" n /\ has_attr n "profile" (tx profile).
(** The profiles of all techniques are plain texts. *)
Definition plain_profiles (ch : list xml) : Prop := forall c v, In c ch -> has_attr c "profile" v -> plain v.
(** The technique with the type of the spline. *)
Definition says_technique (n q : xml) : Prop :=
  exists e, first_child (children_of n) (is_elem "extra") e /\ plain_profiles (children_of e) /\ first_child (children_of e) (technique_for "FCOLLADA") q.
(** The element gives the type named [k]. *)
Definition says_type (n : xml) (k : list Z) : Prop :=
  exists q t, says_technique n q /\ first_child (children_of q) (is_elem "type") t /\ holds t k.
(** The element gives no type: something on the way to it is missing. *)
Definition says_no_type (n : xml) : Prop :=
  no_child (children_of n) "extra" \/
  (exists e, first_child (children_of n) (is_elem "extra") e /\ plain_profiles (children_of e) /\
     forall c, In c (children_of e) -> ~ technique_for "FCOLLADA" c) \/
  (exists q, says_technique n q /\ no_child (children_of q) "type").
(** The words for false begin with 0, f or F; no attribute and an empty one are false too. *)
Definition false_text (t : list Z) : Prop := t = [] \/ exists c r, t = c :: r /\ In c [48; 102; 70]%Z.
Definition says_closed (n : xml) (b : bool) : Prop :=
  (no_attr n "closed" /\ b = false) \/ exists t, has_attr n "closed" t /\ plain t /\ (b = false <-> false_text t).
(** An id: it does not begin with '#'. *)
Definition source_name (id : list Z) : Prop := proper_id id /\ forall r, id <> 35%Z :: r.
(** An input of the spline: the semantic and the first child of the spline with the id that is named. *)
Definition input_for (ch : list xml) (i : xml) (semantic : list Z) (s : xml) : Prop :=
  plain semantic /\ has_attr i "semantic" semantic /\ exists id, source_name id /\ has_attr i "source" (35%Z :: id) /\ first_child ch (with_id id) s.
(** An input that names no child of the spline. *)
Definition lost_input (ch : list xml) (i : xml) : Prop :=
  exists id, source_name id /\ has_attr i "source" (35%Z :: id) /\ forall c, In c ch -> ~ with_id id c.
(** The inputs ins have these semantics and sources. *)
Definition inputs_for (ch ins : list xml) (l : list (list Z * xml)) : Prop :=
  Forall2 (fun i x => input_for ch i (fst x) (snd x)) ins l.
(** The source of the last input with a semantic. *)
Definition last_source (l : list (list Z * xml)) (semantic : string) (s : xml) : Prop :=
  exists before after, l = before ++ (tx semantic, s) :: after /\ Forall (fun x => fst x <> tx semantic) after.
Definition no_source (l : list (list Z * xml)) (semantic : string) : Prop := Forall (fun x => fst x <> tx semantic) l.
Definition says_floats (l : list (list Z * xml)) (semantic : string) (v : list Q) : Prop :=
  (no_source l semantic /\ v = []) \/ exists s, last_source l semantic s /\ float_source s v.
(** The numbers in the <float_array> elements; what is in other sources does not matter. *)
Definition reads_floats (l : list (list Z * xml)) (semantic : string) : Prop :=
  Forall (fun x => fst x = tx semantic -> exists v, float_source (snd x) v) l.
Definition says_degree (n : xml) (d : Z) : Prop :=
  exists q, says_technique n q /\
    ((no_child (children_of q) "degree" /\ d = 3%Z) \/
     exists c t, first_child (children_of q) (is_elem "degree") c /\ has_text c t /\ decimal d t /\ (0 <= d < 4294967296)%Z).
(** A <spline> element of a known type that gives no spline: it has no <control_vertices>, or an input of them names nothing. *)
Definition broken_spline (n : xml) (k : Z) : Prop :=
  (exists word, says_type n (tx word) /\ type_word word k) /\ (forall c v, In c (children_of n) -> has_attr c "id" v -> plain v) /\
  (no_child (children_of n) "control_vertices" \/
   exists cv ins i rest l, first_child (children_of n) (is_elem "control_vertices") cv /\ inputs_among (children_of cv) (ins ++ i :: rest) /\
     inputs_for (children_of n) ins l /\ reads_floats l "POSITION" /\ lost_input (children_of n) i).
(** The content of a spline of type [k] that the element [n] gives. *)
Record says_spline (n : xml) (k : Z) (w : wire) : Prop := {
  z_type : exists word, says_type n (tx word) /\ type_word word k;
  z_closed : exists b, says_closed n b /\ w_form w = (if b then CLOSED else OPEN);
  z_name : w_name w = [];
  z_ids : forall c v, In c (children_of n) -> has_attr c "id" v -> plain v;
  z_inputs : exists cv ins l xyz ps, first_child (children_of n) (is_elem "control_vertices") cv /\ inputs_among (children_of cv) ins /\
    inputs_for (children_of n) ins l /\ reads_floats l "POSITION" /\ says_floats l "POSITION" xyz /\ points_from xyz ps /\
    Forall2 same_point ps (w_cvs w) /\
    (k = NURBS -> reads_floats l "WEIGHTS" /\ reads_floats l "KNOTS" /\
       (exists v, says_floats l "WEIGHTS" v /\ Forall2 (fun x y => y == x)%Q v (w_weights w)) /\
       (exists v, says_floats l "KNOTS" v /\ Forall2 (fun x y => y == x)%Q v (w_knots w)) /\ says_degree n (w_degree w)) /\
    (k <> NURBS -> w_weights w = [] /\ w_knots w = [] /\ w_degree w = 0%Z)
}.
(** Equal up to the representation of the numbers. *)
Record same_wire (w w' : wire) : Prop := {
  s_name : w_name w' = w_name w;
  s_form : w_form w' = w_form w;
  s_points : Forall2 same_point (w_cvs w) (w_cvs w');
  s_weights : Forall2 (fun x y => y == x)%Q (w_weights w) (w_weights w');
  s_knots : Forall2 (fun x y => y == x)%Q (w_knots w) (w_knots w');
  s_degree : w_degree w' = w_degree w
}.
(** When a spline is complete: two points for a line; for a NURBS a weight for every point, and as many knots as its degree and one
    more. *)
Definition complete (k : Z) (w : wire) : Prop :=
  (k = LINEAR -> 2 <= List.length (w_cvs w)) /\
  (k = NURBS -> w_cvs w <> [] /\ List.length (w_weights w) = List.length (w_cvs w) /\
     Z.of_nat (List.length (w_knots w)) = (Z.of_nat (List.length (w_cvs w)) + w_degree w + 1)%Z).
(** No element of the list gives the shape of a geometry. *)
Definition no_shape (l : list xml) : Prop := Forall (fun c => ~ is_elem "mesh" c /\ ~ is_elem "convex_mesh" c /\ ~ is_elem "spline" c) l.
(** Elements that give no spline. *)
Definition no_spline (n : xml) : Prop := ~ is_elem "spline" n \/ says_no_type n.

(** *** Writing and reading back *)
(** The id of a geometry: neither libxml2 nor the decoding of attributes changes it, and it does not begin with '#'. *)
Definition geometry_id (id : list Z) : Prop := plain id /\ forall r, id <> 35%Z :: r.
Definition finite_point (p : point) : Prop := let '(x, y, z) := p in finite x /\ finite y /\ finite z.
Definition point_remains (eps : Q) (p q : point) : Prop :=
  let '(x, y, z) := p in let '(x', y', z') := q in remains eps x x' /\ remains eps y y' /\ remains eps z z'.
(** Splines with finite numbers; the degree of a NURBS is an uint32, and there are fewer points than a size_t can count. *)
Record proper_wire (k : Z) (w : wire) : Prop := {
  q_kind : k = LINEAR \/ k = BEZIER \/ k = NURBS;
  q_points : Forall finite_point (w_cvs w);
  q_numbers : Forall finite (w_weights w) /\ Forall finite (w_knots w);
  q_degree : (0 <= w_degree w < 4294967296)%Z;
  q_small : (Z.of_nat (List.length (w_cvs w)) < 18446744073709551616)%Z;
  q_complete : complete k w
}.
(** What remains: everything but the name; weights, knots and degree are those of a NURBS. *)
Record wire_remains (eps : Q) (k : Z) (w w' : wire) : Prop := {
  r_form : w_form w' = (if (w_form w =? CLOSED)%Z then CLOSED else OPEN);
  r_points : Forall2 (point_remains eps) (w_cvs w) (w_cvs w');
  r_nurbs : k = NURBS -> Forall2 (remains eps) (w_weights w) (w_weights w') /\ Forall2 (remains eps) (w_knots w) (w_knots w') /\
    w_degree w' = w_degree w
}.
