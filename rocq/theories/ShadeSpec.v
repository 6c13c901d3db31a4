(** What the COMMON profile of a document says and what is kept of a standard effect. *)
From Coq Require Import String List ZArith QArith Bool.
From Verif Require Import TextModel FloatModel FloatSpec DaeModel DaeSpec IdProps RigSpec LampSpec ShadeModel.
Import ListNotations.
Local Open Scope Q_scope.
Local Open Scope list_scope.

(** *** The format *)
Definition color_word (f : cfield) : string :=
  match f with
  | Emission => "emission" | Diffuse => "diffuse" | Ambient => "ambient" | Specular => "specular" | Reflective => "reflective"
  | Transparent => "transparent"
  end.
Definition number_word (f : sfield) : string :=
  match f with
  | EmissionFactor => "emission_level" | ReflectivityFactor => "reflectivity" | Refraction => "index_of_refraction"
  | TransparencyFactor => "transparency" | SpecularFactor => "spec_level" | Shininess => "shininess"
  end.
Definition lighting_word (k : lighting) : string :=
  match k with FLAT => "constant" | LAMBERT => "lambert" | PHONG => "phong" | BLINN => "blinn" | OTHER => "" end.
(** The parameters that an effect makes use of. *)
Definition color_used (e : effect) (f : cfield) : Prop :=
  match f with
  | Emission => is_factor e = false
  | Ambient | Diffuse => lit e <> FLAT
  | Specular => lit e = PHONG \/ lit e = BLINN
  | Reflective => is_reflective e = true
  | Transparent => True
  end.
Definition number_used (e : effect) (f : sfield) : Prop :=
  match f with
  | EmissionFactor => is_factor e = true
  | SpecularFactor | Shininess => lit e = PHONG \/ lit e = BLINN
  | ReflectivityFactor => is_reflective e = true
  | TransparencyFactor => True
  | Refraction => is_refractive e = true
  end.

(** *** Writing and reading back *)
Definition color_rel (R : Q -> Q -> Prop) (c c' : option rgba) : Prop :=
  exists x y z w x' y' z' w', c = Some (x, y, z, w) /\ c' = Some (x', y', z', w') /\ R x x' /\ R y y' /\ R z z' /\ R w w'.
(** A constant keeps its value, a reference its name. *)
Definition same_parameter {A} (R : A -> A -> Prop) (p p' : parameter_of A) : Prop :=
  match snd p with None => snd p' = None /\ R (fst p) (fst p') | Some r => snd p' = Some r end.
(** A name that SetReference takes as it is. *)
Definition proper_reference (r : option (list Z)) : Prop :=
  forall t, r = Some t -> legal name_char t /\ (List.length t <= 512)%nat.
Record proper_effect (e : effect) : Prop := {
  pe_lit : lit e <> OTHER;
  pe_color : forall f, exists x y z w, fst (color_of e f) = Some (x, y, z, w) /\ finite x /\ finite y /\ finite z /\ finite w;
  pe_number : forall f, finite (fst (number_of e f));
  pe_references : (forall f, proper_reference (snd (color_of e f))) /\ (forall f, proper_reference (snd (number_of e f)));
  pe_level : fst (number_of e SpecularFactor) == 1 -> snd (number_of e SpecularFactor) = None
}.
Definition untextured (e : effect) : Prop := forall c, textures e c = O.

(** *** Documents *)
Definition four_numbers (t : list Z) (x y z w : Q) : Prop := numbers_of float_text t [x; y; z; w].
(** The elements among the nodes, without <technique> and <extra>. *)
Inductive elements_among : list xml -> list xml -> Prop :=
| A_nil : elements_among [] []
| A_text t l s : elements_among l s -> elements_among (Text t :: l) s
| A_skip c l s : is_elem "technique" c \/ is_elem "extra" c -> elements_among l s -> elements_among (c :: l) s
| A_elem k attrs ch l s : k <> tx "technique" -> k <> tx "extra" -> elements_among l s ->
    elements_among (Elem k attrs ch :: l) (Elem k attrs ch :: s).
(** The technique of a tool in the first <extra>, if there is one: its children. *)
Definition of_tool (t : xml) (profile : string) (l : list xml) : Prop :=
  (exists x q, first_child (children_of t) (is_elem "extra") x /\
     first_child (children_of x) (fun c => is_elem "technique" c /\ ReadNodeProperty c "profile" = tx profile) q /\ l = children_of q) \/
  (forall x, first_child (children_of t) (is_elem "extra") x ->
     Forall (fun c => ~ (is_elem "technique" c /\ ReadNodeProperty c "profile" = tx profile)) (children_of x)) /\ l = [].
(** The parameters that the <technique> t gives, in the order in which they count, and its lighting model. *)
Definition gives (t : xml) (k : lighting) (s : list xml) : Prop :=
  exists p l1 l2 l3,
    first_child (children_of t) (fun d => exists k, k <> OTHER /\ is_elem (lighting_word k) d) p /\ k <> OTHER /\ is_elem (lighting_word k) p /\
    of_tool t "MAX3D" l1 /\ of_tool t "MAYA" l2 /\ of_tool t "FCOLLADA" l3 /\
    elements_among (children_of p ++ l1 ++ l2 ++ l3) s.
(** The last element of a name; no element of a name. *)
Definition last_of (s : list xml) (name : string) (c : xml) : Prop :=
  exists before after, s = before ++ c :: after /\ is_elem name c /\ Forall (fun d => ~ is_elem name d) after.
Definition none_of (s : list xml) (name : string) : Prop := Forall (fun d => ~ is_elem name d) s.
Definition no_child (c : xml) (name : string) : Prop := Forall (fun d => ~ is_elem name d) (children_of c).
(** The values of a new effect. *)
Definition initial_color (f : cfield) : rgba := match f with Reflective => (1, 1, 1, 1) | _ => (0, 0, 0, 1) end.
Definition initial_number (f : sfield) : Q := match f with Shininess => 20 | _ => 1 end.
