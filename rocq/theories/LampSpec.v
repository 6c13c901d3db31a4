(** What the <light> and <camera> elements of a document say and what is kept of a light or camera. *)
From Coq Require Import String List ZArith QArith Bool.
From Verif Require Import TextModel FloatSpec DaeModel DaeSpec ExtraModel RigSpec CustomSpec LampModel.
Import ListNotations.
Local Open Scope Q_scope.
Local Open Scope list_scope.

(** *** The format *)
(** The name of a value in the format. *)
Definition word (f : field) : str :=
  tx match f with
     | Constant => "constant_attenuation" | Linear => "linear_attenuation" | Quadratic => "quadratic_attenuation"
     | FallOffAngle => "falloff_angle" | FallOffExponent => "falloff_exponent"
     | Intensity => "intensity" | Outer => "outer_cone" | Dropoff => "dropoff"
     end.
Definition kind_word (k : lkind) : string :=
  match k with POINT => "point" | SPOT => "spot" | AMBIENT => "ambient" | DIRECTIONAL => "directional" end.
(** The values that COLLADA has elements for. *)
Definition standard (f : field) : Prop :=
  match f with Constant | Linear | Quadratic | FallOffAngle | FallOffExponent => True | _ => False end.
(** The values that matter for a kind of light. *)
Definition matters (k : lkind) (f : field) : Prop :=
  match f with
  | Intensity => True
  | Constant | Linear | Quadratic => k <> AMBIENT
  | FallOffAngle | FallOffExponent | Outer => k = SPOT \/ k = DIRECTIONAL
  | Dropoff => k = SPOT
  end.
(** The values of a new light. *)
Definition initial (f : field) : Q :=
  match f with Constant | Intensity | FallOffExponent => 1 | FallOffAngle | Outer => 5 | Linear | Quadratic | Dropoff => 0 end.

(** *** Documents *)
(** A text that is one number, or three. *)
Definition one_number (t : str) (q : Q) : Prop := numbers_of float_text t [q].
Definition three_numbers (t : str) (x y z : Q) : Prop := numbers_of float_text t [x; y; z].
(** The elements among the nodes, without <technique> and <extra>: their names and texts. *)
Inductive settings : list xml -> list (str * str) -> Prop :=
| S_nil : settings [] []
| S_text t l s : settings l s -> settings (Text t :: l) s
| S_skip c l s : is_elem "technique" c \/ is_elem "extra" c -> settings l s -> settings (c :: l) s
| S_elem k attrs ch t l s : k <> tx "technique" -> k <> tx "extra" -> has_text (Elem k attrs ch) t -> settings l s ->
    settings (Elem k attrs ch :: l) ((k, t) :: s).
(** The parameters in the techniques of the default type: the names and contents of the nodes without children. *)
Definition tree_settings (e : extra) : list (str * str) :=
  match find (fun t => match fst t with [] => true | _ => false end) e with
  | Some t => flat_map (fun x => match snd x with
                                 | ENode _ _ _ kids => flat_map (fun k => match k with ENode n c _ [] => [(n, c)] | _ => [] end) kids
                                 end) (snd t)
  | None => []
  end.
(** The last setting of a name. *)
Definition last_setting (s : list (str * str)) (k t : str) : Prop :=
  exists before after, s = before ++ (k, t) :: after /\ ~ In k (map fst after).
(** The value of a light that a document sets: the extra parameters go before the elements. *)
Inductive is_set (s tree : list (str * str)) (f : field) : Q -> Prop :=
| SetInTree t q : last_setting tree (word f) t -> one_number t q -> is_set s tree f q
| SetByElement t q : ~ In (word f) (map fst tree) -> standard f -> last_setting s (word f) t -> one_number t q -> is_set s tree f q.
Definition not_set (s tree : list (str * str)) (f : field) : Prop :=
  ~ In (word f) (map fst tree) /\ (standard f -> ~ In (word f) (map fst s)).
(** The texts are numbers. *)
Definition readable (s tree : list (str * str)) : Prop :=
  (forall f t, In (word f, t) s -> standard f -> exists q, one_number t q) /\
  (forall t, In (tx "color", t) s -> exists x y z, three_numbers t x y z) /\
  (forall f t, In (word f, t) tree -> exists q, one_number t q) /\
  (forall t, In (tx "penumbra_angle", t) tree -> exists q, one_number t q).
(** A node that is taken for a value of the light. *)
Definition value_like (x : enode) : bool :=
  match x with
  | ENode n _ _ [] => existsb (fun f => if str_eq_dec n (word f) then true else false)
                              [Constant; Linear; Quadratic; FallOffAngle; FallOffExponent; Intensity; Outer; Dropoff]
  | _ => false
  end.
(** The tree without these nodes. *)
Definition without_values (e e' : extra) : Prop :=
  exists before ts after, e = before ++ ([], ts) :: after /\ ~ In [] (map fst before) /\
    e' = before ++ ([], map (fun t => match snd t with
                                      | ENode n c attrs kids => (fst t, ENode n c attrs (filter (fun x => negb (value_like x)) kids))
                                      end) ts) :: after.
(** No parameter of the user has a name that LoadLight looks for. *)
Definition no_light_words (e : extra) : Prop :=
  ~ In (tx "penumbra_angle") (map fst (tree_settings e)) /\ forall f, ~ In (word f) (map fst (tree_settings e)).
Definition proper_light (l : light) : Prop :=
  (exists x y z, color l = Some (x, y, z) /\ finite x /\ finite y /\ finite z) /\ forall f, finite (value l f).
(** The colour, number by number. *)
Definition color_rel (R : Q -> Q -> Prop) (c c' : option rgb) : Prop :=
  exists x y z x' y' z', c = Some (x, y, z) /\ c' = Some (x', y', z') /\ R x x' /\ R y y' /\ R z z'.

(** *** Cameras *)
Definition view_words (horizontal : bool) : list str := if horizontal then [tx "xfov"; tx "xmag"] else [tx "yfov"; tx "ymag"].
Definition camera_words : list str := view_words true ++ view_words false ++ [tx "aspect_ratio"; tx "znear"; tx "zfar"].
(** The words for the three values that depend on each other. *)
Definition shape_words : list str := view_words true ++ view_words false ++ [tx "aspect_ratio"].
Definition projection_word (p : projection) : string := match p with PERSPECTIVE => "perspective" | ORTHOGRAPHIC => "orthographic" end.
Definition other (p : projection) : projection := match p with PERSPECTIVE => ORTHOGRAPHIC | ORTHOGRAPHIC => PERSPECTIVE end.
(** The last setting with one of the names. *)
Definition last_among (s : list (str * str)) (ks : list str) (k t : str) : Prop :=
  exists before after, s = before ++ (k, t) :: after /\ In k ks /\ forall k', In k' ks -> ~ In k' (map fst after).
Definition none_among (s : list (str * str)) (ks : list str) : Prop := forall k, In k ks -> ~ In k (map fst s).
Definition proper_camera (c : camera) : Prop :=
  finite (viewX c) /\ finite (viewY c) /\ finite (nearZ c) /\ finite (farZ c) /\ exists q, aspect c = Some q /\ finite q.
(** The aspect ratio of two views; there is none when the vertical view is 0. *)
Definition ratio_of (x y : Q) (r : option Q) : Prop := (y == 0 /\ r = None) \/ (~ y == 0 /\ exists q, r = Some q /\ q * y == x).
