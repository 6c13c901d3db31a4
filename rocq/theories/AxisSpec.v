(** Changing the up-axis and the unit of a document: the notions the theorems about StandardizeUpAxisAndLength speak of. *)
From Coq Require Import List Arith Reals Bool.
From Verif Require Import IdModel MatrixModel QuatModel RotModel SceneModel SceneSpec TransformModel AxisModel.
Import ListNotations.
Local Open Scope R_scope.

(** The point [p] in the new coordinates: turned by the matrix [t] and in units that are [s] times smaller. *)
Definition moved (t : mat) (s : R) (p : vec3) : vec3 := vscale s (TransformVector t p).
(** The transformation [m'] does in the new coordinates what [m] does in the old ones. *)
Definition carried (t : mat) (s : R) (m m' : mat) : Prop :=
  forall p, TransformCoordinate m' (moved t s p) = moved t s (TransformCoordinate m p).

(** An asset that is missing or sets neither unit nor up-axis. *)
Definition quiet (a : option asset) : Prop := match a with Some a => hasUnits a = false /\ hasUpAxis a = false | None => True end.
(** Only the asset of the document sets a unit or an up-axis; the geometries, controllers and cameras have no asset. *)
Definition one_asset (d : document) : Prop :=
  (forall n, quiet (node_asset d n)) /\ quiet (scene_library d) /\ quiet (controller_library d) /\ quiet (geometry_library d) /\
  quiet (camera_library d) /\ Forall (fun c => fst c = None) (controllers d) /\ Forall (fun c => fst c = None) (geometries d) /\
  Forall (fun c => fst c = None) (cameras d).
(** The scene graph comes about by calls, and the roots of the visual scenes are different existing nodes without parents. *)
Definition proper (d : document) : Prop :=
  history (scene d) /\ NoDup (roots d) /\ (forall r, In r (roots d) -> alive (scene d) r = true /\ par (scene d) r = []).
(** [path g l n]: l leads from a node without parents to n, along first parents. *)
Inductive path (g : graph) : list nat -> nat -> Prop :=
| path_root n : par g n = [] -> path g [n] n
| path_step l p n rest : path g l p -> par g n = p :: rest -> path g (l ++ [n]) n.
(** The node is in a visual scene. *)
Definition in_scene (d : document) (n : nat) : Prop := exists r l, path (scene d) (r :: l) n /\ In r (roots d).
(** The transformations that the theorems speak of: no look-at, no zero axis, and matrices with the last row 0 0 0 1. *)
Definition plain (t : transform) : Prop :=
  match t with
  | TRotation a _ => a <> V3 0 0 0
  | TMatrix m => m03 m = 0 /\ m13 m = 0 /\ m23 m = 0 /\ m33 m = 1
  | TLookAt _ _ _ => False
  | _ => True
  end.
(** A rotation that is not nearly, but not exactly, a quarter turn about a coordinate axis. *)
Definition distinct (t : transform) : Prop :=
  match t with
  | TRotation a x =>
      (forall v, In v [XAxis; YAxis; ZAxis; vneg XAxis; vneg YAxis; vneg ZAxis] -> IsEquivalent3 a v = true -> a = v) /\
      (forall y, y = 90 \/ y = -90 -> IsEquivalent x y = true -> x = y)
  | _ => True
  end.
(** A node that has nothing but one camera, light, force field or emitter. *)
Definition only_pivoted (d : document) (n : nat) : Prop := chi (scene d) n = [] /\ exists b, kinds d n = [Pivoted b].
(** The value number [j] of a source, its first three numbers. *)
Definition value (s : source) (j : nat) : vec3 :=
  V3 (nth (j * stride s) (data s) 0) (nth (j * stride s + 1) (data s) 0) (nth (j * stride s + 2) (data s) 0).
(** An entity whose own coordinates change their unit only, as a camera's, is placed by [m'] as it was by [m]. *)
Definition shown (t : mat) (s : R) (m m' : mat) : Prop :=
  forall q, TransformCoordinate m' (vscale s q) = moved t s (TransformCoordinate m q).
(** The nodes of the visual scenes: a node places everything below it as before, unless it has nothing but one camera or the like.
    Each instance of the node has a node that shows it: the node itself or a new child node of it with this instance only; a
    camera (or the like) is placed as before, unless it has a target and targets are treated separately. *)
Definition nodes_converted (t : mat) (s : R) (handleTargets : bool) (d d' : document) : Prop :=
  forall fuel n m, in_scene d n -> CalculateWorldTransform fuel (scene d) (stack d) n = Done m ->
  (~ only_pivoted d n -> exists m', CalculateWorldTransform fuel (scene d') (stack d') n = Done m' /\ carried t s m m') /\
  (Forall (fun e : entry => distinct (fst e)) (stack d n) ->
   exists ks : list nat,
     Forall2 (fun i k => In i (kinds d' k) /\ (k = n \/ par (scene d') k = [n] /\ kinds d' k = [i]) /\
                match i with
                | Other => k = n
                | Pivoted b => (handleTargets && b)%bool = false ->
                               exists m', CalculateWorldTransform (S fuel) (scene d') (stack d') k = Done m' /\ shown t s m m'
                end) (kinds d n) ks /\
     kinds d' n = map fst (filter (fun e => (snd e =? n)%nat) (combine (kinds d n) ks)) /\
     NoDup (filter (fun k => negb (k =? n)%nat) ks) /\ (forall k, In k ks -> k <> n -> (next (scene d) <= k)%nat) /\
     chi (scene d') n = chi (scene d) n ++ filter (fun k => negb (k =? n)%nat) ks).
(** A source with values of three or more numbers. *)
Definition source_converted (t : mat) (s : R) (a b : source) : Prop :=
  stype b = stype a /\ stride b = stride a /\ length (data b) = length (data a) /\ (stype a = OTHER -> b = a) /\
  ((3 <= stride a)%nat -> forall j, (j < length (data a) / stride a)%nat ->
   (stype a = POSITION -> value b j = moved t s (value a j)) /\ (stype a = DIRECTION -> value b j = TransformVector t (value a j))).
Definition geometry_converted (t : mat) (s : R) (g g' : geometry) : Prop :=
  match g, g' with
  | Mesh l, Mesh l' => Forall2 (source_converted t s) l l'
  | Spline l, Spline l' => l' = map (map (moved t s)) l
  | NoGeometry, NoGeometry => True
  | _, _ => False
  end.
(** The bind shape and the inverse bind poses, where they are affine and the poses invertible. *)
Definition controller_converted (t : mat) (s : R) (c c' : controller) : Prop :=
  match c, c' with
  | Skin b j, Skin b' j' =>
      (m03 b = 0 /\ m13 b = 0 /\ m23 b = 0 /\ m33 b = 1 -> carried t s b b') /\
      Forall2 (fun m m' => m03 m = 0 /\ m13 m = 0 /\ m23 m = 0 /\ m33 m = 1 -> epsilon < Rabs (Determinant m) ->
                           epsilon < Rabs (Determinant (Inverted m)) -> carried t s m m') j j'
  | Morph, Morph => True
  | _, _ => False
  end.
(** The entities of the libraries. *)
Definition entities_converted (t : mat) (s : R) (d d' : document) : Prop :=
  Forall2 (fun g g' => geometry_converted t s (snd g) (snd g')) (geometries d) (geometries d') /\
  Forall2 (fun c c' => controller_converted t s (snd c) (snd c')) (controllers d) (controllers d') /\
  Forall2 (fun c c' => snd c' = (fst (snd c) * s, snd (snd c) * s)) (cameras d) (cameras d').
(** The conversion from the X-axis to the Z-axis or back. *)
Definition x_and_z (a b : vec3) : Prop := a = XAxis /\ b = ZAxis \/ a = ZAxis /\ b = XAxis.

(** *** The asset in force *)
(** [node_unit d n u]: u is the unit that the nearest asset with a unit gives, from the node n along the first parents. *)
Inductive node_unit (d : document) : nat -> R -> Prop :=
| unit_own n a : node_asset d n = Some a -> hasUnits a = true -> node_unit d n (unitFactor a)
| unit_parent n p r u : (forall a, node_asset d n = Some a -> hasUnits a = false) -> par (scene d) n = p :: r -> node_unit d p u -> node_unit d n u
| unit_document n : (forall a, node_asset d n = Some a -> hasUnits a = false) -> par (scene d) n = [] -> hasUnits (base d) = true -> node_unit d n (unitFactor (base d)).
(** The same for an entity of a library: its own asset, the asset of the library, the asset of the document. *)
Definition library_unit (d : document) (own library : option asset) : R :=
  match find hasUnits (match own with Some a => [a] | None => [] end ++ match library with Some a => [a] | None => [] end ++ [base d]) with
  | Some a => unitFactor a
  | None => 1
  end.
