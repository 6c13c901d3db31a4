(** Specification for C83 and C84: chains of controllers in terms of GetBaseTarget, and what fits together. *)
From Coq Require Import List Arith.
From Verif Require Import ControlModel.
Import ListNotations.

(** [c] deforms [b], directly or through other controllers. *)
Inductive based_on (w : world) : nat -> nat -> Prop :=
| B_direct : forall c b, GetBaseTarget w c = Some b -> based_on w c b
| B_chain : forall c d b, GetBaseTarget w c = Some d -> based_on w d b -> based_on w c b.

(** The entity is a geometry or deforms one. *)
Definition deforms (w : world) (e g : nat) (s : shape) : Prop :=
  shape_of w g = Some s /\ (e = g \/ based_on w e g).

(** Same kind and same number of vertices; a target needs positions. *)
Inductive alike : shape -> shape -> Prop :=
| A_mesh : forall n, alike (Mesh (Some n)) (Mesh (Some n))
| A_no_positions : alike (Mesh None) (Mesh (Some 0))
| A_spline : forall n, alike (Spline n) (Spline n).
(** The number of vertices of a geometry. *)
Inductive vertices : shape -> nat -> Prop :=
| V_mesh : forall n, vertices (Mesh (Some n)) n
| V_no_positions : vertices (Mesh None) 0
| V_spline : forall n, vertices (Spline n) n
| V_empty : vertices Empty 0.

Definition alive (w : world) (e : option nat) : Prop := forall x, e = Some x -> ent w x <> None.
Definition geometry (w : world) (g : option nat) : Prop := forall x, g = Some x -> exists s, shape_of w x = Some s.
Definition is_skin (w : world) (c : nat) : Prop := exists e i n, control_of w c = Some (Skin e i n).
Definition is_morph (w : world) (c : nat) (b : option nat) (ts : list (option nat)) : Prop := control_of w c = Some (Morph b ts).

(** The base geometry of the controller is like the geometry, or there is no base. *)
Definition welcome (w : world) (c : nat) (b g : option nat) : Prop :=
  b = None \/ exists x t y s, g = Some x /\ shape_of w x = Some t /\ deforms w c y s /\ alike s t.

(** The arguments of a call exist and have the right types.  A target is not given the geometry it has unless that
    geometry is in a library. *)
Definition proper (w : world) (o : op) : Prop :=
  match o with
  | NewGeometry _ _ | NewController _ | NewOther _ => True
  | CreateSkin c | CreateMorph c => exists k, control_of w c = Some k
  | OpSetBaseTarget c e => (exists b ts, is_morph w c b ts) /\ alive w e
  | OpAddTarget c g => (exists b ts, is_morph w c b ts) /\ geometry w g
  | OpSetGeometry c i g =>
      (exists b ts old, is_morph w c b ts /\ nth_error ts i = Some old /\
         (old = g -> forall x y, g = Some x -> ent w x = Some y -> listed y = true)) /\ geometry w g
  | OpSetTarget c e => is_skin w c /\ alive w e
  | OpSetTargetUri c e => is_skin w c /\ ent w e <> None
  | OpSetInfluenceCount c _ => is_skin w c
  | SetShape g _ => exists s, shape_of w g = Some s
  | Release e => ent w e <> None
  end.
(** A skin is not given a target that deforms the skin itself, unless the skin never had a target; a target by URI is
    given only to skins that never had one. *)
Definition forward (w : world) (o : op) : Prop :=
  match o with
  | OpSetTarget c e => (exists n, control_of w c = Some (Skin None None n)) \/ (forall x, e = Some x -> x <> c /\ ~ based_on w x c)
  | OpSetTargetUri c e => (exists n, control_of w c = Some (Skin None None n)) /\ e <> c /\ ~ based_on w e c
  | _ => True
  end.
(** The base of a controller is not changed while other controllers deform it, a geometry is not changed while it
    is used, the influences of a skin with a target are not set by hand, and no target is set by URI. *)
Definition settled (w : world) (o : op) : Prop :=
  match o with
  | OpSetBaseTarget c _ | OpSetTarget c _ => forall d, GetBaseTarget w d <> Some c
  | SetShape g _ => (forall d, GetBaseTarget w d <> Some g) /\ (forall d b ts, is_morph w d b ts -> ~ In (Some g) ts)
  | OpSetInfluenceCount c _ => GetBaseTarget w c = None
  | OpSetTargetUri _ _ => False
  | _ => True
  end.

(** Every operation of the history meets the condition in the state it is applied to. *)
Fixpoint good (ok : world -> op -> Prop) (w : world) (os : list op) : Prop :=
  match os with
  | [] => True
  | o :: os => ok w o /\ forall w', step w o = Some w' -> good ok w' os
  end.
