(** What the elements of a shape in a document mean, and what a volume is. *)
From Coq Require Import String List QArith Reals.
From Verif Require Import DaeModel DaeSpec FloatSpec RigSpec SolidModel.
Import ListNotations.
Local Open Scope list_scope.

(** The name of the element of a shape in COLLADA 1.4.1. *)
Definition collada_name {A} (s : shape A) : string :=
  match s with
  | Box _ _ _ => "box" | Plane _ _ _ _ => "plane" | Sphere _ => "sphere" | Cylinder _ _ _ => "cylinder" | Capsule _ _ _ => "capsule"
  | TaperedCylinder _ _ _ _ _ => "tapered_cylinder" | TaperedCapsule _ _ _ _ _ => "tapered_capsule"
  end.
(** The numbers that the element of a name gives for a shape (COLLADA 1.4.1: the equation of a plane is a, b, c and d of
    ax + by + cz + d = 0); None if the shape has no such element. *)
Definition part_of {A} (s : shape A) (name : string) : option (list A) :=
  match s with
  | Box x y z => if string_dec name "half_extents" then Some [x; y; z] else None
  | Plane x y z d => if string_dec name "equation" then Some [x; y; z; d] else None
  | Sphere r => if string_dec name "radius" then Some [r] else None
  | Cylinder rx ry h | Capsule rx ry h => if string_dec name "height" then Some [h] else if string_dec name "radius" then Some [rx; ry] else None
  | TaperedCylinder rx ry h rx2 ry2 | TaperedCapsule rx ry h rx2 ry2 =>
      if string_dec name "height" then Some [h] else if string_dec name "radius1" then Some [rx; ry]
      else if string_dec name "radius2" then Some [rx2; ry2] else None
  end.
Inductive same_kind {A B} : shape A -> shape B -> Prop :=
| K_box x y z x' y' z' : same_kind (Box x y z) (Box x' y' z')
| K_plane x y z d x' y' z' d' : same_kind (Plane x y z d) (Plane x' y' z' d')
| K_sphere r r' : same_kind (Sphere r) (Sphere r')
| K_cylinder x y h x' y' h' : same_kind (Cylinder x y h) (Cylinder x' y' h')
| K_capsule x y h x' y' h' : same_kind (Capsule x y h) (Capsule x' y' h')
| K_tcylinder x y h u v x' y' h' u' v' : same_kind (TaperedCylinder x y h u v) (TaperedCylinder x' y' h' u' v')
| K_tcapsule x y h u v x' y' h' u' v' : same_kind (TaperedCapsule x y h u v) (TaperedCapsule x' y' h' u' v').
(** All numbers of the shape are within the range of the format. *)
Definition finite_shape (s : shape Q) : Prop := forall name l, part_of s name = Some l -> Forall finite l.
Definition parts_related (R : Q -> Q -> Prop) (s s' : shape Q) : Prop :=
  same_kind s s' /\ forall name l, part_of s name = Some l -> exists l', part_of s' name = Some l' /\ Forall2 R l l'.

(** *** Volumes *)
Local Open Scope R_scope.
(** The volume of a body whose section at x has the area A x, between a and b: the difference of an antiderivative (Cavalieri). *)
Definition volume_of_sections (A : R -> R) (a b V : R) : Prop :=
  exists F, (forall x, derivable_pt_lim F x (A x)) /\ V = F b - F a.
Definition ellipse (rx ry : R) : R := PI * rx * ry.
(** An ellipsoid with the third radius rz, along z; a body between two ellipses whose radii change linearly with the height. *)
Definition ellipsoid_section (rx ry rz x : R) : R := ellipse rx ry * (1 - (x / rz) * (x / rz)).
Definition tapered_section (rx ry rx2 ry2 h x : R) : R := ellipse (rx + (rx2 - rx) * (x / h)) (ry + (ry2 - ry) * (x / h)).
(** The volume of a shape: a capsule is a cylinder with half an ellipsoid at each end, whose third radius is the larger of the two. *)
Definition end_volume (rx ry V : R) : Prop := volume_of_sections (ellipsoid_section rx ry (Rmax rx ry)) 0 (Rmax rx ry) V.
Definition solid_volume (s : shape R) (V : R) : Prop :=
  match s with
  | Box x y z => volume_of_sections (fun _ => (2 * x) * (2 * y)) (- z) z V
  | Plane _ _ _ _ => False
  | Sphere r => volume_of_sections (fun x => PI * (r * r - x * x)) (- r) r V
  | Cylinder rx ry h => volume_of_sections (fun _ => ellipse rx ry) 0 h V
  | Capsule rx ry h => exists V1 V2, volume_of_sections (fun _ => ellipse rx ry) 0 h V1 /\ end_volume rx ry V2 /\ V = V2 + V1 + V2
  | TaperedCylinder rx ry h rx2 ry2 => volume_of_sections (tapered_section rx ry rx2 ry2 h) 0 h V
  | TaperedCapsule rx ry h rx2 ry2 =>
      exists V1 V2 V3, volume_of_sections (tapered_section rx ry rx2 ry2 h) 0 h V1 /\ end_volume rx ry V2 /\ end_volume rx2 ry2 V3 /\ V = V2 + V1 + V3
  end.
(** The radii and the height are positive. *)
Definition solid (s : shape R) : Prop :=
  match s with
  | Box x y z => 0 < x /\ 0 < y /\ 0 < z
  | Plane _ _ _ _ => False
  | Sphere r => 0 < r
  | Cylinder rx ry h | Capsule rx ry h => 0 < rx /\ 0 < ry /\ 0 < h
  | TaperedCylinder rx ry h rx2 ry2 | TaperedCapsule rx ry h rx2 ry2 => 0 < rx /\ 0 < ry /\ 0 < h /\ 0 < rx2 /\ 0 < ry2
  end.
(** The radii of a tapered shape are the same or differ by at least the tolerance of the code (about 0.0001) in x or y. *)
Definition clearly_tapered (s : shape R) : Prop :=
  match s with
  | TaperedCylinder rx ry _ rx2 ry2 | TaperedCapsule rx ry _ rx2 ry2 =>
      (rx = rx2 /\ ry = ry2) \/ 1 / 9999 <= Rabs (rx - rx2) \/ 1 / 9999 <= Rabs (ry - ry2)
  | _ => True
  end.
