(** Where the numbers of rigid constraints and of physics materials are in a document. *)
From Coq Require Import String List ZArith QArith.
From Verif Require Import DaeModel RigSpec JointModel.
Import ListNotations.
Local Open Scope list_scope.

(** [m] is reached from [n] by the first child of each name; or there is no such element. *)
Inductive at_path : list string -> xml -> xml -> Prop :=
| A_here n : at_path [] n n
| A_step k l n c m : first_child (children_of n) (is_elem k) c -> at_path l c m -> at_path (k :: l) n m.
Inductive off_path : list string -> xml -> Prop :=
| O_none k l n : Forall (fun d => ~ is_elem k d) (children_of n) -> off_path (k :: l) n
| O_step k l n c : first_child (children_of n) (is_elem k) c -> off_path l c -> off_path (k :: l) n.
(** The paths of COLLADA 1.4.1 below <technique_common>; a target value had another name in COLLADA 1.3. *)
Definition limit_path (f : limit) : list string :=
  match f with
  | SCTMin => ["limits"; "swing_cone_and_twist"; "min"] | SCTMax => ["limits"; "swing_cone_and_twist"; "max"]
  | LinearMin => ["limits"; "linear"; "min"] | LinearMax => ["limits"; "linear"; "max"]
  end%string.
Definition spring_path (f : spring) : list string :=
  match f with
  | AngularStiffness => ["spring"; "angular"; "stiffness"] | AngularDamping => ["spring"; "angular"; "damping"] | AngularTarget => ["spring"; "angular"; "target_value"]
  | LinearStiffness => ["spring"; "linear"; "stiffness"] | LinearDamping => ["spring"; "linear"; "damping"] | LinearTarget => ["spring"; "linear"; "target_value"]
  end%string.
Definition old_path (f : spring) : list string :=
  match f with AngularTarget => ["spring"; "angular"; "rest_length"] | LinearTarget => ["spring"; "linear"; "rest_length"] | _ => spring_path f end%string.
Definition friction_path (f : friction) : list string :=
  match f with Static => ["technique_common"; "static_friction"] | Dynamic => ["technique_common"; "dynamic_friction"] | Restitution => ["technique_common"; "restitution"] end%string.
(** The numbers are within the range of the format. *)
Definition finite_constraint (c : constraint) : Prop :=
  (forall f, exists x y z, limits c f = Some (x, y, z) /\ finite x /\ finite y /\ finite z) /\ forall f, finite (springs c f).
(** The elements after those that the writer adds itself. *)
Definition only_extra (l : list xml) : Prop := Forall (is_elem "extra") l.
Definition vector_remains (eps : Q) (v v' : option (Q * Q * Q)) : Prop :=
  exists x y z x' y' z', v = Some (x, y, z) /\ v' = Some (x', y', z') /\ remains eps x x' /\ remains eps y y' /\ remains eps z z'.
