(** Limits and springs of rigid constraints and the numbers of physics materials in documents: the constructor of FCDPhysicsRigidConstraint
    (FCollada/FCDocument/FCDPhysicsRigidConstraint.cpp:25-40), WritePhysicsRigidConstraint and LoadPhysicsRigidConstraint
    (FColladaPlugins/FArchiveXML/FAXPhysicsExport.cpp:199-260, FAXPhysicsImport.cpp:709-871), the constructor of FCDPhysicsMaterial
    (FCDPhysicsMaterial.cpp:16-21), WritePhysicsMaterial and LoadPhysicsMaterial (FAXPhysicsExport.cpp:148-160, FAXPhysicsImport.cpp:598-640)
    and the material that a shape owns (FAXPhysicsExport.cpp:39-43, FAXPhysicsImport.cpp:275-279).
    Numbers are finite rationals.  The elements of the attachments, of the two flags and of the extra tree are given; what is loaded from
    them, the entity itself and animations are not modelled.  None is undefined behaviour; a vector that is None is uninitialised. *)
From Coq Require Import String List ZArith QArith Bool.
From Verif Require Import TextModel StringModel XmlModel FloatModel DaeModel RigModel LampModel.
Import ListNotations.
Local Open Scope list_scope.

(** *** Rigid constraints *)
(** FCDPhysicsRigidConstraint.h: limitsSCTMin, limitsSCTMax, limitsLinearMin, limitsLinearMax. *)
Inductive limit := SCTMin | SCTMax | LinearMin | LinearMax.
(** FCDPhysicsRigidConstraint.h: springAngularStiffness ... springLinearTargetValue. *)
Inductive spring := AngularStiffness | AngularDamping | AngularTarget | LinearStiffness | LinearDamping | LinearTarget.
(** FCDPhysicsRigidConstraint.h: the limits and the springs of a constraint. *)
Record constraint := Constraint { limits : limit -> option (Q * Q * Q); springs : spring -> Q }.
(** FCDPhysicsRigidConstraint.cpp:30-39. *)
Definition new_constraint : constraint :=
  Constraint (fun _ => Some (0, 0, 0)%Q) (fun f => match f with AngularStiffness | LinearStiffness => 1 | _ => 0 end)%Q.
Scheme Equality for limit.
Scheme Equality for spring.
(** FCDPhysicsRigidConstraint.h: SetLimitsSCTMin ... SetLimitsLinearMax. *)
Definition set_limit (c : constraint) (f : limit) (v : option (Q * Q * Q)) : constraint :=
  Constraint (fun g => if limit_beq g f then v else limits c g) (springs c).
(** FCDPhysicsRigidConstraint.h: SetSpringAngularStiffness ... SetSpringLinearTargetValue. *)
Definition set_spring (c : constraint) (f : spring) (q : Q) : constraint :=
  Constraint (limits c) (fun g => if spring_beq g f then q else springs c g).

(** FUXmlWriter.h:81: AddChild with a number or vector. *)
Definition number_child (name : string) (t : list Z) : xml := Elem (tx name) [] (content t).
(** FAXPhysicsExport.cpp:236-244. *)
Definition limits_element (lt : limit -> list Z) : xml :=
  Elem (tx "limits") []
    [Elem (tx "swing_cone_and_twist") [] [number_child "min" (lt SCTMin); number_child "max" (lt SCTMax)];
     Elem (tx "linear") [] [number_child "min" (lt LinearMin); number_child "max" (lt LinearMax)]].
(** FAXPhysicsExport.cpp:246-255. *)
Definition spring_element (st : spring -> list Z) : xml :=
  Elem (tx "spring") []
    [Elem (tx "angular") [] [number_child "stiffness" (st AngularStiffness); number_child "damping" (st AngularDamping); number_child "target_value" (st AngularTarget)];
     Elem (tx "linear") [] [number_child "stiffness" (st LinearStiffness); number_child "damping" (st LinearDamping); number_child "target_value" (st LinearTarget)]].
(** FAXPhysicsExport.cpp:199-260: limits and springs are both put into baseNode, the <technique_common>; [attrs] are the attributes of the
    entity, [r] and [t] what is in the two attachments, [e] and [i] what is in <enabled> and <interpenetrate>, [extra] the extra elements. *)
Definition constraint_element (attrs : list (list Z * list Z)) (r t : list (list Z * list Z) * list xml) (e i extra : list xml) (lt : limit -> list Z) (st : spring -> list Z) : xml :=
  Elem (tx "rigid_constraint") attrs
    ([Elem (tx "ref_attachment") (fst r) (snd r); Elem (tx "attachment") (fst t) (snd t);
      Elem (tx "technique_common") [] [Elem (tx "enabled") [] e; Elem (tx "interpenetrate") [] i; limits_element lt; spring_element st]] ++ extra).
(** FAXPhysicsExport.cpp:199-260, with the texts that FUStringBuilder::append writes. *)
Definition WritePhysicsRigidConstraint (eps : Q) (c : constraint) (attrs : list (list Z * list Z)) (r t : list (list Z * list Z) * list xml) (e i extra : list xml) (n : xml) : Prop :=
  exists lt st, (forall f, exists x y z, limits c f = Some (x, y, z) /\ ToString_vector eps (map Fin [x; y; z]) (lt f)) /\
    (forall f, appends eps (Fin (springs c f)) (st f)) /\ n = constraint_element attrs r t e i extra lt st.

(** FAXPhysicsImport.cpp:803-839: the element of a limit. *)
Definition limit_node (technique : xml) (f : limit) : option xml :=
  let limitsNode := FindChildByType technique "limits" in
  match f with
  | LinearMin => child_of (child_of limitsNode "linear") "min"
  | LinearMax => child_of (child_of limitsNode "linear") "max"
  | SCTMin => child_of (child_of limitsNode "swing_cone_and_twist") "min"
  | SCTMax => child_of (child_of limitsNode "swing_cone_and_twist") "max"
  end.
(** FAXPhysicsImport.cpp:810-814, 816-820, 827-831, 833-837: one limit. *)
Definition load_limit (a : arith) (technique : xml) (c : constraint) (f : limit) : option constraint :=
  match limit_node technique f with
  | Some n => match ToVector3 a (ReadNodeContentDirect n) with Some (v, _) => Some (set_limit c f v) | None => None end
  | None => Some c
  end.
(** FAXPhysicsImport.cpp:841-867: the element of a number of a spring; <spring> is looked for in the element of the constraint. *)
Definition spring_node (n : xml) (f : spring) : option xml :=
  let spring := FindChildByType n "spring" in
  let target s := match child_of s "target_value" with Some p => Some p | None => child_of s "rest_length" end in
  match f with
  | LinearDamping => child_of (child_of spring "linear") "damping"
  | LinearStiffness => child_of (child_of spring "linear") "stiffness"
  | LinearTarget => target (child_of spring "linear")
  | AngularDamping => child_of (child_of spring "angular") "damping"
  | AngularStiffness => child_of (child_of spring "angular") "stiffness"
  | AngularTarget => target (child_of spring "angular")
  end.
(** FAXPhysicsImport.cpp:848-853, 860-865: one number of a spring. *)
Definition load_spring (a : arith) (n : xml) (c : constraint) (f : spring) : option constraint :=
  match spring_node n f with
  | Some p => match ToFloat a (ReadNodeContentDirect p) with Some (q, _) => Some (set_spring c f q) | None => None end
  | None => Some c
  end.
(** FAXPhysicsImport.cpp:709-871: into the constraint [c]; without <technique_common> nothing is read. *)
Definition LoadPhysicsRigidConstraint (a : arith) (c : constraint) (n : xml) : option constraint :=
  if named n "rigid_constraint" then
    match FindChildByType n "technique_common" with
    | None => Some c
    | Some technique =>
        match fold_option (load_limit a technique) [LinearMin; LinearMax; SCTMin; SCTMax] (Some c) with
        | None => None
        | Some c => fold_option (load_spring a n) [LinearDamping; LinearStiffness; LinearTarget; AngularDamping; AngularStiffness; AngularTarget] (Some c)
        end
    end
  else Some c.

(** *** Materials *)
(** FCDPhysicsMaterial.h: staticFriction, dynamicFriction, restitution. *)
Inductive friction := Static | Dynamic | Restitution.
Scheme Equality for friction.
(** FCDPhysicsMaterial.cpp:16-21. *)
Definition new_material : friction -> Q := fun _ => 0%Q.
(** FUtils/FUDaeSyntax.h:207-209. *)
Definition friction_name (f : friction) : string := match f with Static => "static_friction" | Dynamic => "dynamic_friction" | Restitution => "restitution" end.
(** FAXPhysicsExport.cpp:152-158. *)
Definition material_element (attrs : list (list Z * list Z)) (extra : list xml) (ft : friction -> list Z) : xml :=
  Elem (tx "physics_material") attrs
    (Elem (tx "technique_common") [] [number_child "dynamic_friction" (ft Dynamic); number_child "restitution" (ft Restitution); number_child "static_friction" (ft Static)] :: extra).
(** FAXPhysicsExport.cpp:148-160. *)
Definition WritePhysicsMaterial (eps : Q) (m : friction -> Q) (attrs : list (list Z * list Z)) (extra : list xml) (n : xml) : Prop :=
  exists ft, (forall f, appends eps (Fin (m f)) (ft f)) /\ n = material_element attrs extra ft.
(** FAXPhysicsImport.cpp:617-636: one number; commonTechniqueNode may be NULL. *)
Definition load_friction (a : arith) (technique : option xml) (m : friction -> Q) (f : friction) : option (friction -> Q) :=
  match child_of technique (friction_name f) with
  | Some n => match ToFloat a (ReadNodeContentDirect n) with Some (q, _) => Some (fun g => if friction_beq g f then q else m g) | None => None end
  | None => Some m
  end.
(** FAXPhysicsImport.cpp:598-640. *)
Definition LoadPhysicsMaterial (a : arith) (m : friction -> Q) (n : xml) : option (friction -> Q) :=
  if named n "physics_material" then fold_option (load_friction a (FindChildByType n "technique_common")) [Static; Dynamic; Restitution] (Some m) else Some m.
(** FAXPhysicsExport.cpp:39-43: the material that a shape owns is written into an element of the same name. *)
Definition WriteShapeMaterial (eps : Q) (m : friction -> Q) (attrs : list (list Z * list Z)) (extra : list xml) (n : xml) : Prop :=
  exists inner, WritePhysicsMaterial eps m attrs extra inner /\ n = Elem (tx "physics_material") [] [inner].
(** FAXPhysicsImport.cpp:275-279. *)
Definition LoadShapeMaterial (a : arith) (n : xml) : option (friction -> Q) := LoadPhysicsMaterial a new_material n.
