(** The analytical shapes of physics: the constructors, Clone and CalculateVolume of FCDPASBox, FCDPASPlane, FCDPASSphere, FCDPASCylinder,
    FCDPASCapsule, FCDPASTaperedCapsule and FCDPASTaperedCylinder (FCollada/FCDocument/FCDPhysicsAnalyticalGeometry.cpp:40-275), FMVolume
    (FCollada/FMath/FMVolume.cpp:12-56), WritePASBox ... WritePASSphere (FColladaPlugins/FArchiveXML/FAXPhysicsExport.cpp:74-146) and
    LoadPASBox ... LoadPASSphere (FAXPhysicsImport.cpp:371-596), on the XML tree of DaeModel.v and the texts of FloatModel.v.  Numbers in
    documents are finite rationals; volumes are in exact real arithmetic with the real number pi for FMath::Pi.
    Not modelled: the entity that a shape is (id, name, extra tree), error messages, Clone into an object of another type.  None is
    undefined behaviour. *)
From Coq Require Import String List ZArith QArith Bool Reals.
From Verif Require Import TextModel StringModel XmlModel FloatModel DaeModel LampModel MatrixModel.
Import ListNotations.
Local Open Scope list_scope.

(** FCDPhysicsAnalyticalGeometry.h:85-375: half extents; normal and d; radius; radius and height; the same with radius2. *)
Inductive shape (A : Type) : Type :=
| Box (x y z : A)
| Plane (x y z d : A)
| Sphere (r : A)
| Cylinder (rx ry h : A)
| Capsule (rx ry h : A)
| TaperedCylinder (rx ry h rx2 ry2 : A)
| TaperedCapsule (rx ry h rx2 ry2 : A).
Arguments Box {A}. Arguments Plane {A}. Arguments Sphere {A}. Arguments Cylinder {A}. Arguments Capsule {A}.
Arguments TaperedCylinder {A}. Arguments TaperedCapsule {A}.

(** FCDPhysicsAnalyticalGeometry.cpp:42-46, 74-77, 105-108, 136-141, 170-175, 204-208, 244-248 and 279-292, the constructors: a new shape of
    the type of [s]. *)
Definition new_shape {A} (zero : A) (s : shape A) : shape A :=
  match s with
  | Box _ _ _ => Box zero zero zero
  | Plane _ _ _ _ => Plane zero zero zero zero
  | Sphere _ => Sphere zero
  | Cylinder _ _ _ => Cylinder zero zero zero
  | Capsule _ _ _ => Capsule zero zero zero
  | TaperedCylinder _ _ _ _ _ => TaperedCylinder zero zero zero zero zero
  | TaperedCapsule _ _ _ _ _ => TaperedCapsule zero zero zero zero zero
  end.
(** FCDPhysicsAnalyticalGeometry.cpp:48-61, 79-92, 110-123, 143-157, 177-191, 210-223, 250-263: Clone into [c], which is of the same type: the
    plane does not copy d; the tapered shapes call the Clone of the parent. *)
Definition clone_shape {A} (s c : shape A) : shape A :=
  match s, c with
  | Box x y z, Box _ _ _ => Box x y z
  | Plane x y z _, Plane _ _ _ d => Plane x y z d
  | Sphere r, Sphere _ => Sphere r
  | Cylinder rx ry h, Cylinder _ _ _ => Cylinder rx ry h
  | Capsule rx ry h, Capsule _ _ _ => Capsule rx ry h
  | TaperedCylinder rx ry h rx2 ry2, TaperedCylinder _ _ _ _ _ => TaperedCylinder rx ry h rx2 ry2
  | TaperedCapsule rx ry h rx2 ry2, TaperedCapsule _ _ _ _ _ => TaperedCapsule rx ry h rx2 ry2
  | _, _ => c
  end.
(** Clone(NULL). *)
Definition Clone {A} (zero : A) (s : shape A) : shape A := clone_shape s (new_shape zero s).

(** *** Volumes *)
Section Volumes.
Local Open Scope R_scope.
(** FMVolume.cpp:14-17. *)
Definition CalculateBoxVolume (x y z : R) : R := (x * 2) * (y * 2) * (z * 2).
(** FMVolume.cpp:24-27. *)
Definition CalculateEllipsoidVolume (r1 r2 r3 : R) : R := (4 * PI * r1 * r2 * r3) / 3.
(** FMVolume.cpp:19-22. *)
Definition CalculateSphereVolume (r : R) : R := CalculateEllipsoidVolume r r r.
(** FMVolume.cpp:29-32. *)
Definition CalculateEllipsoidEndVolume (rx ry : R) : R := CalculateEllipsoidVolume rx ry (Rmax rx ry).
(** FMVolume.cpp:34-37. *)
Definition CalculateCylinderVolume (rx ry h : R) : R := PI * rx * ry * h.
(** FMVolume.cpp:39-43. *)
Definition CalculateCapsuleVolume (rx ry h : R) : R := CalculateCylinderVolume rx ry h + CalculateEllipsoidEndVolume rx ry.
(** FMVolume.cpp:45-48. *)
Definition CalculateConeVolume (rx ry h : R) : R := PI * rx * ry * h / 3.
(** FMVolume.cpp:50-55. *)
Definition CalculateTaperedCylinderVolume (rx ry rx2 ry2 h : R) : R :=
  (2 * rx * ry + rx * ry2 + rx2 * ry + 2 * rx2 * ry2) * PI * h / 6.
(** FCDPhysicsAnalyticalGeometry.cpp:63-66, 94-97, 125-128, 159-162, 193-196, 225-236, 265-273; FMVector2.h:140. *)
Definition CalculateVolume (s : shape R) : R :=
  match s with
  | Box x y z => CalculateBoxVolume x y z
  | Plane _ _ _ _ => 1
  | Sphere r => CalculateSphereVolume r
  | Cylinder rx ry h => CalculateCylinderVolume rx ry h
  | Capsule rx ry h => CalculateCapsuleVolume rx ry h
  | TaperedCylinder rx ry h rx2 ry2 =>
      if (IsEquivalent rx rx2 && IsEquivalent ry ry2)%bool then CalculateCylinderVolume rx ry h
      else CalculateTaperedCylinderVolume rx ry rx2 ry2 h
  | TaperedCapsule rx ry h rx2 ry2 =>
      if (IsEquivalent rx rx2 && IsEquivalent ry ry2)%bool then CalculateCapsuleVolume rx ry h
      else CalculateTaperedCylinderVolume rx ry rx2 ry2 h + CalculateEllipsoidEndVolume rx ry / 2 + CalculateEllipsoidEndVolume rx2 ry2 / 2
  end.
End Volumes.

(** *** Documents *)
(** FUtils/FUDaeSyntax.h:315-322. *)
Definition tag {A} (s : shape A) : string :=
  match s with
  | Box _ _ _ => "box" | Plane _ _ _ _ => "plane" | Sphere _ => "sphere" | Cylinder _ _ _ => "cylinder" | Capsule _ _ _ => "capsule"
  | TaperedCylinder _ _ _ _ _ => "tapered_cylinder" | TaperedCapsule _ _ _ _ _ => "tapered_capsule"
  end.
(** FAXPhysicsExport.cpp:74-146: the elements and their numbers in the order in which they are written, with whether they are added as one
    number instead of a text; the vector of a plane starts with its w. *)
Definition fields (s : shape Q) : list (string * list Q * bool) :=
  match s with
  | Box x y z => [("half_extents", [x; y; z], false)]
  | Plane x y z d => let '(vx, vy, vz, vw) := (y, z, d, x) in [("equation", [vx; vy; vz; vw], false)]
  | Sphere r => [("radius", [r], true)]
  | Cylinder rx ry h | Capsule rx ry h => [("height", [h], true); ("radius", [rx; ry], false)]
  | TaperedCylinder rx ry h rx2 ry2 | TaperedCapsule rx ry h rx2 ry2 =>
      [("height", [h], true); ("radius1", [rx; ry], false); ("radius2", [rx2; ry2], false)]
  end%string.
Definition field_element (f : string * list Q * bool) (t : list Z) : xml :=
  let '(name, _, number) := f in Elem (tx name) [] (content (if number then t else AddContent t)).
(** FAXPhysicsExport.cpp:74-146, with the texts that FUStringConversion::ToString writes. *)
Definition WritePAS (eps : Q) (s : shape Q) (n : xml) : Prop :=
  exists ts, Forall2 (fun f t => ToString_vector eps (map Fin (snd (fst f))) t) (fields s) ts /\
    n = Elem (tx (tag s)) [] (map (fun p => field_element (fst p) (snd p)) (combine (fields s) ts)).
(** FAXPhysicsImport.cpp:383-395, 412-427, 444-466, 483-498, 515-537, 554-567, 584-592: one child, by its name. *)
Definition LoadField (a : arith) (s : shape Q) (c : xml) : option (shape Q) :=
  let text := ReadNodeContentDirect c in
  match s with
  | Box _ _ _ =>
      if named c "half_extents" then match ToFloats a 3 text with Some ([x; y; z], _) => Some (Box x y z) | _ => None end else Some s
  | Plane _ _ _ _ =>
      if named c "equation" then match ToFloats a 4 text with Some ([x; y; z; d], _) => Some (Plane x y z d) | _ => None end else Some s
  | Sphere _ => if named c "radius" then match ToFloats a 1 text with Some ([r], _) => Some (Sphere r) | _ => None end else Some s
  | Cylinder rx ry h =>
      if named c "height" then match ToFloats a 1 text with Some ([h], _) => Some (Cylinder rx ry h) | _ => None end
      else if named c "radius" then match ToFloats a 2 text with Some ([x; y], _) => Some (Cylinder x y h) | _ => None end else Some s
  | Capsule rx ry h =>
      if named c "height" then match ToFloats a 1 text with Some ([h], _) => Some (Capsule rx ry h) | _ => None end
      else if named c "radius" then match ToFloats a 2 text with Some ([x; y], _) => Some (Capsule x y h) | _ => None end else Some s
  | TaperedCylinder rx ry h rx2 ry2 =>
      if named c "height" then match ToFloats a 1 text with Some ([h], _) => Some (TaperedCylinder rx ry h rx2 ry2) | _ => None end
      else if named c "radius1" then match ToFloats a 2 text with Some ([x; y], _) => Some (TaperedCylinder x y h rx2 ry2) | _ => None end
      else if named c "radius2" then match ToFloats a 2 text with Some ([x; y], _) => Some (TaperedCylinder rx ry h x y) | _ => None end
      else Some s
  | TaperedCapsule rx ry h rx2 ry2 =>
      if named c "height" then match ToFloats a 1 text with Some ([h], _) => Some (TaperedCapsule rx ry h rx2 ry2) | _ => None end
      else if named c "radius1" then match ToFloats a 2 text with Some ([x; y], _) => Some (TaperedCapsule x y h rx2 ry2) | _ => None end
      else if named c "radius2" then match ToFloats a 2 text with Some ([x; y], _) => Some (TaperedCapsule rx ry h x y) | _ => None end
      else Some s
  end.
(** FAXPhysicsImport.cpp:371-596: into the shape [s]; an element of another name is left alone. *)
Definition LoadPAS (a : arith) (s : shape Q) (n : xml) : option (shape Q) :=
  if named n (tag s) then fold_option (LoadField a) (children_of n) (Some s) else Some s.
