(** Mass, density and hollowness of a physics shape: the constructor, Clone, SetMass, SetDensity, GetMass and GetDensity of FCDPhysicsShape
    (FCollada/FCDocument/FCDPhysicsShape.cpp:27-38, 119-191), WritePhysicsShape (FColladaPlugins/FArchiveXML/FAXPhysicsExport.cpp:27-61) and
    LoadPhysicsShape (FAXPhysicsImport.cpp:245-364).  Numbers are finite rationals.  The volume that CalculateVolume gives for the loaded
    shape is a parameter; it is not 0.  The elements of the material, of the geometry and of the transforms are given; what is loaded from
    them is not modelled.  None is undefined behaviour. *)
From Coq Require Import String List ZArith QArith Bool.
From Verif Require Import TextModel StringModel XmlModel FloatModel DaeModel LampModel.
Import ListNotations.
Local Open Scope list_scope.

(** FCDPhysicsShape.h:52-65: mass and density are pointers that may be NULL; isDensityMoreAccurate. *)
Record body := Body { hollow : bool; mass : option Q; density : option Q; accurate : bool }.
(** FCDPhysicsShape.cpp:27-38. *)
Definition new_body : body := Body true None None false.
(** FCDPhysicsShape.cpp:161-167, 177-183. *)
Definition GetMass (b : body) : Q := match mass b with Some q => q | None => 0%Q end.
Definition GetDensity (b : body) : Q := match density b with Some q => q | None => 0%Q end.
(** FCDPhysicsShape.cpp:169-175, 185-191 and FCDPhysicsShape.h: the setters. *)
Definition SetMass (b : body) (q : Q) : body := Body (hollow b) (Some q) (density b) (accurate b).
Definition SetDensity (b : body) (q : Q) : body := Body (hollow b) (mass b) (Some q) (accurate b).
Definition SetHollow (b : body) (h : bool) : body := Body h (mass b) (density b) (accurate b).
Definition SetDensityMoreAccurate (b : body) (v : bool) : body := Body (hollow b) (mass b) (density b) v.
(** FCDPhysicsShape.cpp:119-125: Clone into [c], the part about these members. *)
Definition CloneInto (b c : body) : body :=
  let c := match mass b with Some q => SetMass c q | None => c end in
  let c := match density b with Some q => SetDensity c q | None => c end in
  SetHollow c (hollow b).

(** A float used as a condition (FAXPhysicsExport.cpp:34, 36). *)
Definition nonzero (q : Q) : bool := negb (Qeq_bool q 0).
(** FUXmlWriter.cpp:82-87: AddChild with a text. *)
Definition text_child (name : string) (t : list Z) : xml := Elem (tx name) [] (content (AddContent t)).
(** FAXPhysicsExport.cpp:31-37 and, for what follows, [rest]. *)
Definition shape_element (b : body) (tm td : list Z) (rest : list xml) : xml :=
  Elem (tx "shape") []
    (text_child "hollow" (if hollow b then tx "true" else tx "false") ::
     (if nonzero (GetMass b) && negb (accurate b) then [text_child "mass" tm] else []) ++
     (if nonzero (GetDensity b) then [text_child "density" td] else []) ++ rest).
(** FAXPhysicsExport.cpp:27-61, with the texts that FUStringConversion::ToString writes. *)
Definition WritePhysicsShape (eps : Q) (b : body) (rest : list xml) (n : xml) : Prop :=
  exists tm td, appends eps (Fin (GetMass b)) tm /\ appends eps (Fin (GetDensity b)) td /\ n = shape_element b tm td rest.

(** FUStringConversion.hpp:21-25. *)
Definition ToBoolean (t : list Z) : bool :=
  match t with [] => false | c :: _ => negb ((c =? 0)%Z || (c =? 48)%Z || (c =? 102)%Z || (c =? 70)%Z) end.
(** FAXPhysicsImport.cpp:257-274: one child. *)
Definition LoadChild (a : arith) (b : body) (c : xml) : option body :=
  let text := ReadNodeContentDirect c in
  if named c "hollow" then Some (SetHollow b (ToBoolean text))
  else if named c "mass" then match ToFloat a text with Some (q, _) => Some (SetDensityMoreAccurate (SetMass b q) false) | None => None end
  else if named c "density" then
    match ToFloat a text with
    | Some (q, _) => Some (let b := SetDensity b q in SetDensityMoreAccurate b (match mass b with None => true | Some _ => false end))
    | None => None
    end
  else Some b.
(** FAXPhysicsImport.cpp:346-360: what is not given is calculated with the volume. *)
Definition finish (volume : Q) (b : body) : body :=
  let b := match mass b, density b with None, None => SetDensityMoreAccurate (SetDensity b 1) true | _, _ => b end in
  match mass b, density b with
  | None, Some _ => SetMass b (GetDensity b * volume)
  | Some _, None => SetDensity b (GetMass b / volume)
  | _, _ => b
  end.
(** FAXPhysicsImport.cpp:245-364. *)
Definition LoadPhysicsShape (a : arith) (volume : Q) (b : body) (n : xml) : option body :=
  if named n "shape" then option_map (finish volume) (fold_option (LoadChild a) (children_of n) (Some b)) else Some b.
