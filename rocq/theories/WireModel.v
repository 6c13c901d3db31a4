(** Splines in COLLADA XML: FArchiveXML::WriteGeometrySpline, WriteNURBSSpline and WriteSpline
    (FColladaPlugins/FArchiveXML/FAXGeometryExport.cpp:312-380), the choice of the shape in LoadGeometry
    (FAXGeometryImport.cpp:209-235), LoadGeometrySpline, LoadSpline, LoadBezierSpline, LoadLinearSpline and LoadNURBSSpline
    (FAXGeometryImport.cpp:558-704), FCDGeometrySpline::SetType and AddSpline and the IsValid functions
    (FCDocument/FCDGeometrySpline.cpp:94-97, 173-181, 228-250, 286-315), ReadSource for points (FAXColladaParser.cpp:181-194) and
    ToVector3List (FUtils/FUStringConversion.hpp:525-538), on the XML tree of DaeModel.v and with the sources of RigModel.v.
    Numbers are finite rationals; the writers are relations because the digits printf chooses are.
    Not modelled: libxml2 itself, the entity around the shape, meshes, error messages (a warning is not fatal, as by default).
    None is undefined behaviour (a NULL pointer is used, or a text is left). *)
From Coq Require Import String List ZArith QArith Bool.
From Verif Require Import TextModel StringModel XmlModel EnumModel FloatModel DaeModel RigModel AnimModel CustomModel AssetModel.
Import ListNotations.
Local Open Scope nat_scope.
Local Open Scope list_scope.

(** FMVector3. *)
Definition point : Type := (Q * Q * Q)%type.
(** FCDGeometrySpline.h:38-52 and 186-191: a spline; weights, knots and degree are those of a NURBS.  [form]: FUDaeSplineForm. *)
Record wire := Wire { w_name : list Z; w_form : Z; w_cvs : list point; w_weights : list Q; w_knots : list Q; w_degree : Z }.
(** FCDGeometrySpline.h: the type of the splines (FUDaeSplineType) and the splines. *)
Record wires := Wires { kind : Z; curves : list wire }.
(** FUtils/FUDaeEnum.h:60-78: FUDaeSplineType and FUDaeSplineForm. *)
Definition LINEAR : Z := 0. Definition BEZIER : Z := 1. Definition NURBS : Z := 2. Definition UNKNOWN : Z := 3.
Definition OPEN : Z := 0. Definition CLOSED : Z := 1.
(** FCDGeometrySpline.h:68-72: IsClosed and SetClosed. *)
Definition IsClosed (w : wire) : bool := (w_form w =? CLOSED)%Z.
Definition form_of (closed : bool) : Z := if closed then CLOSED else OPEN.

(** *** Writing *)
(** FUtils/FUDaeEnum.cpp:57-74: FUDaeSplineType on texts. *)
Definition TypeToString (v : Z) : list Z := tx (ToString FUDaeSplineType v).
Definition TypeFromString (t : list Z) : Z := from_chain (chain FUDaeSplineType) (otherwise FUDaeSplineType) t.
(** FUStringConversion.hpp:271-275: the components of a point, in the order in which they are written. *)
Definition coordinates (p : point) : list Q := let '(x, y, z) := p in [x; y; z].
(** FAXColladaWriter.cpp:94-108 and 250-259: AddSourcePosition; [t] is the text of all components.  FUDaeEnum.cpp:23: XYZW. *)
Definition AddSourcePosition (id t : list Z) (n : nat) : xml :=
  AddSource id "float_array" t (n * 3) n 3 (Some [tx "X"; tx "Y"; tx "Z"; tx "W"]) (tx "float").
(** FUXmlWriter.h: AddAttribute of a boolean: the digit 1 or 0. *)
Definition flag_text (b : bool) : list Z := if b then tx "1" else tx "0".
(** FAXColladaWriter.cpp:20-46: AddExtraTechniqueChild in an element without <extra>. *)
Definition AddExtraTechniqueChild (l : list xml) : xml :=
  Elem (tx "extra") [] [Elem (tx "technique") [(tx "profile", tx "FCOLLADA")] l].
(** FAXGeometryExport.cpp:338-362, WriteNURBSSpline, and 364-380, WriteSpline; [cid], [wid] and [kid] are the ids of the sources
    and [tc], [tw] and [tk] are the texts of the numbers. *)
Definition spline_element (k : Z) (w : wire) (cid wid kid tc tw tk : list Z) : xml :=
  let n := List.length (w_cvs w) in
  let nurbs := (k =? NURBS)%Z in
  Elem (tx "spline") [(tx "closed", flag_text (IsClosed w))]
    (AddSourcePosition cid tc n ::
     (if nurbs then [AddSourceFloat wid tw (List.length (w_weights w)) 1 (Some [tx "WEIGHT"]);
                     AddSourceFloat kid tk (List.length (w_knots w)) 1 (Some [tx "KNOT"])] else []) ++
     [Elem (tx "control_vertices") []
        (AddInput cid (tx "POSITION") (-1) (-1) ++
         (if nurbs then AddInput wid (tx "WEIGHTS") (-1) (-1) ++ AddInput kid (tx "KNOTS") (-1) (-1) else []));
      AddExtraTechniqueChild
        (AddChild "type" (TypeToString k) :: (if nurbs then [AddChild "degree" (append_u32 (w_degree w))] else []))]).
(** FAXGeometryExport.cpp:322-323: the ids of the sources of the spline number i. *)
Definition spline_id (id : list Z) (what : string) (i : nat) : list Z := id ++ tx what ++ append_u64 (Z.of_nat i).
Definition WriteSpline (eps : Q) (id : list Z) (i : nat) (k : Z) (w : wire) (n : xml) : Prop :=
  exists tc tw tk, floats_text eps (flat_map coordinates (w_cvs w)) tc /\ floats_text eps (w_weights w) tw /\ floats_text eps (w_knots w) tk /\
    n = spline_element k w (spline_id id "-cvs-" i) (spline_id id "-weights-" i) (spline_id id "-knots-" i) tc tw tk.
(** FAXGeometryExport.cpp:312-336: WriteGeometrySpline; [id] is the id of the geometry, [i] the number of the next spline. *)
Inductive written_from (eps : Q) (id : list Z) (k : Z) : nat -> list wire -> list xml -> Prop :=
| W_nil : forall i, written_from eps id k i [] []
| W_cons : forall i w ws n l, WriteSpline eps id i k w n -> written_from eps id k (S i) ws l -> written_from eps id k i (w :: ws) (n :: l).
Definition WriteGeometrySpline (eps : Q) (id : list Z) (g : wires) (l : list xml) : Prop := written_from eps id (kind g) 0 (curves g) l.

(** *** Reading *)
(** FUStringConversion.hpp:531-536: both loops read points until the text ends; each takes a character or more. *)
Fixpoint points (a : arith) (fuel : nat) (s : list Z) : option (list point) :=
  match s, fuel with
  | [], _ => Some []
  | _, O => None
  | _, S f =>
      match ToVector3 a s with
      | Some (Some p, s1) => option_map (cons p) (points a f s1)
      | _ => None
      end
  end.
(** FUStringConversion.hpp:525-538: ToVector3List; the old contents of the list are replaced. *)
Definition ToVector3List (a : arith) (s : list Z) : option (list point) := points a (List.length s) s.
(** FAXColladaParser.cpp:181-194: ReadSource for points. *)
Definition ReadSourcePoints (a : arith) (n : xml) : option (list point) := ToVector3List a (RigModel.content_of (FindChildByType n "float_array")).
(** FUStringConversion.hpp:22-25: ToBoolean. *)
Definition ToBoolean (t : list Z) : bool :=
  match t with [] => false | c :: _ => negb (c =? 48)%Z && negb (c =? 102)%Z && negb (c =? 70)%Z end.
(** FAXGeometryImport.cpp:619-633: the inputs of LoadSpline; the boolean is false when the function returns false. *)
Fixpoint read_cvs (a : arith) (root : xml) (inputs : list xml) (cvs : list point) : option (bool * list point) :=
  match inputs with
  | [] => Some (true, cvs)
  | i :: r =>
      match FindChildById root (ReadNodeProperty i "source") with
      | None => Some (false, cvs)
      | Some s =>
          if text_eq (ReadNodeProperty i "semantic") (tx "POSITION") then
            match ReadSourcePoints a s with Some l => read_cvs a root r l | None => None end
          else read_cvs a root r cvs
      end
  end.
(** FUXmlParser.cpp: FindChildrenByType(controlVerticesNode, "input"). *)
Definition inputs_of (n : xml) : list xml := filter (fun c => named c "input") (children_of n).
(** FAXGeometryImport.cpp:603-637: LoadSpline on a new spline: the result and the control vertices. *)
Definition LoadSpline (a : arith) (n : xml) : option (bool * list point) :=
  match FindChildByType n "control_vertices" with
  | None => Some (false, [])
  | Some c => read_cvs a n (inputs_of c) []
  end.
(** FAXGeometryImport.cpp:681-698: the inputs of LoadNURBSSpline; the boolean is false when the loop is left early.  The first
    character of the source is dropped (LoadSpline made sure that there is one). *)
Fixpoint read_nurbs (a : arith) (root : xml) (inputs : list xml) (ws ks : list Q) : option (bool * (list Q * list Q)) :=
  match inputs with
  | [] => Some (true, (ws, ks))
  | i :: r =>
      match FindChildById root (tl (ReadNodeProperty i "source")) with
      | None => Some (false, (ws, ks))
      | Some s =>
          let semantic := ReadNodeProperty i "semantic" in
          if text_eq semantic (tx "KNOTS") then
            match ReadSourceFloats a (Some s) ks with Some l => read_nurbs a root r ws l | None => None end
          else if text_eq semantic (tx "WEIGHTS") then
            match ReadSourceFloats a (Some s) ws with Some l => read_nurbs a root r l ks | None => None end
          else read_nurbs a root r ws ks
      end
  end.
(** FCDGeometrySpline.cpp:94-97, 173-181 and 228-250: IsValid; the subtraction is one of size_t. *)
Definition IsValid (k : Z) (w : wire) : bool :=
  let n := List.length (w_cvs w) in
  if (k =? LINEAR)%Z then 2 <=? n
  else if (k =? BEZIER)%Z then true
  else negb (n =? 0) && (n =? List.length (w_weights w)) &&
       (Z.of_nat n =? (Z.of_nat (List.length (w_knots w)) - w_degree w - 1) mod 18446744073709551616)%Z.
(** FAXGeometryImport.cpp:571-577: the technique with the type, and the type. *)
Definition technique_of (n : xml) : option xml := match FindChildByType n "extra" with Some e => FindTechnique e "FCOLLADA" | None => None end.
Definition type_of (n : xml) : option Z := option_map (fun t => TypeFromString (ReadNodeContentFull t)) (child_of (technique_of n) "type").
(** FAXGeometryImport.cpp:668-670: the degree. *)
Definition degree_of (n : xml) : Z :=
  match child_of (technique_of n) "degree" with Some d => fst (ToUInt32 (ReadNodeContentDirect d)) | None => 3%Z end.
(** FAXGeometryImport.cpp:639-704: LoadBezierSpline, LoadLinearSpline and LoadNURBSSpline on a new spline of the type [k]: the
    result and the spline.  (LoadNURBSSpline is only called for an element with the technique and with <control_vertices>.) *)
Definition LoadTyped (a : arith) (k : Z) (n : xml) : option (bool * wire) :=
  let form := form_of (ToBoolean (ReadNodeProperty n "closed")) in
  match LoadSpline a n with
  | None => None
  | Some (false, cvs) => Some (false, Wire [] form cvs [] [] 0)
  | Some (true, cvs) =>
      if (k =? NURBS)%Z then
        match FindChildByType n "control_vertices" with
        | None => Some (true, Wire [] form cvs [] [] (degree_of n))
        | Some c =>
            match read_nurbs a n (inputs_of c) [] [] with
            | None => None
            | Some (complete, (ws, ks)) =>
                let w := Wire [] form cvs ws ks (degree_of n) in
                Some (if complete then IsValid k w else true, w)
            end
        end
      else let w := Wire [] form cvs [] [] 0 in Some (IsValid k w, w)
  end.
(** FCDGeometrySpline.cpp:294-315: AddSpline makes splines of these types only; otherwise the pointer is NULL. *)
Definition known (k : Z) : bool := ((k =? LINEAR) || (k =? BEZIER) || (k =? NURBS))%Z.
(** FAXGeometryImport.cpp:558-601: LoadGeometrySpline; [l]: the node and its siblings.  SetType releases all splines made so far.
    A spline that cannot be loaded is released. *)
Fixpoint LoadGeometrySpline (a : arith) (status : bool) (g : wires) (l : list xml) : option (bool * wires) :=
  match l with
  | [] => Some (status, g)
  | n :: r =>
      if named n "spline" then
        match type_of n with
        | None => LoadGeometrySpline a status g r
        | Some k =>
            if known k then
              match LoadTyped a k n with
              | None => None
              | Some (true, w) => LoadGeometrySpline a status (Wires k [w]) r
              | Some (false, _) => LoadGeometrySpline a false (Wires k []) r
              end
            else None
        end
      else LoadGeometrySpline a status g r
  end.
(** FCDGeometrySpline.cpp:259-264: a new FCDGeometrySpline. *)
Definition no_wires : wires := Wires UNKNOWN [].
(** FAXGeometryImport.cpp:209-235: the first element named mesh, convex_mesh or spline decides about the shape of the geometry.
    Result: the status and the splines, if it is a spline.  The import of a mesh is not modelled here: the status is true. *)
Fixpoint LoadGeometry (a : arith) (l : list xml) : option (bool * option wires) :=
  match l with
  | [] => Some (true, None)
  | n :: r =>
      if named n "mesh" || named n "convex_mesh" then Some (true, None)
      else if named n "spline" then option_map (fun x => (fst x, Some (snd x))) (LoadGeometrySpline a true no_wires l)
      else LoadGeometry a r
  end.
