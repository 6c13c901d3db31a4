(** The conversion of a document to another up-axis and another unit of length: FCDocumentTools::StandardizeUpAxisAndLength
    (FCDocument/FCDocumentTools.cpp:43-257, 385-707) with the search for the asset in force (FCDEntity.cpp:104-108,
    FCDSceneNode.cpp:236-246), in exact real arithmetic on the transformations of TransformModel.v and the scene graphs of
    SceneModel.v.
    Not modelled: animations (FCDocumentTools.cpp:259-383), documents that are referred to (438-475: one document without
    external references), names and ids of nodes, NURBS surfaces and morph controllers (the code leaves them alone). *)
From Coq Require Import List Arith Reals ZArith Bool.
From Verif Require Import IdModel MatrixModel QuatModel RotModel SceneModel TransformModel.
Import ListNotations.
Local Open Scope R_scope.

(** *** The up-axis *)
(** FCDocumentTools.cpp:48: enum Axis. *)
Inductive axis := AX | AY | AZ | UNKNOWN.
(** FCDocumentTools.cpp:49-55. *)
Definition ConvertVector (v : vec3) : axis :=
  if IsEquivalent3 v XAxis then AX else if IsEquivalent3 v YAxis then AY else if IsEquivalent3 v ZAxis then AZ else UNKNOWN.
(** FCDocumentTools.cpp:57-58, 154-160: the function that is chosen. *)
Inductive functor := Same | XtoY | XtoZ | YtoX | YtoZ | ZtoX | ZtoY.
(** FCDocumentTools.cpp:138-152: PrepareFunctor. *)
Definition PrepareFunctor (target current : axis) : functor :=
  match target, current with
  | UNKNOWN, _ | _, UNKNOWN | AX, AX | AY, AY | AZ, AZ => Same
  | AX, AY => XtoY | AX, _ => XtoZ
  | AY, AX => YtoX | AY, _ => YtoZ
  | AZ, AX => ZtoX | AZ, _ => ZtoY
  end.
(** FCDocumentTools.cpp:154-160: the seven functions, with the sign as a number. *)
Definition swap (f : functor) (sign : R) (data : vec3) : vec3 :=
  match f with
  | Same => data
  | XtoY => V3 (y3 data) (sign * x3 data) (z3 data)
  | XtoZ => V3 (y3 data) (z3 data) (x3 data)
  | YtoX => V3 (sign * y3 data) (x3 data) (z3 data)
  | YtoZ => V3 (x3 data) (z3 data) (sign * y3 data)
  | ZtoX => V3 (z3 data) (x3 data) (y3 data)
  | ZtoY => V3 (x3 data) (sign * z3 data) (y3 data)
  end.
(** FCDocumentTools.cpp:73. *)
Definition has_swap (f : functor) : bool := match f with Same => false | _ => true end.
(** FCDocumentTools.cpp:135: operator(). *)
Definition turn (f : functor) (data : vec3) (isScale : bool) : vec3 := swap f (if isScale then 1 else -1) data.

(** *** The unit of length *)
(** FCDocumentTools.cpp:173: SetCurrent. *)
Definition SetCurrent (target current : R) : R := if Rle_dec current 0 then 1 else current / target.
(** FCDocumentTools.cpp:172. *)
Definition has_length (factor : R) : bool := negb (IsEquivalent factor 1).

(** *** Assets *)
(** FCDAsset.h:60-66, 72, 77: the two flags and the two values. *)
Record asset := Asset { hasUnits : bool; unitFactor : R; hasUpAxis : bool; upAxis : vec3 }.
(** FCDocumentTools.cpp:239-247: the first asset with a unit and the first asset with an up-axis.  FMVector3::Origin is the
    zero vector. *)
Definition first_unit (assets : list asset) : R :=
  match find hasUnits assets with Some a => unitFactor a | None => -1 end.
Definition first_axis (assets : list asset) : vec3 :=
  match find hasUpAxis assets with Some a => upAxis a | None => V3 0 0 0 end.
(** FCDocumentTools.cpp:234-248: GetAssetFunctors: the conversion factor and the current up-axis; [unit] is the wanted
    unit, [assets] the list that GetHierarchicalAssets gives. *)
Definition GetAssetFunctors (unit : R) (assets : list asset) (libraryAsset : option asset) : R * axis :=
  let assets := assets ++ match libraryAsset with Some a => [a] | None => [] end in
  (SetCurrent unit (first_unit assets), ConvertVector (first_axis assets)).
(** FCDocumentTools.cpp:250-258: ResetAsset. *)
Definition ResetAsset (a : option asset) : option asset :=
  match a with Some a => Some (Asset false (unitFactor a) false (upAxis a)) | None => None end.
(** FCDEntity.cpp:104-108: the assets of an entity that is not a scene node; [base] is the asset of the document. *)
Definition entity_assets (base : asset) (own : option asset) : list asset :=
  match own with Some a => [a] | None => [base] end.

(** *** Transformations *)
(** FCDocumentTools.cpp:405-416, and 389-403 for the values: rows and columns of the upper part and the translation. *)
Definition convert_matrix (factor : R) (f : functor) (m : mat) : mat :=
  let c0 := turn f (V3 (m00 m) (m01 m) (m02 m)) false in
  let c1 := turn f (V3 (m10 m) (m11 m) (m12 m)) false in
  let c2 := turn f (V3 (m20 m) (m21 m) (m22 m)) false in
  let r0 := turn f (V3 (x3 c0) (x3 c1) (x3 c2)) false in
  let r1 := turn f (V3 (y3 c0) (y3 c1) (y3 c2)) false in
  let r2 := turn f (V3 (z3 c0) (z3 c1) (z3 c2)) false in
  let t := turn f (V3 (m30 m) (m31 m) (m32 m)) false in
  Mat (x3 r0) (x3 r1) (x3 r2) (m03 m)
      (y3 r0) (y3 r1) (y3 r2) (m13 m)
      (z3 r0) (z3 r1) (z3 r2) (m23 m)
      (x3 t * factor) (y3 t * factor) (z3 t * factor) (m33 m).
(** FCDocumentTools.cpp:388: CONVERT_VECT3L. *)
Definition convert_length (factor : R) (f : functor) (v : vec3) : vec3 := vscale factor (turn f v false).
(** FCDocumentTools.cpp:493-499: one transformation. *)
Definition convert_transform (factor : R) (f : functor) (t : transform) : transform :=
  match t with
  | TTranslation v => TTranslation (convert_length factor f v)
  | TRotation a angle => TRotation (turn f a false) angle
  | TScale s => TScale (turn f s true)
  | TSkew r a angle => TSkew (turn f r false) (turn f a false) angle
  | TLookAt p t u => TLookAt (convert_length factor f p) (convert_length factor f t) (turn f u false)
  | TMatrix m => TMatrix (convert_matrix factor f m)
  end.
(** FCDocumentTools.cpp:488-501. *)
Definition convert_stack (factor : R) (f : functor) (l : list entry) : list entry :=
  if (has_length factor || has_swap f)%bool then map (fun e => (convert_transform factor f (fst e), snd e)) l else l.

(** *** Cameras, lights, force fields and emitters turn with their node *)
(** FCDocumentTools.cpp:75-107: GetLastTransformForPivot and SmartAddRotationPivot: the last transformation is removed if
    it is the opposite rotation, else a rotation is added. *)
Definition SmartAddRotationPivot (l : list entry) (ax : vec3) (angle : R) : list entry :=
  let added := l ++ [(TRotation ax angle, [])] in
  match rev l with
  | (TRotation a x, _) :: before => if (IsEquivalent3 a ax && IsEquivalent x (- angle))%bool then rev before else added
  | _ => added
  end.
(** FCDocumentTools.cpp:109-133: SetPivotTransform. *)
Definition SetPivotTransform (target current : axis) (rollOnly : bool) (l : list entry) : list entry :=
  if has_swap (PrepareFunctor target current) then
    let l := match current with
             | AX => if rollOnly then l else SmartAddRotationPivot l ZAxis 90
             | AZ => if rollOnly then SmartAddRotationPivot l ZAxis 90 else SmartAddRotationPivot l XAxis (-90)
             | _ => l
             end in
    match target with
    | AX => if rollOnly then l else SmartAddRotationPivot l ZAxis (-90)
    | AZ => if rollOnly then SmartAddRotationPivot l ZAxis (-90) else SmartAddRotationPivot l XAxis 90
    | _ => l
    end
  else l.
(** FCDEntityInstance: what an instance refers to: one of the types of FCDocumentTools.cpp:511-512 and whether it is a
    targeted entity with a target (515-519), or another type. *)
Inductive instance := Pivoted (hasTarget : bool) | Other.

(** *** The document *)
(** FCDGeometrySource.h: type (as far as the code distinguishes), stride and data. *)
Inductive source_type := POSITION | DIRECTION | OTHER.
Record source := Source { stype : source_type; stride : nat; data : list R }.
Inductive geometry := Mesh (sources : list source) | Spline (cvs : list (list vec3)) | NoGeometry.
(** FCDSkinController: the bind-shape transform and the inverse bind pose of each joint. *)
Inductive controller := Skin (bindShape : mat) (joints : list mat) | Morph.
(** FCDocument: the asset, the assets of the libraries, the scene nodes with the roots of the visual scenes, and the
    entities with their assets.  [kinds n] lists the instances of the node n, like [ins graph n]. *)
Record document := Doc {
  base : asset; scene_library : option asset; controller_library : option asset; geometry_library : option asset;
  camera_library : option asset;
  scene : graph; roots : list nat; node_asset : nat -> option asset; stack : nat -> list entry; kinds : nat -> list instance;
  controllers : list (option asset * controller); geometries : list (option asset * geometry);
  cameras : list (option asset * (R * R)) }.
(** The scene nodes are replaced. *)
Definition set_nodes (d : document) (g : graph) (na : nat -> option asset) (st : nat -> list entry) (ki : nat -> list instance) : document :=
  Doc (base d) (scene_library d) (controller_library d) (geometry_library d) (camera_library d) g (roots d) na st ki
      (controllers d) (geometries d) (cameras d).

(** FCDSceneNode.cpp:236-246: GetHierarchicalAssets of a scene node, along the first parents. *)
Fixpoint node_assets (fuel : nat) (d : document) (n : nat) : res (list asset) :=
  match fuel with
  | O => Fuel
  | S f =>
      let own := match node_asset d n with Some a => [a] | None => [] end in
      match par (scene d) n with
      | [] => Done (own ++ [base d])
      | p :: _ => match node_assets f d p with Done l => Done (own ++ l) | Fuel => Fuel | Bad => Bad end
      end
  end.
(** FCDocumentTools.cpp:525-540: a new child node with the instance; FCDSceneNode.cpp:119-124, 91-117: AddChildNode. *)
Definition add_pivot (d : document) (n : nat) (i : instance) (l : list entry) : document :=
  let p := next (scene d) in
  let g := NewNode (scene d) (doc (scene d) n) in
  let g := set_chi g n (chi g n ++ [p]) in
  let g := set_par g p (par g p ++ [n]) in
  let g := AddInstance g p None in
  set_nodes d g (upd (node_asset d) p None) (upd (stack d) p l) (upd (kinds d) p [i]).
(** FCDocumentTools.cpp:506-545: the loop over the instances of the node n, [alone] is the condition of line 524 at the
    beginning; the second result tells which instances are to be removed. *)
Fixpoint pivot_instances (target current : axis) (handleTargets : bool) (d : document) (n : nat) (alone : bool) (l : list instance) : document * list bool :=
  match l with
  | [] => (d, [])
  | Other :: r => let '(d, m) := pivot_instances target current handleTargets d n alone r in (d, false :: m)
  | Pivoted hasTarget :: r =>
      let rollOnly := (handleTargets && hasTarget)%bool in
      if alone then
        let d := set_nodes d (scene d) (node_asset d) (upd (stack d) n (SetPivotTransform target current rollOnly (stack d n))) (kinds d) in
        let '(d, m) := pivot_instances target current handleTargets d n alone r in (d, false :: m)
      else
        let d := add_pivot d n (Pivoted hasTarget) (SetPivotTransform target current rollOnly []) in
        let '(d, m) := pivot_instances target current handleTargets d n alone r in (d, true :: m)
  end.
(** FCDocumentTools.cpp:546: the instances that are marked are removed. *)
Fixpoint unmarked {A} (marks : list bool) (l : list A) : list A :=
  match marks, l with
  | true :: m, _ :: r => unmarked m r
  | false :: m, x :: r => x :: unmarked m r
  | _, _ => l
  end.
Definition set_ins (g : graph) (n : nat) (l : list (option nat)) : graph := Graph (next g) (alive g) (par g) (chi g) (upd (ins g) n l) (doc g).
(** FCDocumentTools.cpp:503-547. *)
Definition pivot_node (target current : axis) (handleTargets : bool) (d : document) (n : nat) : document :=
  if has_swap (PrepareFunctor target current) then
    let alone := (match chi (scene d) n with [] => true | _ => false end && (length (kinds d n) =? 1)%nat)%bool in
    let '(d, marks) := pivot_instances target current handleTargets d n alone (kinds d n) in
    set_nodes d (set_ins (scene d) n (unmarked marks (ins (scene d) n))) (node_asset d) (stack d) (upd (kinds d) n (unmarked marks (kinds d n)))
  else d.
(** FCDocumentTools.cpp:486-550: one node. *)
Definition convert_node (fuel : nat) (unit : R) (target : axis) (handleTargets : bool) (d : document) (n : nat) : res document :=
  match node_assets fuel d n with
  | Done assets =>
      let '(factor, current) := GetAssetFunctors unit assets (scene_library d) in
      let d := set_nodes d (scene d) (node_asset d) (upd (stack d) n (convert_stack factor (PrepareFunctor target current) (stack d n))) (kinds d) in
      let d := pivot_node target current handleTargets d n in
      Done (set_nodes d (scene d) (upd (node_asset d) n (ResetAsset (node_asset d n))) (stack d) (kinds d))
  | Fuel => Fuel
  | Bad => Bad
  end.
Fixpoint convert_nodes (fuel : nat) (unit : R) (target : axis) (handleTargets : bool) (d : document) (l : list nat) : res document :=
  match l with
  | [] => Done d
  | n :: r => match convert_node fuel unit target handleTargets d n with
              | Done d => convert_nodes fuel unit target handleTargets d r
              | Fuel => Fuel
              | Bad => Bad
              end
  end.
(** FCDocumentTools.cpp:178-232: VisualSceneNodeIterator: the iterators are made first and used from the last one on. *)
Fixpoint visited (fuel : nat) (g : graph) (l : list nat) : res (list nat) :=
  match l with
  | [] => Done []
  | r :: l => match visited fuel g l with
              | Done rest => match iterate fuel g DEPTH_FIRST_PREORDER true r with Done ns => Done (rest ++ ns) | Fuel => Fuel | Bad => Bad end
              | Fuel => Fuel
              | Bad => Bad
              end
  end.

(** *** The entities *)
(** FCDocumentTools.cpp:602-613, 632-644: the first three numbers of each value. *)
Fixpoint turn_values (count stride : nat) (f : functor) (data : list R) : list R :=
  match count with
  | O => data
  | S c =>
      match firstn stride data with
      | x :: y :: z :: r => let v := turn f (V3 x y z) false in x3 v :: y3 v :: z3 v :: r ++ turn_values c stride f (skipn stride data)
      | _ => data
      end
  end.
(** FCDocumentTools.cpp:594-657: one source; FCDGeometrySource.h:112: GetValueCount.  A stride of zero is not modelled. *)
Definition convert_source (factor : R) (f : functor) (s : source) : source :=
  let count := (length (data s) / stride s)%nat in
  let turned := if (has_swap f && (3 <=? stride s)%nat)%bool then turn_values count (stride s) f (data s) else data s in
  match stype s with
  | POSITION =>
      let n := (count * stride s)%nat in
      Source POSITION (stride s) (if has_length factor then map (fun x => x * factor) (firstn n turned) ++ skipn n turned else turned)
  | DIRECTION => Source DIRECTION (stride s) turned
  | OTHER => s
  end.
(** FCDocumentTools.cpp:584-672: one geometry. *)
Definition convert_geometry (factor : R) (f : functor) (g : geometry) : geometry :=
  if (has_length factor || has_swap f)%bool then
    match g with
    | Mesh l => Mesh (map (convert_source factor f) l)
    | Spline l => Spline (map (map (convert_length factor f)) l)
    | NoGeometry => NoGeometry
    end
  else g.
(** FCDocumentTools.cpp:560-573: one skin. *)
Definition convert_skin (factor : R) (f : functor) (bindShape : mat) (joints : list mat) : controller :=
  if (has_length factor || has_swap f)%bool then
    Skin (convert_matrix factor f bindShape) (map (fun m => Inverted (convert_matrix factor f (Inverted m))) joints)
  else Skin bindShape joints.
(** FCDocumentTools.cpp:553-576. *)
Definition convert_controller (unit : R) (target : axis) (b : asset) (library : option asset) (c : option asset * controller) : option asset * controller :=
  match snd c with
  | Skin s j => let '(factor, current) := GetAssetFunctors unit (entity_assets b (fst c)) library in
                (ResetAsset (fst c), convert_skin factor (PrepareFunctor target current) s j)
  | Morph => c
  end.
(** FCDocumentTools.cpp:579-675. *)
Definition convert_geometry_entity (unit : R) (target : axis) (b : asset) (library : option asset) (c : option asset * geometry) : option asset * geometry :=
  let '(factor, current) := GetAssetFunctors unit (entity_assets b (fst c)) library in
  (ResetAsset (fst c), convert_geometry factor (PrepareFunctor target current) (snd c)).
(** FCDocumentTools.cpp:678-689: the far and the near plane. *)
Definition convert_camera (unit : R) (b : asset) (library : option asset) (c : option asset * (R * R)) : option asset * (R * R) :=
  let '(factor, _) := GetAssetFunctors unit (entity_assets b (fst c)) library in
  (ResetAsset (fst c), if has_length factor then (fst (snd c) * factor, snd (snd c) * factor) else snd c).

(** *** The whole *)
(** FCDocumentTools.cpp:422-435: the wanted unit and up-axis; FCDocumentTools.h: without arguments 0 and the zero vector. *)
Definition wanted_unit (b : asset) (unit : R) : R :=
  if (IsEquivalent unit 0 || (if Rlt_dec unit 0 then true else false))%bool then (if hasUnits b then unitFactor b else 1) else unit.
Definition wanted_axis (b : asset) (up : vec3) : vec3 :=
  if negb (IsEquivalent3 up (V3 0 0 0)) then up else if hasUpAxis b then upAxis b else YAxis.
(** FCDocumentTools.cpp:418-707. *)
Definition StandardizeUpAxisAndLength (fuel : nat) (d : document) (up : vec3) (unitInMeters : R) (handleTargets : bool) : res document :=
  let unit := wanted_unit (base d) unitInMeters in
  let up := wanted_axis (base d) up in
  let target := ConvertVector up in
  match visited fuel (scene d) (roots d) with
  | Done ns =>
      match convert_nodes fuel unit target handleTargets d ns with
      | Done d =>
          Done (Doc (Asset true unit true up) (scene_library d) (controller_library d) (geometry_library d) (camera_library d)
                    (scene d) (roots d) (node_asset d) (stack d) (kinds d)
                    (map (convert_controller unit target (base d) (controller_library d)) (controllers d))
                    (map (convert_geometry_entity unit target (base d) (geometry_library d)) (geometries d))
                    (map (convert_camera unit (base d) (camera_library d)) (cameras d)))
      | Fuel => Fuel
      | Bad => Bad
      end
  | Fuel => Fuel
  | Bad => Bad
  end.
