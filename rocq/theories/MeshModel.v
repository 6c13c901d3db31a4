(** Meshes in COLLADA XML: FArchiveXML::WriteGeometrySource and WriteGeometryMesh
    (FColladaPlugins/FArchiveXML/FAXGeometryExport.cpp:23-128), LoadGeometrySource and LoadGeometryMesh
    (FColladaPlugins/FArchiveXML/FAXGeometryImport.cpp:22-190), the choice of the kind of mesh in LoadGeometry (209-230),
    SetTypeFCDGeometrySource (706-729), FCDGeometryMesh::AddVertexSource (FCDocument/FCDGeometryMesh.cpp:173-194) and
    FCDGeometrySource::GetValueCount (FCDGeometrySource.h:112), on the XML tree of DaeModel.v, with the polygon sets of DaeModel.v
    and the sources of RigModel.v.  Numbers are finite rationals; the writers are relations because the digits printf chooses are.
    Not modelled: libxml2 itself, extras and animations of sources, the document's renaming of ids that are empty or taken
    (IdModel.v), cancelling, error messages (a warning is not fatal and an error is, as by default), the counts and offsets of
    Recalculate, the encoding of texts (theorems about texts are about plain ones).
    None is undefined behaviour (a NULL pointer is used, a text is left, or a number overflows). *)
From Coq Require Import String List ZArith QArith Bool.
From Verif Require Import TextModel StringModel XmlModel EnumModel FloatModel PolyModel TriModel DaeModel RigModel AnimModel.
From Verif Require WireModel.
Import ListNotations.
Local Open Scope nat_scope.
Local Open Scope list_scope.

(** FCDocument/FCDGeometrySource.h: a source: COLLADA id, name, type (FUDaeGeometryInput), stride and data. *)
Record gsource := GSource { g_id : list Z; g_name : list Z; g_type : Z; g_stride : nat; g_data : list Q }.
(** FCDocument/FCDGeometryMesh.h: a mesh: the id of its geometry, isConvex, convexHullOf, the sources, the numbers of the
    per-vertex sources and the polygon sets. *)
Record gmesh := GMesh { gm_id : list Z; gm_convex : bool; gm_hull : list Z; gm_sources : list gsource; gm_vertex : list nat; gm_sets : list dset }.
(** FCDGeometrySource.h:112: GetValueCount.  (It is used only for sources that were read, whose stride is not 0.) *)
Definition value_count (s : gsource) : nat := List.length (g_data s) / g_stride s.
(** The mesh as the functions for polygon sets of DaeModel.v see it. *)
Definition outline_source (s : gsource) : src := Src (g_id s) (g_type s) (value_count s).
Definition outline (m : gmesh) : mesh := Mesh (gm_id m) (map outline_source (gm_sources m)) (gm_vertex m).

(** *** Writing *)
(** FUtils/FUDaeEnum.cpp:22-26: the parameters of accessors. *)
Definition XYZW : list (list Z) := [tx "X"; tx "Y"; tx "Z"; tx "W"].
Definition STPQ : list (list Z) := [tx "S"; tx "T"; tx "P"; tx "Q"].
Definition RGBA : list (list Z) := [tx "R"; tx "G"; tx "B"; tx "A"].
(** FAXGeometryExport.cpp:32-49: the parameters for a type of source (FUDaeEnum.h:303-322: NORMAL 2, GEOTANGENT 3, GEOBINORMAL 4,
    TEXCOORD 5, TEXTANGENT 6, TEXBINORMAL 7, UV 8, COLOR 9, EXTRA 10, POINT_SIZE 11, POINT_ROTATION 12); None: not exported. *)
Definition accessor_names (type : Z) : option (option (list (list Z))) :=
  if (type =? UNKNOWN)%Z then Some None
  else if (type =? POSITION)%Z then Some (Some XYZW)
  else if ((2 <=? type) && (type <=? 4))%Z then Some (Some XYZW)
  else if (type =? 5)%Z then Some (Some STPQ)
  else if ((6 <=? type) && (type <=? 8))%Z then Some (Some XYZW)
  else if (type =? 9)%Z then Some (Some RGBA)
  else if (type =? 10)%Z then Some None
  else None.
(** FAXGeometryExport.cpp:51-54: AddAttribute to the element; without element the attribute belongs to nothing. *)
Definition with_attr (n : xml) (k : string) (v : list Z) : xml :=
  match n with Elem name a c => Elem name (a ++ [(tx k, v)]) c | Text t => Text t end.
Definition named_source (name : list Z) (n : xml) : xml := match name with [] => n | _ => with_attr n "name" name end.
(** FAXGeometryExport.cpp:23-66: WriteGeometrySource: the elements added to the <mesh>. *)
Definition WriteGeometrySource (eps : Q) (s : gsource) (l : list xml) : Prop :=
  match accessor_names (g_type s) with
  | None => l = []
  | Some ps => exists t, floats_text eps (g_data s) t /\
      l = [named_source (g_name s) (AddSourceFloat (g_id s) t (List.length (g_data s)) (g_stride s) ps)]
  end.
(** FAXGeometryExport.cpp:95-96, 99: the set of a per-vertex source in the first polygon set; None: no polygon set, or it has no
    such input, or the set is -1. *)
Definition vertex_set (sets : list dset) (v : nat) : option Z :=
  match sets with
  | [] => None
  | d :: _ =>
      match find_input (pinputs (base d)) v with
      | Some i => let set := nth i (DaeModel.sets d) (-1)%Z in if (set =? -1)%Z then None else Some set
      | None => None
      end
  end.
(** FAXGeometryExport.cpp:89-91: the <input> of a per-vertex source. *)
Definition vertex_element (m : gmesh) (v : nat) : list xml :=
  match nth_error (gm_sources m) v with Some s => AddInput (g_id s) (SemanticToString (g_type s)) (-1) (-1) | None => [] end.
(** FAXGeometryExport.cpp:99-108: its <input> in the extra. *)
Definition vertex_extra (m : gmesh) (v : nat) : list xml :=
  match nth_error (gm_sources m) v, vertex_set (gm_sets m) v with
  | Some s, Some set => AddInput (g_id s) (SemanticToString (g_type s)) (-1) set
  | _, _ => []
  end.
(** FAXGeometryExport.cpp:85-115: the <vertices> element; the extra is made if some set is not -1. *)
Definition vertices_element (m : gmesh) : xml :=
  Elem (tx "vertices") [(tx "id", gm_id m ++ tx "-vertices")]
    (flat_map (vertex_element m) (gm_vertex m) ++
     (if existsb (fun v => match vertex_set (gm_sets m) v with Some _ => true | None => false end) (gm_vertex m)
      then [WireModel.AddExtraTechniqueChild (flat_map (vertex_extra m) (gm_vertex m))] else [])).
(** FAXGeometryExport.cpp:117-121: the polygon sets. *)
Fixpoint write_sets (m : mesh) (l : list dset) : option (list xml) :=
  match l with
  | [] => Some []
  | d :: r => match WriteGeometryPolygons m d, write_sets m r with Some n, Some ns => Some (n :: ns) | _, _ => None end
  end.
(** FAXGeometryExport.cpp:68-124: WriteGeometryMesh. *)
Definition WriteGeometryMesh (eps : Q) (m : gmesh) (n : xml) : Prop :=
  if gm_convex m && negb (match gm_hull m with [] => true | _ => false end)
  then n = Elem (tx "convex_mesh") [(tx "convex_hull_of", gm_hull m)] []
  else exists sources sets, Forall2 (WriteGeometrySource eps) (gm_sources m) sources /\ write_sets (outline m) (gm_sets m) = Some sets /\
    n = Elem (tx "mesh") [] (List.concat sources ++ vertices_element m :: sets).

(** *** Reading *)
(** FAXGeometryImport.cpp:22-57: LoadGeometrySource on a new source; FCDGeometrySource.cpp:28: its type. *)
Definition LoadGeometrySource (a : arith) (n : xml) : option gsource :=
  match ReadSourceFloats a (Some n) [] with
  | Some l => Some (GSource (ReadNodeProperty n "id") (ReadNodeProperty n "name") UNKNOWN (Z.to_nat (stride_of (FindTechniqueAccessor n))) l)
  | None => None
  end.
(** FAXGeometryImport.cpp:72-81: the sources, in the order of the document. *)
Fixpoint load_sources (a : arith) (l : list xml) : option (list gsource) :=
  match l with
  | [] => Some []
  | n :: r =>
      if named n "source" then
        match LoadGeometrySource a n, load_sources a r with Some s, Some ss => Some (s :: ss) | _, _ => None end
      else load_sources a r
  end.
(** FCDGeometryMesh.cpp:173-194: AddVertexSource, in a mesh without polygon sets: a source is added once. *)
Definition AddVertexSource (m : mesh) (k : nat) : mesh :=
  if IsVertexSource m k then m else Mesh (mesh_id m) (srcs m) (vertex_srcs m ++ [k]).
(** FAXGeometryImport.cpp:93-110: the per-vertex inputs; the boolean is false when an input names no source and the import ends. *)
Fixpoint read_vertices (m : mesh) (inputs : list xml) : bool * mesh :=
  match inputs with
  | [] => (true, m)
  | i :: r =>
      let semantic := SemanticFromString (ReadNodeProperty i "semantic") in
      if (semantic =? VERTEX)%Z then read_vertices m r
      else match FindSourceById m (ReadNodeProperty i "source") with
           | None => (false, m)
           | Some k => read_vertices (AddVertexSource (SetSourceType m k semantic) k) r
           end
  end.
(** FAXGeometryImport.cpp:121-148: the polygon sets: status, mesh and sets. *)
Fixpoint read_sets (m : mesh) (l : list xml) : option (bool * mesh * list dset) :=
  match l with
  | [] => Some (true, m, [])
  | n :: r =>
      match LoadMeshChild m n with
      | None => None
      | Some None => read_sets m r
      | Some (Some (st, m1, d)) =>
          match read_sets m1 r with Some (st2, m2, ds) => Some (st && st2, m2, d :: ds) | None => None end
      end
  end.
(** FAXGeometryImport.cpp:174-180: SetSet of the inputs of the source [k]. *)
Definition give_set (k : nat) (set : Z) (d : dset) : dset :=
  match find_input (pinputs (base d)) k with Some i => DSet (base d) (set_nth (sets d) i set) (material d) | None => d end.
(** FAXGeometryImport.cpp:157-183: the per-vertex input sets; reading a number may overflow (None). *)
Fixpoint read_extra (m : mesh) (inputs : list xml) (ds : list dset) : option (list dset) :=
  match inputs with
  | [] => Some ds
  | i :: r =>
      match drop_hash (ReadNodeProperty i "source"), ReadNodeProperty i "source", ReadNodeProperty i "set" with
      | _, [], _ | _, _, [] => read_extra m r ds
      | id, _, t =>
          match ToInt32 Strict t with
          | None => None
          | Some (set, _) =>
              match FindSourceById m id with
              | Some k => read_extra m r (if IsVertexSource m k then map (give_set k set) ds else ds)
              | None => read_extra m r ds
              end
          end
      end
  end.
(** The types of the sources after the functions of DaeModel.v changed them. *)
Definition retype (l : list gsource) (o : list src) : list gsource :=
  map (fun p => GSource (g_id (fst p)) (g_name (fst p)) (src_type (snd p)) (g_stride (fst p)) (g_data (fst p))) (combine l o).
Definition finish (m : gmesh) (o : mesh) (ds : list dset) : gmesh :=
  GMesh (gm_id m) (gm_convex m) (gm_hull m) (retype (gm_sources m) (srcs o)) (vertex_srcs o) ds.
(** FAXGeometryImport.cpp:59-190: LoadGeometryMesh on the new mesh of a geometry [id].  FUError::Error returns true for an error
    (105), so the import ends with the status true.  Without <vertices> the line of a NULL node is asked for (110-118), because
    there are no positions. *)
Definition LoadGeometryMesh (a : arith) (id : list Z) (convex : bool) (n : xml) : option (bool * gmesh) :=
  let hull := if convex then ReadNodeProperty n "convex_hull_of" else [] in
  if convex && negb (match hull with [] => true | _ => false end) then Some (true, GMesh id convex hull [] [] [])
  else
    match load_sources a (children_of n) with
    | None => None
    | Some ss =>
        let m := GMesh id convex hull ss [] [] in
        match FindChildByType n "vertices" with
        | None => None
        | Some v =>
            match read_vertices (outline m) (filter (fun c => named c "input") (children_of v)) with
            | (false, o) => Some (true, finish m o [])
            | (true, o) =>
                match read_sets o (children_of n) with
                | None => None
                | Some (st, o2, ds) =>
                    match (match WireModel.technique_of v with
                           | Some q => read_extra o2 (filter (fun c => named c "input") (children_of q)) ds
                           | None => Some ds
                           end) with
                    | Some ds2 => Some (st, finish m o2 ds2)
                    | None => None
                    end
                end
            end
        end
    end.
(** FAXGeometryImport.cpp:209-230: the kind of mesh for an element of a geometry. *)
Definition LoadMesh (a : arith) (id : list Z) (n : xml) : option (option (bool * gmesh)) :=
  if named n "mesh" then option_map Some (LoadGeometryMesh a id false n)
  else if named n "convex_mesh" then option_map Some (LoadGeometryMesh a id true n)
  else Some None.
