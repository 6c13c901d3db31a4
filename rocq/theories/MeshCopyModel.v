(** Copies of meshes: FCDGeometryMesh::Clone (FCDocument/FCDGeometryMesh.cpp:235-265), FCDGeometrySource::Clone
    (FCDocument/FCDGeometrySource.cpp:43-63) and FCDGeometryPolygons::Clone (FCDocument/FCDGeometryPolygons.cpp:288-337), on the
    meshes of MeshModel.v and the polygon sets of DaeModel.v.
    Not modelled: extras and animations (they are not copied by these functions or only by the extra's own Clone), the numbers of
    faces, holes and corners (copied as they are), which of two equal ids is renamed later (IdModel.v), copying into a mesh that is
    not empty.  None: an input without source is asked for its id (a NULL pointer is used). *)
From Coq Require Import List ZArith Bool.
From Verif Require Import TextModel StringModel PolyModel TriModel DaeModel MeshModel.
Import ListNotations.
Local Open Scope nat_scope.

(** FCDGeometrySource.cpp:43-63 with FCDObjectWithId.cpp:34-38: id, name, type, stride and data are copied. *)
Definition CloneSource (s : gsource) : gsource := GSource (g_id s) (g_name s) (g_type s) (g_stride s) (g_data s).
(** FCDGeometryMesh.cpp:248-255 with 157-171: the sources are copied in their order; the copies of per-vertex sources are
    per-vertex sources, in the order of the sources.  The copy of source k has the number k (cloneMap). *)
Definition clone_vertex (m : gmesh) : list nat :=
  filter (fun k => existsb (Nat.eqb k) (gm_vertex m)) (seq 0 (List.length (gm_sources m))).
(** Assignment to the inputs of a set. *)
Definition with_inputs (d : dset) (ins : list (PolyModel.input Z)) (zs : list Z) : dset :=
  DSet (PSet (ptype (base d)) (pcounts (base d)) (pholes (base d)) ins) zs (material d).
(** FCDGeometryPolygons.cpp:321-333: the copy [c] after input [x] with number [i] and set [z] of the original, whose inputs are
    [ins], is copied. *)
Definition clone_input (ins : list (PolyModel.input Z)) (zs : list Z) (c : dset) (i : nat) (x : PolyModel.input Z) : dset :=
  let found := find_input (pinputs (base c)) (source x) in
  let c1 := match found with Some _ => c | None => add_input c (source x) (offset x) (-1)%Z end in
  let j := match found with Some j => j | None => List.length (pinputs (base c)) end in
  with_inputs c1 (if owns x then set_indices (pinputs (base c1)) j (get_indices ins i) else pinputs (base c1))
              (set_nth (sets c1) j (nth i zs (-1)%Z)).
(** FCDGeometryPolygons.cpp:305-334: the loop over the inputs; [n] is the number of sources in the map of copies. *)
Fixpoint clone_inputs (n : nat) (ins : list (PolyModel.input Z)) (zs : list Z) (c : dset) (i : nat) (l : list (PolyModel.input Z)) : option dset :=
  match l with
  | [] => Some c
  | x :: r => if source x <? n then clone_inputs n ins zs (clone_input ins zs c i x) (S i) r else None
  end.
(** FCDGeometryMesh.cpp:260 and FCDGeometryPolygons.cpp:288-337: the copy starts as AddPolygons makes it; the primitive type is
    not copied. *)
Definition CloneSet (m : gmesh) (clone : mesh) (d : dset) : option dset :=
  let new := AddPolygons clone POLYGONS in
  clone_inputs (List.length (gm_sources m)) (pinputs (base d)) (sets d)
    (DSet (PSet (ptype (base new)) (pcounts (base d)) (pholes (base d)) (pinputs (base new))) (sets new) (material d)) 0 (pinputs (base d)).
(** FCDGeometryMesh.cpp:258-262: the polygon sets. *)
Fixpoint clone_sets (m : gmesh) (clone : mesh) (l : list dset) : option (list dset) :=
  match l with
  | [] => Some []
  | d :: r => match CloneSet m clone d, clone_sets m clone r with Some c, Some cs => Some (c :: cs) | _, _ => None end
  end.
(** FCDGeometryMesh.cpp:235-265: Clone into the new mesh of a geometry [id]. *)
Definition CloneMesh (id : list Z) (m : gmesh) : option gmesh :=
  let c := GMesh id (gm_convex m) (gm_hull m) (map CloneSource (gm_sources m)) (clone_vertex m) [] in
  match clone_sets m (outline c) (gm_sets m) with
  | Some ds => Some (GMesh (gm_id c) (gm_convex c) (gm_hull c) (gm_sources c) (gm_vertex c) ds)
  | None => None
  end.
