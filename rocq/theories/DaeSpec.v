(** What is meant by writing a polygon set and reading it back. *)
From Coq Require Import List ZArith Bool String.
From Verif Require Import TextModel PolyModel PolySpec TriModel DaeModel.
Import ListNotations.
Local Open Scope nat_scope.
Local Open Scope list_scope.

(** A text that libxml2 and the %-decoding of attributes leave alone. *)
Definition plain (t : list Z) : Prop := Forall (fun c => 1 <= c <= 255)%Z t /\ ~ In 37%Z t.
(** An id that can be found again through "#id". *)
Definition legal_id (t : list Z) : Prop := plain t /\ t <> [] /\ hd 0%Z t <> 35%Z.
(** What a user sees of an input: source, offset, set and the indices returned by GetIndices. *)
Record seen := Seen { s_source : nat; s_offset : nat; s_set : Z; s_indices : list Z }.
Definition view (d : dset) : list seen :=
  map (fun i => match nth_error (pinputs (base d)) i with
                | Some x => Seen (source x) (offset x) (nth i (sets d) (-1)%Z) (get_indices (pinputs (base d)) i)
                | None => Seen 0 0 (-1) []
                end) (seq 0 (List.length (pinputs (base d)))).
(** The sources of the mesh being loaded: those of m, the types of the per-vertex sources known, the other types not yet known or
    known. *)
Definition loading (m m0 : mesh) : Prop :=
  vertex_srcs m0 = vertex_srcs m /\
  Forall2 (fun s s0 => src_id s0 = src_id s /\ src_values s0 = src_values s /\ (src_type s0 = src_type s \/ src_type s0 = UNKNOWN))
          (srcs m) (srcs m0) /\
  (forall v s s0, In v (vertex_srcs m) -> nth_error (srcs m) v = Some s -> nth_error (srcs m0) v = Some s0 -> src_type s0 = src_type s).
(** A mesh with proper ids whose per-vertex sources exist, each once. *)
Definition proper_mesh (m : mesh) : Prop :=
  NoDup (map src_id (srcs m)) /\ (forall s, In s (srcs m) -> legal_id (src_id s)) /\
  NoDup (vertex_srcs m) /\ vertex_srcs m <> [] /\ (forall v, In v (vertex_srcs m) -> v < List.length (srcs m)).
Definition is_vertex (m : mesh) (s : seen) : bool := IsVertexSource m (s_source s).
(** A polygon set with faces F whose inputs are consistent: every input sees one index for each corner; an offset has one list of
    indices; the per-vertex sources are the inputs at offset 0 (as AddPolygons makes them), in the order of the mesh. *)
Record consistent (m : mesh) (d : dset) (F : list face) : Prop := {
  c_faces : pcounts (base d) = entries F /\ pholes (base d) = hole_positions 0 F;
  c_sets : List.length (sets d) = List.length (pinputs (base d));
  c_step : forall s, In s (view d) -> List.length (s_indices s) = size F;
  c_lists : forall i j x y, nth_error (pinputs (base d)) i = Some x -> nth_error (pinputs (base d)) j = Some y ->
            offset x = offset y -> owns x = true -> owns y = true -> i = j;
  c_vertex : filter (IsVertexSource m) (map source (pinputs (base d))) = vertex_srcs m;
  c_zero : forall s, In s (view d) -> is_vertex m s = true -> s_offset s = 0;
  c_source : forall s, In s (view d) -> exists x, nth_error (srcs m) (s_source s) = Some x /\
            (is_vertex m s = false -> (0 <= src_type x <= 12)%Z /\ src_type x <> VERTEX);
  (* the numbers fit the int32 and uint32 members *)
  c_small : forall s, In s (view d) -> (Z.of_nat (s_offset s) < 2147483600)%Z /\ (-1 <= s_set s < 2147483600)%Z /\
            Forall (fun v => 0 <= v < 4294967296)%Z (s_indices s);
  c_counts : Forall (fun c => Z.of_nat c < 4294967296)%Z (pcounts (base d)) /\ (Z.of_nat (List.length (pcounts (base d))) < 4294967296)%Z;
  c_material : plain (material d)
}.
(** The restriction for sets written as <polylist>: no face has more corners than there are positions, and the positions are
    per-vertex data. *)
Definition small_faces (m : mesh) (d : dset) : Prop :=
  exists k ps, nth_error (srcs m) k = Some ps /\ In k (vertex_srcs m) /\ src_type ps = POSITION /\
    (forall j s, j < k -> nth_error (srcs m) j = Some s -> src_type s <> POSITION) /\
    forall c, In c (pcounts (base d)) -> c <= src_values ps.
(** The set q that was read is the set d that was written: type, faces, holes, material and inputs; the per-vertex inputs come
    first and have no set. *)
Definition same_set (m : mesh) (d q : dset) : Prop :=
  ptype (base q) = ptype (base d) /\ pcounts (base q) = pcounts (base d) /\ pholes (base q) = pholes (base d) /\
  material q = material d /\
  view q = map (fun s => Seen (s_source s) (s_offset s) (-1) (s_indices s)) (filter (is_vertex m) (view d))
           ++ filter (fun s => negb (is_vertex m s)) (view d).
(** The types of the sources the set uses are known after loading. *)
Definition types_known (m m1 : mesh) (d : dset) : Prop :=
  forall s a b, In s (view d) -> nth_error (srcs m) (s_source s) = Some a -> nth_error (srcs m1) (s_source s) = Some b -> src_type b = src_type a.
