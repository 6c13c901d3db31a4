(** What a <mesh> element says, and what is kept of a mesh that is written and read back. *)
From Coq Require Import String List ZArith QArith Bool.
From Verif Require Import TextModel TextSpec XmlModel FloatSpec PolyModel TriModel DaeModel DaeSpec RigSpec CustomSpec AssetSpec MeshModel.
From Verif Require WireSpec DaeProps.
Import ListNotations.
Local Open Scope nat_scope.
Local Open Scope list_scope.

(** *** Documents *)
(** The elements of that name, in order. *)
Inductive picked (name : string) : list xml -> list xml -> Prop :=
| K_nil : picked name [] []
| K_skip : forall c l m, ~ is_elem name c -> picked name l m -> picked name (c :: l) m
| K_keep : forall c l m, is_elem name c -> picked name l m -> picked name (c :: l) (c :: m).
(** The accessor of a <source>. *)
Definition accessor_of (n acc : xml) : Prop :=
  exists tc, first_child (children_of n) (is_elem "technique_common") tc /\ first_child (children_of tc) (is_elem "accessor") acc.
(** The stride of a <source>: what the accessor says, otherwise 1. *)
Definition says_stride (n : xml) (k : nat) : Prop :=
  (exists acc t, accessor_of n acc /\ has_attr acc "stride" t /\ decimal (Z.of_nat k) t /\ (0 < Z.of_nat k < 4294967296)%Z) \/
  (k = 1 /\ ((exists acc, accessor_of n acc /\ no_attr acc "stride") \/ no_child (children_of n) "technique_common" \/
             exists tc, first_child (children_of n) (is_elem "technique_common") tc /\ no_child (children_of tc) "accessor")).
(** The source a <source> element gives; its type is not known yet. *)
Record says_source (n : xml) (s : gsource) : Prop := {
  z_id : has_attr n "id" (g_id s) /\ legal_id (g_id s);
  z_name : (no_attr n "name" /\ g_name s = []) \/ (has_attr n "name" (g_name s) /\ plain (g_name s));
  z_stride : says_stride n (g_stride s);
  z_data : exists v, float_source n v /\ Forall2 (fun x y => y == x)%Q v (g_data s)
}.
(** Equal but for the type and the representation of the numbers. *)
Record same_source (s s' : gsource) : Prop := {
  s_id : g_id s' = g_id s;
  s_name : g_name s' = g_name s;
  s_stride : g_stride s' = g_stride s;
  s_data : Forall2 (fun x y => y == x)%Q (g_data s) (g_data s')
}.
(** FUDaeGeometryInput: the words for the types of data. *)
Definition semantics : list (string * Z) :=
  [("POSITION", 0); ("VERTEX", 1); ("NORMAL", 2); ("TANGENT", 3); ("BINORMAL", 4); ("TEXCOORD", 5); ("TEXTANGENT", 6); ("TEXBINORMAL", 7);
   ("UV", 8); ("COLOR", 9); ("EXTRA", 10); ("POINT_SIZE", 11); ("POINT_ROT", 12)]%Z%string.
Definition semantic_word (t : list Z) (v : Z) : Prop :=
  (exists w, In (w, v) semantics /\ t = tx w) \/ ((forall w x, In (w, x) semantics -> t <> tx w) /\ v = UNKNOWN).
(** A per-vertex input of type [v] for the source number [k] of [ss]. *)
Definition says_vertex (ss : list gsource) (i : xml) (k : nat) (v : Z) : Prop :=
  (exists t, has_attr i "semantic" t /\ plain t /\ semantic_word t v) /\
  exists s, nth_error ss k = Some s /\ has_attr i "source" (35%Z :: g_id s).
(** An input with the semantic VERTEX; it has no meaning here. *)
Definition says_nothing (i : xml) : Prop := has_attr i "semantic" (tx "VERTEX").
(** The inputs give these sources and types. *)
Inductive vertex_inputs (ss : list gsource) : list xml -> list (nat * Z) -> Prop :=
| V_nil : vertex_inputs ss [] []
| V_skip : forall i l vs, says_nothing i -> vertex_inputs ss l vs -> vertex_inputs ss (i :: l) vs
| V_keep : forall i l k v vs, says_vertex ss i k v -> v <> VERTEX -> vertex_inputs ss l vs -> vertex_inputs ss (i :: l) ((k, v) :: vs).
(** Every number once, where it is first. *)
Fixpoint once (l : list nat) : list nat := match l with [] => [] | k :: r => k :: filter (fun j => negb (j =? k)) (once r) end.
(** The type the inputs give the source number [k]: the last one counts. *)
Definition type_said (vs : list (nat * Z)) (k : nat) (t : Z) : Prop :=
  (exists before after, vs = before ++ (k, t) :: after /\ ~ In k (map fst after)) \/ (~ In k (map fst vs) /\ t = UNKNOWN).
(** The type of primitive an element gives. *)
Definition kinds : list (string * prim) :=
  [("polygons", POLYGONS); ("triangles", POLYGONS); ("polylist", POLYGONS); ("lines", LINES); ("linestrips", LINE_STRIPS);
   ("trifans", TRIANGLE_FANS); ("tristrips", TRIANGLE_STRIPS); ("points", POINTS)]%string.
Definition says_kind (n : xml) (t : prim) : Prop := exists name, In (name, t) kinds /\ is_elem name n.
Definition is_set (n : xml) : Prop := exists t, says_kind n t.
(** The elements that give a polygon set, in order. *)
Inductive picked_sets : list xml -> list xml -> Prop :=
| P_nil : picked_sets [] []
| P_skip : forall c l m, ~ is_set c -> picked_sets l m -> picked_sets (c :: l) m
| P_keep : forall c l m, is_set c -> picked_sets l m -> picked_sets (c :: l) (c :: m).
(** An input of the polygon set may name the id. *)
Definition mentions (n : xml) (id : list Z) : Prop :=
  exists i t p, In i (children_of n) /\ is_elem "input" i /\ has_attr i "source" t /\ (t = p ++ id \/ ~ plain t).

(** *** Writing and reading back *)
(** The types of sources that are exported: all but VERTEX, POINT_SIZE and POINT_ROTATION. *)
Definition exported (t : Z) : Prop := t = UNKNOWN \/ (0 <= t <= 10 /\ t <> VERTEX)%Z.
Record proper_source (s : gsource) : Prop := {
  p_id : legal_id (g_id s);
  p_name : plain (g_name s);
  p_type : exported (g_type s);
  p_stride : (0 < Z.of_nat (g_stride s) < 4294967296)%Z;
  p_data : Forall finite (g_data s)
}.
(** A mesh that is not convex, whose sources have distinct ids and whose polygon sets are those of C85. *)
Record proper_gmesh (m : gmesh) : Prop := {
  q_convex : gm_convex m = false /\ gm_hull m = [];
  q_sources : Forall proper_source (gm_sources m);
  q_mesh : proper_mesh (outline m);
  q_sets : Forall (fun d => (exists F, consistent (outline m) d F) /\ ptype (base d) <> POINTS /\
                            (DaeProps.written_as_polylist d -> small_faces (outline m) d)) (gm_sets m)
}.
Record source_remains (eps : Q) (s s' : gsource) : Prop := {
  r_id : g_id s' = g_id s;
  r_name : g_name s' = g_name s;
  r_stride : g_stride s' = g_stride s;
  r_data : Forall2 (remains eps) (g_data s) (g_data s')
}.
(** The source number [k] is per-vertex data or is used by a polygon set. *)
Definition used (m : gmesh) (k : nat) : Prop :=
  In k (gm_vertex m) \/ exists d s, In d (gm_sets m) /\ In s (view d) /\ s_source s = k.
(** The set number of a per-vertex source in the first polygon set. *)
Definition first_set (m : gmesh) (k : nat) (set : Z) : Prop :=
  exists d r s, gm_sets m = d :: r /\ In s (view d) /\ s_source s = k /\ s_set s = set.
(** What remains of a polygon set: everything; the per-vertex inputs come first and have the set numbers of the first polygon set. *)
Definition set_remains (m : gmesh) (d q : dset) : Prop :=
  ptype (base q) = ptype (base d) /\ pcounts (base q) = pcounts (base d) /\ pholes (base q) = pholes (base d) /\ material q = material d /\
  exists vs, view q = vs ++ filter (fun s => negb (is_vertex (outline m) s)) (view d) /\
    Forall2 (fun s s' => s_source s' = s_source s /\ s_offset s' = s_offset s /\ s_indices s' = s_indices s /\ first_set m (s_source s) (s_set s'))
      (filter (is_vertex (outline m)) (view d)) vs.
