(** Properties of polygon sets in COLLADA XML. *)
From Coq Require Import String List ZArith Bool Lia Arith.
From Verif Require Import TextModel TextProofs StringModel XmlModel EnumModel
  PolyModel PolySpec PolyProofs TriModel DaeModel DaeSpec DaeProofs DaeReadProofs DaeInputProofs DaeRoundProofs DaeMainProofs.
Import ListNotations.
Local Open Scope nat_scope.
Local Open Scope list_scope.

(** The element a set is written as. *)
Definition written_as_polylist (d : dset) : Prop :=
  ptype (base d) = POLYGONS /\ pholes (base d) = [] /\ ~ (pcounts (base d) <> [] /\ forall c, In c (pcounts (base d)) -> c = 3).
Lemma poly_type_3 cs : TestPolyType cs = 3%Z <-> cs <> [] /\ forall c, In c cs -> c = 3.
Proof.
  split.
  - intro H. split; [intro E; subst; discriminate|]. intros c Hc. rewrite (poly3 cs H) in Hc. apply repeat_spec in Hc. exact Hc.
  - intros (H1 & H2). destruct cs as [|c r]; [congruence|]. unfold TestPolyType. assert (c = 3) by (apply H2; left; reflexivity). subst c.
    assert (E : forallb (Nat.eqb 3) r = true) by (apply forallb_forall; intros x Hx; apply Nat.eqb_eq; symmetry; apply H2; right; exact Hx). rewrite E. reflexivity.
Qed.
(** C85 (full statement): a consistent polygon set that is written and read back is the same set.  It is false for points and for
    polylists with a face that has more corners than the mesh has positions; proved for everything else. *)
Theorem C85_round_trip_partial : forall m m0 d F, proper_mesh m -> loading m m0 -> consistent m d F ->
  ptype (base d) <> POINTS -> (written_as_polylist d -> small_faces m d) ->
  exists n m1 q, WriteGeometryPolygons m d = Some n /\ LoadMeshChild m0 n = Some (Some (true, m1, q)) /\
    loading m m1 /\ types_known m m1 d /\ same_set m d q.
Proof.
  intros m m0 d F Hm Hl Hc Hp Hs. destruct (ptype (base d)) eqn:Et; try congruence.
  - apply (round_holes m m0 d F Hm Hl Hc "lines"); [cbn; tauto| |exact Et]. unfold element_kind. rewrite Et. reflexivity.
  - apply (round_holes m m0 d F Hm Hl Hc "linestrips"); [cbn; tauto| |exact Et]. unfold element_kind. rewrite Et. reflexivity.
  - destruct (pholes (base d)) as [|h hs] eqn:Eh.
    + destruct (Z.eqb_spec (TestPolyType (pcounts (base d))) 3) as [E3|N3].
      * apply (round_triangles m m0 d F Hm Hl Hc); auto. unfold element_kind. rewrite Et, Eh, E3. reflexivity.
      * apply (round_polylist m m0 d F Hm Hl Hc); auto.
        -- unfold element_kind. rewrite Et, Eh. cbn [length Nat.ltb Nat.leb]. destruct (Z.eqb_spec (TestPolyType (pcounts (base d))) 3); [contradiction|reflexivity].
        -- apply Hs. split; [exact Et|]. split; [exact Eh|]. rewrite <- poly_type_3. exact N3.
    + apply (round_holes m m0 d F Hm Hl Hc "polygons"); [cbn; tauto| |exact Et]. unfold element_kind. rewrite Et, Eh. reflexivity.
  - apply (round_holes m m0 d F Hm Hl Hc "trifans"); [cbn; tauto| |exact Et]. unfold element_kind. rewrite Et. reflexivity.
  - apply (round_holes m m0 d F Hm Hl Hc "tristrips"); [cbn; tauto| |exact Et]. unfold element_kind. rewrite Et. reflexivity.
Qed.
Print Assumptions C85_round_trip_partial.

(** A mesh with positions and normals per vertex and texture coordinates per corner; the file lists the types of the per-vertex sources. *)
Definition demo_mesh : mesh := Mesh (tx "g") [Src (tx "g-pos") 0 8; Src (tx "g-nrm") 2 8; Src (tx "g-uv") 5 9] [0; 1].
Definition demo_loading : mesh := Mesh (tx "g") [Src (tx "g-pos") 0 8; Src (tx "g-nrm") 2 8; Src (tx "g-uv") (-1) 9] [0; 1].
Definition demo_inputs : list (input Z) :=
  [Input 0 0 [0; 1; 2; 3; 4; 5; 6; 0; 1; 2]%Z; Input 2 2 [9; 8; 7; 6; 5; 4; 3; 2; 1; 0]%Z; Input 0 1 []].
Definition demo_set (t : prim) (cs hs : list nat) : dset := DSet (PSet t cs hs demo_inputs) [-1; 0; -1]%Z (tx "mat").
Lemma plain_check t : forallb (fun c => (1 <=? c) && (c <=? 255) && negb (c =? 37))%Z t = true -> plain t.
Proof.
  intro H. rewrite forallb_forall in H. split.
  - apply Forall_forall. intros c Hc. specialize (H c Hc). apply andb_true_iff in H. destruct H as (H & _). apply andb_true_iff in H. lia.
  - intro Hc. specialize (H _ Hc). discriminate.
Qed.
Lemma demo_mesh_proper : proper_mesh demo_mesh.
Proof.
  split; [repeat constructor; vm_compute; intuition discriminate|]. split.
  - intros s Hs. vm_compute in Hs. intuition subst; (split; [apply plain_check; reflexivity|split; vm_compute; discriminate]).
  - split; [repeat constructor; cbn; lia|]. split; [discriminate|]. intros v Hv. cbn in Hv. cbn. lia.
Qed.
Lemma demo_is_loading : loading demo_mesh demo_loading.
Proof.
  split; [reflexivity|]. split; [repeat (apply Forall2_cons; [cbn; auto|]); apply Forall2_nil|]. intros v s s0 Hv. cbn in Hv. destruct Hv as [<-|[<-|[]]]; cbn; congruence.
Qed.
Lemma demo_consistent t F : size F = 10 -> Forall (fun c => Z.of_nat c < 4294967296)%Z (entries F) -> (Z.of_nat (length (entries F)) < 4294967296)%Z ->
  consistent demo_mesh (demo_set t (entries F) (hole_positions 0 F)) F.
Proof.
  intros Hs H1 H2. constructor; cbn [demo_set base pcounts pholes sets pinputs material].
  - auto.
  - reflexivity.
  - intros s Hv. cbn in Hv. intuition subst; cbn; auto.
  - intros i j x y Hi Hj E Ox Oy. destruct i as [|[|[|i]]]; cbn in Hi; try (destruct i; discriminate); injection Hi as <-;
      destruct j as [|[|[|j]]]; cbn in Hj; try (destruct j; discriminate); injection Hj as <-; cbn in *; congruence.
  - reflexivity.
  - intros s Hv. cbn in Hv. intuition subst; cbn in *; congruence.
  - intros s Hv. cbn in Hv. intuition subst; cbn; (eexists; split; [reflexivity|]); cbn; (intro; discriminate) || (intro; split; [lia|discriminate]).
  - intros s Hv. cbn in Hv. intuition subst; cbn; repeat constructor; try lia; discriminate.
  - auto.
  - apply plain_check. reflexivity.
Qed.
(** C85 (full statement, refuted): points.  They are written with <vcount>, which the reader only takes in a <polylist>: the set
    comes back without faces and without indices. *)
Theorem C85_points_round_trip_refuted : exists m m0 d F n m1 q, proper_mesh m /\ loading m m0 /\ consistent m d F /\ ptype (base d) = POINTS /\
  WriteGeometryPolygons m d = Some n /\ LoadMeshChild m0 n = Some (Some (true, m1, q)) /\
  pcounts (base d) = [10] /\ pcounts (base q) = [] /\ (forall s, In s (view q) -> s_indices s = []).
Proof.
  set (F := [(10, [])] : list face).
  exists demo_mesh, demo_loading, (demo_set POINTS (entries F) (hole_positions 0 F)), F. do 3 eexists.
  split; [exact demo_mesh_proper|]. split; [exact demo_is_loading|]. split; [apply demo_consistent; [reflexivity|repeat constructor|reflexivity]|].
  split; [reflexivity|]. split; [vm_compute; reflexivity|]. split; [vm_compute; reflexivity|]. split; [reflexivity|]. split; [reflexivity|].
  intros s Hs. vm_compute in Hs. intuition subst; reflexivity.
Qed.
Print Assumptions C85_points_round_trip_refuted.
(** C85 (full statement, refuted): a polylist with a face that has more corners (10) than the mesh has positions (8), as a
    self-touching outline has: reading fails and the indices are lost. *)
Theorem C85_large_face_round_trip_refuted : exists m m0 d F n m1 q, proper_mesh m /\ loading m m0 /\ consistent m d F /\ ptype (base d) = POLYGONS /\
  WriteGeometryPolygons m d = Some n /\ LoadMeshChild m0 n = Some (Some (false, m1, q)) /\
  (forall s, In s (view d) -> length (s_indices s) = 10) /\ (forall s, In s (view q) -> s_indices s = []).
Proof.
  set (F := [(10, [])] : list face).
  exists demo_mesh, demo_loading, (demo_set POLYGONS (entries F) (hole_positions 0 F)), F. do 3 eexists.
  split; [exact demo_mesh_proper|]. split; [exact demo_is_loading|]. split; [apply demo_consistent; [reflexivity|repeat constructor|reflexivity]|].
  split; [reflexivity|]. split; [vm_compute; reflexivity|]. split; [vm_compute; reflexivity|].
  split; intros s Hs; vm_compute in Hs; intuition subst; reflexivity.
Qed.
Print Assumptions C85_large_face_round_trip_refuted.
(** A face with a hole, and another face: the hypotheses hold; what is written and what is read. *)
Definition demo_faces : list face := [(4, [3]); (3, [])].
Example C85_demo : let d := demo_set POLYGONS (entries demo_faces) (hole_positions 0 demo_faces) in
  proper_mesh demo_mesh /\ loading demo_mesh demo_loading /\ consistent demo_mesh d demo_faces /\ ptype (base d) <> POINTS /\ ~ written_as_polylist d /\
  (exists n, WriteGeometryPolygons demo_mesh d = Some n /\
    children_of n =
      [Elem (tx "input") [(tx "semantic", tx "VERTEX"); (tx "source", tx "#g-vertices"); (tx "offset", tx "0")] [];
       Elem (tx "input") [(tx "semantic", tx "TEXCOORD"); (tx "source", tx "#g-uv"); (tx "offset", tx "2"); (tx "set", tx "0")] [];
       Elem (tx "ph") [] [Elem (tx "p") [] [Text (tx "0 0 9 1 0 8 2 0 7 3 0 6")]; Elem (tx "h") [] [Text (tx "4 0 5 5 0 4 6 0 3")]];
       Elem (tx "p") [] [Text (tx "0 0 2 1 0 1 2 0 0")]] /\
    exists m1 q, LoadMeshChild demo_loading n = Some (Some (true, m1, q)) /\
      view q = [Seen 0 0 (-1) [0; 1; 2; 3; 4; 5; 6; 0; 1; 2]; Seen 1 0 (-1) [0; 1; 2; 3; 4; 5; 6; 0; 1; 2]; Seen 2 2 0 [9; 8; 7; 6; 5; 4; 3; 2; 1; 0]]%Z).
Proof.
  split; [exact demo_mesh_proper|]. split; [exact demo_is_loading|]. split; [apply demo_consistent; [reflexivity|repeat constructor|reflexivity]|].
  split; [discriminate|]. split; [intros (_ & H & _); discriminate|].
  eexists. split; [vm_compute; reflexivity|]. split; [vm_compute; reflexivity|]. do 2 eexists. split; vm_compute; reflexivity.
Qed.
(** The same faces without the hole are written as a polylist with faces small enough. *)
Example C85_polylist_demo : let d := demo_set POLYGONS [4; 3; 3] [] in
  consistent demo_mesh d [(4, []); (3, []); (3, [])] /\ written_as_polylist d /\ small_faces demo_mesh d.
Proof.
  split; [apply (demo_consistent POLYGONS [(4, []); (3, []); (3, [])]); [reflexivity|repeat constructor|reflexivity]|]. split.
  - split; [reflexivity|]. split; [reflexivity|]. intros (_ & H). specialize (H 4 (or_introl eq_refl)). discriminate.
  - exists 0, (Src (tx "g-pos") 0 8). split; [reflexivity|]. split; [left; reflexivity|]. split; [reflexivity|]. split; [intros; lia|].
    intros c Hc. cbn in *. lia.
Qed.
