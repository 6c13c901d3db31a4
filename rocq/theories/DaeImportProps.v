(** Properties of reading <polygons> and <triangles> elements. *)
From Coq Require Import String List ZArith Bool Lia Arith.
From Verif Require Import TextModel StringModel PolyModel PolySpec TriModel DaeModel DaeSpec DaeDocSpec DaeImportProofs DaeProps.
Import ListNotations.
Local Open Scope nat_scope.
Local Open Scope list_scope.

(** C86 (full statement): every input of a valid element sees the numbers at its offset.  It is false when the VERTEX input is not
    at offset 0; proved when it is, for any order of the inputs, shared offsets and offsets without an input. *)
Theorem C86_polygons_import_partial : forall m m0 doc fs count, proper_mesh m -> loading m m0 -> valid_doc m doc (all_corners fs) ->
  (forall off, In (DVertex off) doc -> off = 0) ->
  exists m1 q, LoadMeshChild m0 (polygons_element m doc fs count) = Some (Some (true, m1, q)) /\
    pcounts (base q) = entries (shape fs) /\ pholes (base q) = hole_positions 0 (shape fs) /\ reads_offsets m doc (all_corners fs) q.
Proof. intros m m0 doc fs count Hm Hl Hd Hz. exact (import_polygons m m0 doc _ Hm Hl Hd Hz fs count eq_refl). Qed.
Print Assumptions C86_polygons_import_partial.
Theorem C86_triangles_import_partial : forall m m0 doc cs count, proper_mesh m -> loading m m0 -> valid_doc m doc cs ->
  (forall off, In (DVertex off) doc -> off = 0) ->
  exists m1 q, LoadMeshChild m0 (triangles_element m doc cs count) = Some (Some (true, m1, q)) /\
    pcounts (base q) = repeat 3 (length cs / 3) /\ pholes (base q) = [] /\ reads_offsets m doc cs q.
Proof. intros m m0 doc cs count Hm Hl Hd Hz. exact (import_triangles m m0 doc cs Hm Hl Hd Hz count). Qed.
Print Assumptions C86_triangles_import_partial.

Ltac doc_ok := split; [reflexivity|]; split;
  [intros a Ha; cbn in Ha; intuition subst; cbn; lia|]; split;
  [intros k off set Hk; cbn in Hk; intuition (try discriminate);
   match goal with H : DOther _ _ _ = DOther _ _ _ |- _ => injection H as <- <- <- end; try lia; cbn in *; try lia;
   try (eexists; split; [reflexivity|]; cbn; split; [lia|discriminate])
  |repeat constructor; cbn; lia].
(** C86 (full statement, refuted): the texture coordinates at offset 0 and the vertices at offset 1.  The inputs of the per-vertex
    sources were added at offset 0 before; they keep it, so the positions and the texture coordinates share one list, in which the
    numbers of both are mixed. *)
Theorem C86_vertex_offset_refuted : exists m m0 doc cs n m1 q, proper_mesh m /\ loading m m0 /\ valid_doc m doc cs /\
  n = triangles_element m doc cs (tx "1") /\ doc = [DOther 2 0 0; DVertex 1] /\ LoadMeshChild m0 n = Some (Some (true, m1, q)) /\
  cs = [[8; 0]; [7; 1]; [6; 2]]%Z /\ (forall s, In s (view q) -> s_indices s = [8; 7; 6; 0; 1; 2]%Z) /\ ~ reads_offsets m doc cs q.
Proof.
  exists demo_mesh, demo_loading, [DOther 2 0 0; DVertex 1], [[8; 0]; [7; 1]; [6; 2]]%Z. do 3 eexists.
  split; [exact demo_mesh_proper|]. split; [exact demo_is_loading|]. split; [doc_ok|]. split; [reflexivity|]. split; [reflexivity|].
  split; [vm_compute; reflexivity|]. split; [reflexivity|].
  match goal with |- (forall s, In s (view ?q) -> _) /\ _ => assert (Hall : forall s, In s (view q) -> s_indices s = [8; 7; 6; 0; 1; 2]%Z) end.
  { intros s Hs. vm_compute in Hs. intuition subst; reflexivity. }
  split; [exact Hall|]. intros (H & _). destruct (H 1 0 ltac:(right; left; reflexivity) ltac:(left; reflexivity)) as (s & Hs & _ & E).
  rewrite (Hall s Hs) in E. discriminate.
Qed.
Print Assumptions C86_vertex_offset_refuted.

(** Two faces, one with a hole; offset 1 has no input, two inputs share offset 2. *)
Example C86_demo :
  let doc := [DOther 2 2 0; DVertex 0; DOther 2 2 1] in
  let fs := [([[0; 5; 1]; [1; 5; 2]; [2; 5; 3]; [3; 5; 4]], [[[4; 5; 5]; [5; 5; 6]; [6; 5; 7]]]); ([[7; 0; 0]; [6; 0; 0]; [5; 0; 1]], [])]%Z in
  proper_mesh demo_mesh /\ loading demo_mesh demo_loading /\ valid_doc demo_mesh doc (all_corners fs) /\ (forall off, In (DVertex off) doc -> off = 0) /\
  entries (shape fs) = [4; 3; 3] /\ hole_positions 0 (shape fs) = [1] /\
  exists m1 q, LoadMeshChild demo_loading (polygons_element demo_mesh doc fs (tx "2")) = Some (Some (true, m1, q)) /\
    view q = [Seen 0 0 (-1) [0; 1; 2; 3; 4; 5; 6; 7; 6; 5]; Seen 1 0 (-1) [0; 1; 2; 3; 4; 5; 6; 7; 6; 5];
              Seen 2 2 0 [1; 2; 3; 4; 5; 6; 7; 0; 0; 1]; Seen 2 2 1 [1; 2; 3; 4; 5; 6; 7; 0; 0; 1]]%Z.
Proof.
  intros doc fs. split; [exact demo_mesh_proper|]. split; [exact demo_is_loading|]. split; [doc_ok|]. split.
  - intros off H. cbn in H. intuition (try discriminate); congruence.
  - split; [reflexivity|]. split; [reflexivity|]. do 2 eexists. split; vm_compute; reflexivity.
Qed.
