(** C115 and C116: meshes in COLLADA XML. *)
From Coq Require Import String List ZArith QArith Bool Lia.
From Verif Require Import TextModel TextSpec TextProofs StringModel StringProofs XmlModel EnumModel FloatModel FloatSpec FloatProps PolyModel PolySpec TriModel DaeModel DaeSpec DaeProofs DaeInputProofs
  RigModel RigSpec RigTextProofs RigProofs RigWriteProofs CustomSpec AssetSpec AnimModel MeshModel MeshSpec MeshReadProofs MeshWriteProofs.
From Verif Require WireProofs WireWriteProofs WireProps DaeProps LampProps RigProps.
Import ListNotations.
Local Open Scope nat_scope.
Local Open Scope list_scope.

(** *** C115 *)
(** C115 (full statement): a mesh that is written and read back is the same mesh.  It is false of convex meshes, of per-vertex
    sources of point sizes and rotations, of the types of unused sources and of sets of per-vertex inputs that differ between the
    polygon sets (below); proved for meshes that are not convex and whose sources are exported, for everything that is kept. *)
Theorem C115_round_trip_partial : forall eps a m n, machine_eps eps -> proper_gmesh m -> WriteGeometryMesh eps m n ->
  exists m', LoadMesh a (gm_id m) n = Some (Some (true, m')) /\
    gm_id m' = gm_id m /\ gm_convex m' = gm_convex m /\ gm_hull m' = gm_hull m /\ gm_vertex m' = gm_vertex m /\
    Forall2 (source_remains eps) (gm_sources m) (gm_sources m') /\
    (forall k s s', nth_error (gm_sources m) k = Some s -> nth_error (gm_sources m') k = Some s' ->
       (used m k -> g_type s' = g_type s) /\ (g_type s' = g_type s \/ g_type s' = UNKNOWN)) /\
    Forall2 (set_remains m) (gm_sets m) (gm_sets m').
Proof. intros eps a m n He Hp Hw. now apply mesh_round. Qed.
Print Assumptions C115_round_trip_partial.
(** Every such mesh can be written. *)
Theorem C115_writable : forall eps m, machine_eps eps -> proper_gmesh m -> exists n, WriteGeometryMesh eps m n.
Proof.
  intros eps m He [(Hc & _) _ Hm Hd]. unfold WriteGeometryMesh. rewrite Hc. cbn [andb]. destruct (sets_written (outline m) Hm (gm_sets m) Hd) as (ns & Hn & _).
  assert (X : exists ls, Forall2 (WriteGeometrySource eps) (gm_sources m) ls).
  { clear - He. induction (gm_sources m) as [|s l (ls & IH)]; [exists []; constructor|]. destruct (floats_writable eps (g_data s) He) as (t & Ht).
    assert (Y : exists e, WriteGeometrySource eps s e) by (unfold WriteGeometrySource; destruct (accessor_names (g_type s)); eauto). destruct Y as (e & Y). exists (e :: ls). now constructor. }
  destruct X as (ls & Hl). eexists. exists ls, ns. split; [exact Hl|]. split; [exact Hn|reflexivity].
Qed.
Print Assumptions C115_writable.
(** What is written: the sources in order, then the per-vertex data, then one element for each polygon set. *)
Theorem C115_layout : forall eps m n, machine_eps eps -> proper_gmesh m -> WriteGeometryMesh eps m n ->
  is_elem "mesh" n /\ exists srcs v sets, children_of n = srcs ++ v :: sets /\
    List.length srcs = List.length (gm_sources m) /\ Forall2 (fun s e => is_elem "source" e /\ has_attr e "id" (g_id s) /\ says_stride e (g_stride s)) (gm_sources m) srcs /\
    is_elem "vertices" v /\ has_attr v "id" (gm_id m ++ tx "-vertices") /\ List.length sets = List.length (gm_sets m) /\ Forall is_set sets.
Proof.
  intros eps m n He [(Hc & _) Hs Hm Hd] Hw. unfold WriteGeometryMesh in Hw. rewrite Hc in Hw. cbn [andb] in Hw. destruct Hw as (ls & ns & Wl & Wn & ->).
  destruct (sources_written eps _ _ He Hs Wl) as (ss & A1 & A2 & A3). destruct (sets_written (outline m) Hm (gm_sets m) Hd) as (ns' & Wn' & Hns & _). rewrite Wn in Wn'. injection Wn' as <-.
  split; [eexists; eexists; reflexivity|]. exists (List.concat ls), (vertices_element m), ns. cbn [children_of]. split; [reflexivity|].
  assert (X : Forall2 (fun s e => is_elem "source" e /\ has_attr e "id" (g_id s) /\ says_stride e (g_stride s)) (gm_sources m) (List.concat ls)).
  { clear - A1 A2 A3. revert A1 A2. generalize (List.concat ls). induction A3 as [|s s1 l l1 [B1 _ B3 _] _ IH]; intros els A1 A2; inversion A2 as [|e ? ? ? [(C1 & _) _ C3 _] A2']; subst; constructor.
    - inversion A1; subst. split; [assumption|]. rewrite <- B1, <- B3. auto.
    - apply IH; [now inversion A1|exact A2']. }
  split; [symmetry; exact (Forall2_len _ _ _ X)|]. split; [exact X|]. split; [eexists; eexists; reflexivity|]. split; [eexists _, _, [], []; split; [reflexivity|constructor]|].
  split; [|now apply Forall_forall].
  revert ns Wn Hns. clear. induction (gm_sets m) as [|d ds IH]; intros ns Wn Hns; cbn in Wn; [now injection Wn as <-|]. destruct (WriteGeometryPolygons (outline m) d); [|discriminate].
  destruct (write_sets (outline m) ds) as [r|]; [|discriminate]. injection Wn as <-. cbn. f_equal. apply IH; [reflexivity|]. intros y Hy. apply Hns. now right.
Qed.
Print Assumptions C115_layout.
(** C115 (refuted): a convex mesh with shape comes back as a mesh that is not convex. *)
Theorem C115_convex_refuted : forall eps a m n st m', gm_convex m = true -> gm_hull m = [] -> WriteGeometryMesh eps m n -> LoadMesh a (gm_id m) n = Some (Some (st, m')) ->
  gm_convex m' = false.
Proof.
  intros eps a m n st m' Hc Hh Hw Hl. unfold WriteGeometryMesh in Hw. rewrite Hc, Hh in Hw. cbn in Hw. destruct Hw as (ls & ns & _ & _ & E0).
  assert (X : named n "mesh" = true) by (rewrite E0; reflexivity). clear E0. unfold LoadMesh in Hl. rewrite X in Hl. clear X.
  destruct (LoadGeometryMesh a (gm_id m) false _) as [[st' g]|] eqn:E; [|discriminate]. injection Hl as -> ->. unfold LoadGeometryMesh in E. cbn [andb] in E.
  destruct (load_sources a _) as [ss|]; [|discriminate]. destruct (FindChildByType _ "vertices") as [v|]; [|discriminate]. destruct (read_vertices _ _) as [[|] o]; [|injection E as _ <-; reflexivity].
  destruct (read_sets o _) as [[[st2 o2] ds]|]; [|discriminate]. destruct (match WireModel.technique_of v with Some _ => _ | None => _ end) as [ds2|]; [|discriminate]. injection E as _ <-. reflexivity.
Qed.
Print Assumptions C115_convex_refuted.
(** C115 (refuted): a convex hull that also has sources and polygon sets loses them. *)
Theorem C115_hull_refuted : forall eps a m n, gm_convex m = true -> gm_hull m <> [] -> plain (gm_hull m) -> WriteGeometryMesh eps m n ->
  LoadMesh a (gm_id m) n = Some (Some (true, GMesh (gm_id m) true (gm_hull m) [] [] [])).
Proof.
  intros eps a m n Hc Hh Hp Hw. unfold WriteGeometryMesh in Hw. rewrite Hc in Hw. 
  assert (X : (true && negb (match gm_hull m with [] => true | _ => false end))%bool = true) by (destruct (gm_hull m); [congruence|reflexivity]). rewrite X in Hw. subst n. unfold LoadMesh.
  set (e := Elem (tx "convex_mesh") [(tx "convex_hull_of", gm_hull m)] []). assert (named e "mesh" = false) as -> by reflexivity. assert (named e "convex_mesh" = true) as -> by reflexivity.
  unfold LoadGeometryMesh. assert (ReadNodeProperty e "convex_hull_of" = gm_hull m) as ->. { apply has_attr_plain; [eexists _, _, [], []; split; [reflexivity|constructor]|exact Hp]. }
  cbv zeta. rewrite X. reflexivity.
Qed.
Print Assumptions C115_hull_refuted.

(** *** Examples *)
(** Sources whose numbers are 0 and 1, and their texts. *)
Definition bitq (b : bool) : Q := if b then 1%Q else 0%Q.
Definition bit (b : bool) : list Z := if b then tx "1" else tx "0".
Definition bits_text (l : list bool) : list Z := match l with [] => [] | b :: r => bit b ++ flat_map (fun b => 32%Z :: bit b) r end.
Lemma bits_printed l : floats_text eps_float (map bitq l) (bits_text l).
Proof.
  assert (B : forall b, appends eps_float (Fin (bitq b)) (bit b)) by (intros []; [apply LampProps.print_1|apply LampProps.print_0]). unfold floats_text.
  destruct l as [|b r]; [constructor|]. cbn [map bits_text]. apply (TS_cons eps_float []); [apply B|]. induction r as [|c r IH]; [constructor|]. cbn [map flat_map]. rewrite <- app_comm_cons. now apply AR_cons.
Qed.
Record bsource := BSource { b_id : list Z; b_name : list Z; b_type : Z; b_stride : nat; b_bits : list bool }.
Definition source_of (b : bsource) : gsource := GSource (b_id b) (b_name b) (b_type b) (b_stride b) (map bitq (b_bits b)).
Definition saved_source (b : bsource) : list xml :=
  match accessor_names (b_type b) with
  | None => []
  | Some ps => [named_source (b_name b) (AddSourceFloat (b_id b) (bits_text (b_bits b)) (List.length (map bitq (b_bits b))) (b_stride b) ps)]
  end.
Definition saved (m : gmesh) (bs : list bsource) : xml :=
  Elem (tx "mesh") [] (flat_map saved_source bs ++ vertices_element m :: match write_sets (outline m) (gm_sets m) with Some ns => ns | None => [] end).
Lemma saved_written m bs : gm_sources m = map source_of bs -> (gm_convex m && negb (match gm_hull m with [] => true | _ => false end))%bool = false ->
  write_sets (outline m) (gm_sets m) <> None -> WriteGeometryMesh eps_float m (saved m bs).
Proof.
  intros Hs Hc Hw. unfold WriteGeometryMesh. rewrite Hc. destruct (write_sets (outline m) (gm_sets m)) as [ns|] eqn:E; [|congruence]. exists (map saved_source bs), ns.
  split; [|split; [reflexivity|unfold saved; rewrite E, flat_map_concat_map; reflexivity]]. rewrite Hs. clear. induction bs as [|b bs IH]; cbn; constructor; auto.
  unfold WriteGeometrySource, saved_source. cbn. destruct (accessor_names (b_type b)); [|reflexivity]. eexists. split; [apply bits_printed|reflexivity].
Qed.
(** Four positions, one normal and three colours; a triangle with a set of per-vertex input, a square, and an unused source. *)
Definition corners : list bool := [false; false; false; true; false; false; true; true; false; false; true; false].
Definition quad_sources (t : Z) : list bsource :=
  [BSource (tx "q-pos") (tx "positions") 0 3 corners; BSource (tx "q-nrm") [] 2 3 [false; false; true]; BSource (tx "q-col") [] t 4 [true; false; false; true]].
Definition tri_set (z : Z) : dset := DSet (PSet POLYGONS [3] [] [Input 0 0 [0; 1; 2]%Z; Input 1 1 [0; 0; 0]%Z]) [z; -1]%Z (tx "red").
Definition strip_set (z : Z) : dset := DSet (PSet LINE_STRIPS [4] [] [Input 0 0 [0; 1; 2; 3]%Z]) [z]%Z (tx "blue").
Definition quad (t : Z) (vertex : list nat) (sets : list dset) : gmesh := GMesh (tx "q") false [] (map source_of (quad_sources t)) vertex sets.
Lemma quad_outline t vs sets : proper_mesh (outline (quad t (0 :: vs) sets)) <-> NoDup (0 :: vs) /\ Forall (fun v => v < 3) vs.
Proof.
  cbn. unfold proper_mesh. cbn [srcs vertex_srcs map]. split.
  - intros (_ & _ & A & _ & B). split; [exact A|]. apply Forall_forall. intros v Hv. apply (B v). now right.
  - intros (A & B). split; [repeat constructor; vm_compute; intuition discriminate|]. split; [intros s Hs; vm_compute in Hs; intuition subst; (split; [apply DaeProps.plain_check; reflexivity|split; vm_compute; discriminate])|].
    split; [exact A|]. split; [discriminate|]. intros v [<- |Hv]; [cbn; lia|]. rewrite Forall_forall in B. now apply B.
Qed.
Lemma quad_proper z1 z2 : (-1 <= z1 < 1000)%Z -> (-1 <= z2 < 1000)%Z -> proper_gmesh (quad 9 [0] [tri_set z1; strip_set z2]).
Proof.
  intros H1 H2. constructor.
  - split; reflexivity.
  - cbn. repeat (constructor; [constructor; cbn; [split; [apply DaeProps.plain_check; reflexivity|split; [discriminate|discriminate]]|apply DaeProps.plain_check; reflexivity|right; split; [lia|discriminate]|lia|
      repeat (constructor; [apply WireProps.small_finite; vm_compute; discriminate|]); constructor]|]). constructor.
  - apply quad_outline. split; repeat constructor. auto.
  - cbn [quad gm_sets]. constructor; [|constructor; [|constructor]]; (split; [|split; [discriminate|]]).
    + exists [(3, [])]. constructor; cbn.
      * split; reflexivity. * reflexivity. * intros s [<- |[<- |[]]]; reflexivity.
      * intros i j x y Hi Hj E _ _. destruct i as [|[|i]]; cbn in Hi; try (destruct i; discriminate); injection Hi as <-; destruct j as [|[|j]]; cbn in Hj; try (destruct j; discriminate); injection Hj as <-; cbn in *; congruence.
      * reflexivity. * intros s [<- |[<- |[]]]; cbn; congruence.
      * intros s [<- |[<- |[]]]; cbn; (eexists; split; [reflexivity|]); cbn; (intro; discriminate) || (intro; split; [lia|discriminate]).
      * intros s [<- |[<- |[]]]; cbn; repeat constructor; try lia; discriminate.
      * split; [repeat constructor|reflexivity]. * apply DaeProps.plain_check. reflexivity.
    + intros (_ & _ & X). exfalso. apply X. split; [discriminate|]. intros c [<- |[]]. reflexivity.
    + exists [(4, [])]. constructor; cbn.
      * split; reflexivity. * reflexivity. * intros s [<- |[]]; reflexivity.
      * intros i j x y Hi Hj E _ _. destruct i as [|i]; cbn in Hi; try (destruct i; discriminate). destruct j as [|j]; cbn in Hj; try (destruct j; discriminate). reflexivity.
      * reflexivity. * intros s [<- |[]]; cbn; congruence.
      * intros s [<- |[]]; cbn; eexists; (split; [reflexivity|]); cbn; intro; discriminate.
      * intros s [<- |[]]; cbn; repeat constructor; try lia; discriminate.
      * split; [repeat constructor|reflexivity]. * apply DaeProps.plain_check. reflexivity.
    + intros (X & _). discriminate.
Qed.
Example C115_demo : machine_eps eps_float /\ proper_gmesh (quad 9 [0] [tri_set 4; strip_set 4]) /\
  WriteGeometryMesh eps_float (quad 9 [0] [tri_set 4; strip_set 4]) (saved (quad 9 [0] [tri_set 4; strip_set 4]) (quad_sources 9)) /\
  exists m', LoadMesh Strict (tx "q") (saved (quad 9 [0] [tri_set 4; strip_set 4]) (quad_sources 9)) = Some (Some (true, m')) /\
    map g_type (gm_sources m') = [0; 2; -1]%Z /\ map g_name (gm_sources m') = [tx "positions"; []; []] /\ map g_stride (gm_sources m') = [3; 3; 4] /\
    Forall2 Qeq (flat_map g_data (gm_sources m')) (map bitq (corners ++ [false; false; true; true; false; false; true])) /\
    gm_vertex m' = [0] /\ map (fun d => ptype (base d)) (gm_sets m') = [POLYGONS; LINE_STRIPS] /\
    map view (gm_sets m') = [[Seen 0 0 4 [0; 1; 2]; Seen 1 1 (-1) [0; 0; 0]]; [Seen 0 0 4 [0; 1; 2; 3]]]%Z.
Proof.
  split; [now left|]. split; [apply quad_proper; lia|]. split; [apply saved_written; [reflexivity|reflexivity|vm_compute; discriminate]|].
  eexists. split; [vm_compute; reflexivity|]. repeat (split; [reflexivity|]). split; [repeat (constructor; [reflexivity|]); constructor|]. repeat split.
Qed.
(** C115 (refuted): per-vertex data of the type POINT_SIZE.  Its source is not exported, so that the import stops at its input:
    it reports success and the mesh has no polygon sets. *)
Theorem C115_point_size_refuted : exists m n m', Forall (fun s => legal_id (g_id s)) (gm_sources m) /\ gm_convex m = false /\ List.length (gm_sets m) = 1 /\
  (exists s, nth_error (gm_sources m) 2 = Some s /\ g_type s = 11%Z) /\ In 2 (gm_vertex m) /\
  WriteGeometryMesh eps_float m n /\ LoadMesh Strict (gm_id m) n = Some (Some (true, m')) /\ gm_sets m' = [] /\ List.length (gm_sources m') = 2.
Proof.
  set (d := DSet (PSet POLYGONS [3] [] [Input 0 0 [0; 1; 2]%Z; Input 0 2 []]) [-1; -1]%Z (tx "red")). exists (quad 11 [0; 2] [d]), (saved (quad 11 [0; 2] [d]) (quad_sources 11)). eexists.
  split; [cbn; repeat (constructor; [split; [apply DaeProps.plain_check; reflexivity|split; discriminate]|]); constructor|]. repeat (split; [reflexivity|]). split; [eexists; split; reflexivity|]. split; [cbn; auto|].
  split; [apply saved_written; [reflexivity|reflexivity|vm_compute; discriminate]|]. split; [vm_compute; reflexivity|]. split; reflexivity.
Qed.
Print Assumptions C115_point_size_refuted.
(** C115 (refuted): the set 7 of the positions in the second polygon set becomes the set 4 of the first. *)
Theorem C115_input_set_refuted : exists m n m' d d', proper_gmesh m /\ WriteGeometryMesh eps_float m n /\ LoadMesh Strict (gm_id m) n = Some (Some (true, m')) /\
  nth_error (gm_sets m) 1 = Some d /\ nth_error (gm_sets m') 1 = Some d' /\ map s_set (view d) = [7]%Z /\ map s_set (view d') = [4]%Z.
Proof.
  exists (quad 9 [0] [tri_set 4; strip_set 7]), (saved (quad 9 [0] [tri_set 4; strip_set 7]) (quad_sources 9)). do 3 eexists. split; [apply quad_proper; lia|].
  split; [apply saved_written; [reflexivity|reflexivity|vm_compute; discriminate]|]. split; [vm_compute; reflexivity|]. repeat (split; [reflexivity|]). reflexivity.
Qed.
Print Assumptions C115_input_set_refuted.
(** C115 (refuted): the type (colours) of a source no polygon set uses is not known any more. *)
Theorem C115_unused_type_refuted : exists m n m' s s', proper_gmesh m /\ WriteGeometryMesh eps_float m n /\ LoadMesh Strict (gm_id m) n = Some (Some (true, m')) /\
  nth_error (gm_sources m) 2 = Some s /\ nth_error (gm_sources m') 2 = Some s' /\ g_type s = 9%Z /\ g_type s' = UNKNOWN.
Proof.
  exists (quad 9 [0] [tri_set 4; strip_set 7]), (saved (quad 9 [0] [tri_set 4; strip_set 7]) (quad_sources 9)). do 3 eexists. split; [apply quad_proper; lia|].
  split; [apply saved_written; [reflexivity|reflexivity|vm_compute; discriminate]|]. split; [vm_compute; reflexivity|]. repeat (split; [reflexivity|]). reflexivity.
Qed.
Print Assumptions C115_unused_type_refuted.
(** A convex mesh of these sources, and a hull. *)
Example C115_convex_demo : let m := GMesh (tx "q") true [] (map source_of (quad_sources 9)) [0] [tri_set 4] in let h := GMesh (tx "h") true (tx "#q") [] [] [] in
  WriteGeometryMesh eps_float m (saved m (quad_sources 9)) /\ (exists m', LoadMesh Strict (tx "q") (saved m (quad_sources 9)) = Some (Some (true, m')) /\ List.length (gm_sets m') = 1) /\
  WriteGeometryMesh eps_float h (Elem (tx "convex_mesh") [(tx "convex_hull_of", tx "#q")] []) /\ plain (gm_hull h).
Proof.
  split; [apply saved_written; [reflexivity|reflexivity|vm_compute; discriminate]|]. split; [eexists; split; [vm_compute; reflexivity|reflexivity]|]. split; [reflexivity|]. apply DaeProps.plain_check. reflexivity.
Qed.

(** *** C116 *)
(** C116: the sources of a <mesh> in the order of the document; the per-vertex sources, each once, in the order of the inputs; the
    types the inputs give (the last one counts); one polygon set for each element, of its type. *)
Theorem C116_import : forall a id n els ss v ins vs st m', is_elem "mesh" n -> picked "source" (children_of n) els -> Forall2 says_source els ss -> NoDup (map g_id ss) ->
  first_child (children_of n) (is_elem "vertices") v -> picked "input" (children_of v) ins -> vertex_inputs ss ins vs ->
  LoadMesh a id n = Some (Some (st, m')) ->
  gm_id m' = id /\ gm_convex m' = false /\ gm_hull m' = [] /\ Forall2 same_source ss (gm_sources m') /\ gm_vertex m' = once (map fst vs) /\
  (forall k s s', nth_error ss k = Some s -> nth_error (gm_sources m') k = Some s' ->
     (forall p, In p (children_of n) -> is_set p -> ~ mentions p (g_id s)) -> type_said vs k (g_type s')) /\
  exists es, picked_sets (children_of n) es /\ Forall2 (fun e d => says_kind e (ptype (base d))) es (gm_sets m').
Proof. exact mesh_imported. Qed.
Print Assumptions C116_import.
(** The import of a <mesh> without polygon sets is defined and succeeds. *)
Theorem C116_defined : forall a id n els ss v ins vs, is_elem "mesh" n -> picked "source" (children_of n) els -> Forall2 says_source els ss -> NoDup (map g_id ss) ->
  first_child (children_of n) (is_elem "vertices") v -> picked "input" (children_of v) ins -> vertex_inputs ss ins vs -> (forall c, In c (children_of n) -> ~ is_set c) ->
  no_child (children_of v) "extra" -> exists m', LoadMesh a id n = Some (Some (true, m')) /\ gm_sets m' = [].
Proof.
  intros a id n els ss v ins vs Hm Hp Hs Hd Hv Hi Hvs Hno Hx. unfold LoadMesh. apply named_iff in Hm. rewrite Hm. unfold LoadGeometryMesh. cbn [andb].
  destruct (sources_said a _ _ _ Hp Hs) as (ss' & L1 & S1 & U1). rewrite L1, (WireProofs.child_found _ _ _ Hv), (picked_filter _ _ _ Hi). cbv zeta.
  assert (Hl : Forall (fun s => legal_id (g_id s)) ss) by (clear - Hs; induction Hs as [|e s l l' [(_ & X) _ _ _] _ IH]; constructor; auto).
  set (g := GMesh id false [] ss' [] []). assert (Ei : map src_id (srcs (outline g)) = map g_id ss) by (cbn; rewrite map_map; cbn; now apply same_ids).
  rewrite (vertices_said ss ins vs Hvs Hl Hd (outline g) Ei). assert (R : forall o, read_sets o (children_of n) = Some (true, o, [])) by (intro o; rewrite <- (app_nil_r (children_of n)); now rewrite sets_skip). rewrite R.
  unfold WireModel.technique_of. rewrite (WireProofs.child_missing _ _ Hx). cbn [option_map]. eexists. split; reflexivity.
Qed.
Print Assumptions C116_defined.
(** C116 (refuted): a <mesh> without <vertices> makes the importer use a NULL pointer. *)
Theorem C116_no_vertices_refuted : forall a id n els ss, is_elem "mesh" n -> picked "source" (children_of n) els -> Forall2 says_source els ss ->
  no_child (children_of n) "vertices" -> LoadMesh a id n = None.
Proof.
  intros a id n els ss Hm Hp Hs Hno. unfold LoadMesh. apply named_iff in Hm. rewrite Hm. unfold LoadGeometryMesh. cbn [andb].
  destruct (sources_said a _ _ _ Hp Hs) as (ss' & L1 & _). rewrite L1, (WireProofs.child_missing _ _ Hno). reflexivity.
Qed.
Print Assumptions C116_no_vertices_refuted.
(** C116 (refuted): one per-vertex input that names no source of the mesh: success is reported and no polygon set is read. *)
Theorem C116_unknown_source_refuted : forall a id n els ss v before i after vs t sid, is_elem "mesh" n -> picked "source" (children_of n) els -> Forall2 says_source els ss -> NoDup (map g_id ss) ->
  first_child (children_of n) (is_elem "vertices") v -> picked "input" (children_of v) (before ++ i :: after) -> vertex_inputs ss before vs ->
  has_attr i "semantic" t -> plain t -> t <> tx "VERTEX" -> has_attr i "source" (35%Z :: sid) -> legal_id sid -> ~ In sid (map g_id ss) ->
  exists m', LoadMesh a id n = Some (Some (true, m')) /\ gm_sets m' = [] /\ gm_vertex m' = once (map fst vs) /\ Forall2 same_source ss (gm_sources m').
Proof.
  intros a id n els ss v before i after vs t sid Hm Hp Hs Hd Hv Hi Hvs Ht Hpt Hnt Ha Hls Hno. unfold LoadMesh. apply named_iff in Hm. rewrite Hm. unfold LoadGeometryMesh. cbn [andb].
  destruct (sources_said a _ _ _ Hp Hs) as (ss' & L1 & S1 & U1). rewrite L1, (WireProofs.child_found _ _ _ Hv), (picked_filter _ _ _ Hi). cbv zeta.
  assert (Hl : Forall (fun s => legal_id (g_id s)) ss) by (clear - Hs; induction Hs as [|e s l l' [(_ & X) _ _ _] _ IH]; constructor; auto).
  set (g := GMesh id false [] ss' [] []). assert (Ei : map src_id (srcs (outline g)) = map g_id ss) by (cbn; rewrite map_map; cbn; now apply same_ids).
  assert (App : forall l m, fst (read_vertices m l) = true -> forall r, read_vertices m (l ++ r) = read_vertices (snd (read_vertices m l)) r).
  { induction l as [|c l IH]; intros m H r; [reflexivity|]. cbn [app read_vertices] in H |- *. destruct (_ =? VERTEX)%Z; [now apply IH|]. destruct (FindSourceById m _); [now apply IH|discriminate]. }
  pose proof (vertices_said ss before vs Hvs Hl Hd (outline g) Ei) as V. set (o := fold_left step vs (outline g)) in V. rewrite App, V by (rewrite V; reflexivity). cbn [snd].
  destruct (steps_frame vs (outline g)) as (_ & Fr). fold o in Fr. cbn [read_vertices]. rewrite (has_attr_plain _ _ _ Ht Hpt), (has_attr_plain _ _ _ Ha (hash_plain _ Hls)).
  assert (NV : (SemanticFromString t =? VERTEX)%Z = false).
  { apply Z.eqb_neq. intro E. apply Hnt. clear - E. unfold SemanticFromString in E. cbn [chain FUDaeGeometryInput otherwise from_chain] in E.
    repeat (match type of E with context [text_eq t ?w] => let H := fresh "H" in destruct (text_eq t w) eqn:H end; [try discriminate E|]); [now apply text_eq_spec|discriminate E]. }
  rewrite NV. assert (F : FindSourceById o (35%Z :: sid) = None).
  { unfold FindSourceById. rewrite (proj1 (drop_legal _ Hls)). destruct (find_id (srcs o) sid) as [k|] eqn:E; [|reflexivity]. exfalso. apply find_id_at in E as (x & Ex & <-). apply Hno.
    rewrite <- Ei, <- (frame_ids _ _ Fr). apply in_map. now apply nth_error_In in Ex. }
  rewrite F. cbn [option_map]. eexists. split; [reflexivity|]. split; [reflexivity|]. cbn [finish gm_vertex gm_sources]. split; [now apply steps_once|]. apply retype_same; [exact S1|].
  rewrite <- (Forall2_len _ _ _ Fr). cbn. now rewrite map_length.
Qed.
Print Assumptions C116_unknown_source_refuted.
(** C116: a failure is not forgotten: when a document cannot be read without failure, neither can any longer one that continues
    with other elements (a later polygon set does not hide the failure of an earlier one). *)
Lemma sets_status m l r st m' ds : read_sets m (l ++ r) = Some (st, m', ds) -> exists st1 m1 ds1, read_sets m l = Some (st1, m1, ds1) /\ (st = true -> st1 = true).
Proof.
  revert m st m' ds. induction l as [|n l IH]; intros m st m' ds H; [exists true, m, []; split; auto|]. cbn [app read_sets] in *.
  destruct (LoadMeshChild m n) as [[[[st0 m0] d0]|]|]; [|eauto|discriminate]. destruct (read_sets m0 (l ++ r)) as [[[st2 m2] ds2]|] eqn:E; [|discriminate].
  injection H as <- <- <-. destruct (IH _ _ _ _ E) as (st1 & m1 & ds1 & -> & F). eexists _, _, _. split; [reflexivity|]. intro T. apply andb_prop in T. destruct T as [-> T]. now rewrite F.
Qed.
Lemma sources_app a l r : (forall c, In c r -> ~ is_elem "source" c) -> load_sources a (l ++ r) = load_sources a l.
Proof.
  intro H. induction l as [|n l IH]; cbn [app load_sources]; [|now rewrite IH]. induction r as [|n r IH]; [reflexivity|]. cbn [load_sources].
  assert (N : named n "source" = false) by (apply named_not, H; now left). rewrite N. apply IH. intros c Hc. apply H. now right.
Qed.
Lemma find_app {A} (f : A -> bool) l r x : find f l = Some x -> find f (l ++ r) = Some x.
Proof. induction l as [|y l IH]; [discriminate|]. cbn. destruct (f y); auto. Qed.
Theorem C116_status : forall a id attrs l r m st m', (forall c, In c r -> ~ is_elem "source" c) ->
  LoadMesh a id (Elem (tx "mesh") attrs l) = Some (Some (false, m)) -> LoadMesh a id (Elem (tx "mesh") attrs (l ++ r)) = Some (Some (st, m')) -> st = false.
Proof.
  intros a id attrs l r m st m' Hr H1 H2. unfold LoadMesh in H1, H2.
  assert (N : forall c, named (Elem (tx "mesh") attrs c) "mesh" = true) by (intro; apply named_iff; eexists; eexists; reflexivity). rewrite N in H1, H2.
  unfold LoadGeometryMesh, FindChildByType in H1, H2. cbn [andb children_of] in H1, H2. rewrite (sources_app a l r Hr) in H2.
  destruct (load_sources a l) as [ss|]; [|discriminate]. destruct (find (fun c => named c "vertices") l) as [v|] eqn:F; [|discriminate].
  rewrite (find_app _ l r v F) in H2. destruct (read_vertices _ _) as [[|] o]; [|discriminate].
  destruct (read_sets o (l ++ r)) as [[[st2 o2] ds2]|] eqn:E; [|discriminate]. destruct (sets_status _ _ _ _ _ _ E) as (st1 & o1 & ds1 & E1 & T). rewrite E1 in H1.
  assert (A1 : st1 = false).
  { cbn [option_map] in H1. destruct (WireModel.technique_of v) as [q|]; [destruct (read_extra o1 _ ds1)|]; cbn in H1; congruence. }
  assert (A2 : st = st2).
  { cbn [option_map] in H2. destruct (WireModel.technique_of v) as [q|]; [destruct (read_extra o2 _ ds2)|]; cbn in H2; congruence. }
  destruct st2; [|exact A2]. rewrite (T eq_refl) in A1. discriminate.
Qed.
Print Assumptions C116_status.
(** A document: two sources, three inputs (the positions twice) and a polygon set; without the second source; without <vertices>. *)
Definition doc_source (id stride t : string) : xml :=
  Elem (tx "source") [(tx "id", tx id)] [Elem (tx "float_array") [] [Text (tx t)]; Elem (tx "technique_common") [] [Elem (tx "accessor") [(tx "stride", tx stride)] []]].
Definition doc_input (sem id : string) : xml := Elem (tx "input") [(tx "semantic", tx sem); (tx "source", 35%Z :: tx id)] [].
Definition doc_vertices : xml := Elem (tx "vertices") [] [doc_input "POSITION" "p"; doc_input "COLOR" "c"; Text (tx " "); doc_input "NORMAL" "p"].
Definition doc_points : xml := Elem (tx "lines") [(tx "count", tx "1")] [Elem (tx "input") [(tx "semantic", tx "VERTEX"); (tx "source", tx "#v"); (tx "offset", tx "0")] []; Elem (tx "p") [] [Text (tx "0 0")]].
Definition doc (l : list xml) : xml := Elem (tx "mesh") [] l.
Definition doc_p : gsource := GSource (tx "p") [] UNKNOWN 3 [0; 1; 0]%Q.
Definition doc_c : gsource := GSource (tx "c") [] UNKNOWN 1 [1]%Q.

Lemma doc_source_says id stride t k l : legal_id (tx id) -> decimal (Z.of_nat k) (tx stride) -> (0 < Z.of_nat k < 4294967296)%Z -> numbers_of float_text (tx t) l -> says_source (doc_source id stride t) (GSource (tx id) [] UNKNOWN k l).
Proof.
  intros Hi Hd Hk Hl. constructor; cbn [g_id g_name g_stride g_data].
  - split; [eexists _, _, [], []; split; [reflexivity|constructor]|exact Hi].
  - left. split; [|reflexivity]. intros nm at' ch E. injection E as _ <- _. repeat constructor. discriminate.
  - left. exists (Elem (tx "accessor") [(tx "stride", tx stride)] []), (tx stride). split; [|split; [eexists _, _, [], []; split; [reflexivity|constructor]|auto]].
    exists (Elem (tx "technique_common") [] [Elem (tx "accessor") [(tx "stride", tx stride)] []]). split; [apply first_skip; [apply not_elem; discriminate|]|]; apply first_here; eexists; eexists; reflexivity.
  - exists l. split; [|apply WireWriteProofs.same_numbers]. eexists _, _, _, _, (tx t). split; [reflexivity|]. split; [eexists _, _, _; split; [reflexivity|right; eexists; reflexivity]|]. split; [exact Hl|].
    apply first_here. eexists; eexists; reflexivity.
Qed.
Lemma doc_p_says : says_source (doc_source "p" "3" "0 1 0") doc_p.
Proof.
  apply doc_source_says; [split; [apply DaeProps.plain_check; reflexivity|split; discriminate]|apply (dec_decimal 3); lia|cbn; lia|].
  apply (RigProps.one_more float_text [48%Z] _ 0%Q _ RigProps.zero_text); [RigProps.no_blank|]. apply (RigProps.one_more float_text [49%Z] _ 1%Q _ RigProps.one_text); [RigProps.no_blank|]. apply (RigProps.one_last float_text [48%Z] 0%Q RigProps.zero_text).
Qed.
Lemma doc_c_says : says_source (doc_source "c" "1" "1") doc_c.
Proof.
  apply doc_source_says; [split; [apply DaeProps.plain_check; reflexivity|split; discriminate]|apply (dec_decimal 1); lia|cbn; lia|]. apply (RigProps.one_last float_text [49%Z] 1%Q RigProps.one_text).
Qed.
Lemma doc_input_says ss sem id k s v : nth_error ss k = Some s -> g_id s = tx id -> plain (tx sem) -> In (sem, v) semantics -> says_vertex ss (doc_input sem id) k v.
Proof.
  intros Hk Hi Hp Hs. split; [exists (tx sem); split; [eexists _, _, [], _; split; [reflexivity|constructor]|]; split; [exact Hp|left; exists sem; auto]|]. exists s. split; [exact Hk|]. rewrite Hi.
  eexists _, _, [_], []. split; [reflexivity|]. repeat constructor. discriminate.
Qed.
Definition doc_full : xml := doc [doc_source "p" "3" "0 1 0"; Text (tx " "); doc_source "c" "1" "1"; doc_vertices; doc_points].
Definition doc_bare : xml := doc [doc_source "p" "3" "0 1 0"; Text (tx " "); doc_source "c" "1" "1"; doc_vertices].
Definition doc_lost : xml := doc [doc_source "p" "3" "0 1 0"; doc_vertices; doc_points].
Ltac pick := cbn [children_of doc_full doc_lost doc_vertices doc]; repeat first [apply K_keep; [eexists; eexists; reflexivity|] | apply K_skip; [let x := fresh in let y := fresh in let E := fresh in intros (x & y & E); discriminate|]]; constructor.
Lemma doc_inputs : picked "input" (children_of doc_vertices) [doc_input "POSITION" "p"; doc_input "COLOR" "c"; doc_input "NORMAL" "p"].
Proof. pick. Qed.
Lemma doc_said : vertex_inputs [doc_p; doc_c] [doc_input "POSITION" "p"; doc_input "COLOR" "c"; doc_input "NORMAL" "p"] [(0, 0%Z); (1, 9%Z); (0, 2%Z)].
Proof.
  apply V_keep; [apply (doc_input_says _ _ _ _ doc_p); [reflexivity|reflexivity|WireWriteProofs.plain_word|cbn; tauto]|discriminate|].
  apply V_keep; [apply (doc_input_says _ _ _ _ doc_c); [reflexivity|reflexivity|WireWriteProofs.plain_word|cbn; tauto]|discriminate|].
  apply V_keep; [apply (doc_input_says _ _ _ _ doc_p); [reflexivity|reflexivity|WireWriteProofs.plain_word|cbn; tauto]|discriminate|]. apply V_nil.
Qed.
Example C116_demo : is_elem "mesh" doc_full /\ picked "source" (children_of doc_full) [doc_source "p" "3" "0 1 0"; doc_source "c" "1" "1"] /\
  Forall2 says_source [doc_source "p" "3" "0 1 0"; doc_source "c" "1" "1"] [doc_p; doc_c] /\ NoDup (map g_id [doc_p; doc_c]) /\
  first_child (children_of doc_full) (is_elem "vertices") doc_vertices /\ (forall c, In c (children_of doc_bare) -> ~ is_set c) /\ no_child (children_of doc_vertices) "extra" /\
  (exists m, LoadMesh Strict (tx "g") doc_full = Some (Some (true, m)) /\ gm_vertex m = [0; 1] /\ map g_type (gm_sources m) = [2; 9]%Z /\ map (fun d => ptype (base d)) (gm_sets m) = [LINES]) /\
  (exists m, LoadMesh Strict (tx "g") doc_lost = Some (Some (true, m)) /\ gm_vertex m = [0] /\ gm_sets m = []) /\
  LoadMesh Strict (tx "g") (doc [doc_source "p" "3" "0 1 0"; doc_points]) = None.
Proof.
  split; [eexists; eexists; reflexivity|]. split; [pick|]. split; [constructor; [apply doc_p_says|constructor; [apply doc_c_says|constructor]]|]. split; [repeat constructor; vm_compute; intuition discriminate|].
  split; [apply first_skip; [apply not_elem; discriminate|]; apply first_skip; [intros (x & y & E); discriminate|]; apply first_skip; [apply not_elem; discriminate|]; apply first_here; eexists; eexists; reflexivity|].
  split; [intros c Hc; apply (child_none (outline (GMesh [] false [] [] [] []))); cbn in Hc; intuition (subst; reflexivity)|].
  split; [intros c Hc; apply named_not; cbn in Hc; intuition (subst; reflexivity)|].
  split; [eexists; split; [vm_compute; reflexivity|]; repeat split|]. split; [eexists; split; [vm_compute; reflexivity|]; split; reflexivity|]. vm_compute. reflexivity.
Qed.
(** The hypotheses of the theorem on unknown sources: the document without the source of the colours. *)
Example C116_lost_demo : picked "source" (children_of doc_lost) [doc_source "p" "3" "0 1 0"] /\ picked "input" (children_of doc_vertices) ([doc_input "POSITION" "p"] ++ doc_input "COLOR" "c" :: [doc_input "NORMAL" "p"]) /\
  vertex_inputs [doc_p] [doc_input "POSITION" "p"] [(0, 0%Z)] /\ has_attr (doc_input "COLOR" "c") "source" (35%Z :: tx "c") /\ legal_id (tx "c") /\ ~ In (tx "c") (map g_id [doc_p]).
Proof.
  split; [pick|]. split; [exact doc_inputs|]. split; [apply V_keep; [apply (doc_input_says _ _ _ _ doc_p); [reflexivity|reflexivity|WireWriteProofs.plain_word|cbn; tauto]|discriminate|]; apply V_nil|].
  split; [eexists _, _, [_], []; split; [reflexivity|repeat constructor; discriminate]|]. split; [split; [apply DaeProps.plain_check; reflexivity|split; discriminate]|]. vm_compute. intuition discriminate.
Qed.
(** A <polylist> whose face has more corners than there are positions fails, also before a polygon set that can be read. *)
Definition doc_bad : xml := Elem (tx "polylist") [(tx "count", tx "1")] [Elem (tx "input") [(tx "semantic", tx "VERTEX"); (tx "source", tx "#v"); (tx "offset", tx "0")] [];
  Elem (tx "vcount") [] [Text (tx "3")]; Elem (tx "p") [] [Text (tx "0 0 0")]].
Example C116_status_demo :
  option_map (option_map fst) (LoadMesh Strict (tx "g") (Elem (tx "mesh") [] [doc_source "p" "3" "0 1 0"; Elem (tx "vertices") [] [doc_input "POSITION" "p"]; doc_bad])) = Some (Some false) /\
  option_map (option_map fst) (LoadMesh Strict (tx "g") (Elem (tx "mesh") [] ([doc_source "p" "3" "0 1 0"; Elem (tx "vertices") [] [doc_input "POSITION" "p"]; doc_bad] ++ [doc_points]))) = Some (Some false).
Proof. split; vm_compute; reflexivity. Qed.
