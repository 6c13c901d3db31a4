(** Reading an element of a document. *)
From Coq Require Import String List ZArith Bool Lia Arith.
From Verif Require Import TextModel TextProofs InterleaveProofs StringModel StringProofs XmlModel XmlProofs EnumModel
  PolyModel PolySpec PolyProofs TriModel DaeModel DaeSpec DaeDocSpec DaeProofs DaeReadProofs DaeInputProofs DaeRoundProofs DaeMainProofs.
Import ListNotations.
Local Open Scope nat_scope.
Local Open Scope list_scope.

(** *** A table of numbers as inputs *)
Definition columns (K : nat) (cs : list (list Z)) : list (input Z) := map (fun o => Input o 0 (column o cs)) (seq 0 K).
Definition ids (K : nat) : list (option nat) := map Some (seq 0 K).
Lemma columns_nth K cs o : o < K -> nth_error (columns K cs) o = Some (Input o 0 (column o cs)).
Proof.
  intro H. unfold columns. apply map_nth_error with (f := fun o => Input o 0 (column o cs)). rewrite nth_error_nth' with (d := 0) by (rewrite seq_length; exact H). rewrite seq_nth by exact H. reflexivity.
Qed.
Lemma columns_in K cs i x : nth_error (columns K cs) i = Some x -> i < K /\ offset x = i /\ indices x = column i cs.
Proof.
  intro H. assert (L : i < K) by (assert (i < length (columns K cs)) by (apply nth_error_Some; congruence); unfold columns in *; rewrite map_length, seq_length in *; assumption).
  rewrite columns_nth in H by exact L. injection H as <-. auto.
Qed.
Lemma columns_get K cs o : o < K -> get_indices (columns K cs) o = column o cs.
Proof.
  intro H. eapply get_of_sees.
  - intros i j x y Hi Hj E _ _. destruct (columns_in _ _ _ _ Hi) as (_ & A & _). destruct (columns_in _ _ _ _ Hj) as (_ & B & _). congruence.
  - apply columns_nth. exact H.
  - cbn [offset]. destruct (column o cs) eqn:E.
    + right. split; [reflexivity|]. intros k z Hk Hz. destruct (columns_in _ _ _ _ Hk) as (_ & A & B). assert (Ek : k = o) by congruence. rewrite Ek in B. unfold owns. rewrite B. try rewrite E. reflexivity.
    + left. exists o, (Input o 0 (column o cs)). rewrite columns_nth by exact H. unfold owns. cbn. rewrite E. auto.
Qed.
Lemma row_back K cs fv c : nth_error cs fv = Some c -> length c = K -> row (columns K cs) (ids K) fv = c.
Proof.
  intros H L. unfold row, ids. rewrite map_map. subst K. transitivity (map (fun o => nth o c 0%Z) (seq 0 (length c))).
  - apply map_ext_in. intros o Ho. apply in_seq in Ho. rewrite columns_get by lia. unfold column.
    rewrite (nth_error_nth _ _ _ (map_nth_error (fun r => nth o r 0%Z) _ _ H)). reflexivity.
  - transitivity (map (fun z => z) c); [|apply map_id]. apply map_seq_nth. intros i x Hx. cbn. apply nth_error_nth. exact Hx.
Qed.
Lemma rows_back K cs : Forall (fun c => length c = K) cs -> forall A B C, cs = A ++ B ++ C -> rows_of (columns K cs) (ids K) (seq (length A) (length B)) = B.
Proof.
  intros H A B C E. unfold rows_of. transitivity (map (fun c : list Z => c) B); [|apply map_id].
  apply map_seq_nth. intros i c Hc. assert (Hn : nth_error cs (length A + i) = Some c).
  { rewrite E. rewrite nth_error_app2 by lia. replace (length A + i - length A) with i by lia. rewrite nth_error_app1; [exact Hc|]. apply nth_error_Some. congruence. }
  apply row_back; [exact Hn|]. rewrite Forall_forall in H. apply H. eapply nth_error_In; eauto.
Qed.
Lemma txt_back K cs : Forall (fun c => length c = K) cs -> forall A B C, cs = A ++ B ++ C ->
  trim (txt (columns K cs) (ids K) (seq (length A) (length B))) = ToString_u32s [] (concat B).
Proof. intros H A B C E. unfold txt. rewrite (rows_back K cs H A B C E). apply trim_spaced. Qed.
(** *** The faces *)
Lemma holes_back K cs : Forall (fun c => length c = K) cs -> forall hs A C, cs = A ++ concat hs ++ C ->
  map (fun h => Elem (tx "h") [] (content (trim h))) (map (txt (columns K cs) (ids K)) (chunks (length A) (map (@length (list Z)) hs)))
  = map (fun h => Elem (tx "h") [] (loop_text h)) hs.
Proof.
  intros H. induction hs as [|h hs IH]; intros A C E; [reflexivity|]. cbn [map chunks]. f_equal.
  - rewrite (txt_back K cs H A h (concat hs ++ C)) by (rewrite E; cbn; rewrite <- app_assoc; reflexivity). reflexivity.
  - specialize (IH (A ++ h) C). rewrite app_length in IH. apply IH. rewrite E. cbn. rewrite <- !app_assoc. reflexivity.
Qed.
Lemma face_back K cs : Forall (fun c => length c = K) cs -> forall f A C, cs = A ++ (fst f ++ concat (snd f)) ++ C ->
  face_element (map (txt (columns K cs) (ids K)) (chunks (length A) (corners (length (fst f), map (@length (list Z)) (snd f))))) = [dface_element f].
Proof.
  intros H [o hs] A C E. cbn [fst snd] in *. unfold corners. cbn [fst snd chunks map]. unfold dface_element. cbn [fst snd].
  assert (E1 : trim (txt (columns K cs) (ids K) (seq (length A) (length o))) = ToString_u32s [] (concat o)).
  { apply (txt_back K cs H A o (concat hs ++ C)). rewrite E, <- app_assoc. reflexivity. }
  pose proof (holes_back K cs H hs (A ++ o) C) as E2. rewrite app_length in E2. specialize (E2 ltac:(rewrite E, <- !app_assoc; reflexivity)).
  destruct hs as [|h hs].
  - cbn [map chunks face_element]. rewrite E1. reflexivity.
  - rewrite <- E2. cbn [map chunks]. unfold face_element. rewrite E1. reflexivity.
Qed.
Lemma faces_back K cs : Forall (fun c => length c = K) cs -> forall fs A C, cs = A ++ all_corners fs ++ C ->
  flat_map face_element (map (map (txt (columns K cs) (ids K))) (face_chunks (length A) (shape fs))) = map dface_element fs.
Proof.
  intros H. induction fs as [|f fs IH]; intros A C E; [reflexivity|]. cbn [shape map face_chunks flat_map].
  unfold all_corners in E. cbn [map concat] in E. fold (all_corners fs) in E.
  rewrite (face_back K cs H f A (all_corners fs ++ C)) by (rewrite E, <- !app_assoc; reflexivity). cbn [app]. f_equal.
  specialize (IH (A ++ (fst f ++ concat (snd f))) C). rewrite app_length in IH.
  assert (Hs : sum (corners (length (fst f), map (@length (list Z)) (snd f))) = length (fst f ++ concat (snd f))).
  { unfold corners. cbn [fst snd sum fold_right]. rewrite app_length. f_equal. clear. induction (snd f) as [|h hs IH]; [reflexivity|]. cbn. rewrite app_length. unfold sum in IH. rewrite IH. reflexivity. }
  rewrite Hs. apply IH. rewrite E, <- !app_assoc. reflexivity.
Qed.
Lemma shape_size fs : size (shape fs) = length (all_corners fs).
Proof.
  unfold size, all_corners, shape. induction fs as [|f fs IH]; [reflexivity|]. cbn [map concat]. rewrite entries_cons, sum_app, app_length, IH. f_equal.
  unfold corners. cbn [fst snd sum fold_right]. rewrite app_length. f_equal. clear. induction (snd f) as [|h hs IH]; [reflexivity|]. cbn. rewrite app_length. unfold sum in IH. rewrite IH. reflexivity.
Qed.
(** *** The inputs *)
Definition pair_of (m : mesh) (a : doc_input) : input Z * Z :=
  match a with DVertex off => (Input off (hd 0 (vertex_srcs m)) [], (-1)%Z) | DOther k off set => (Input off k [], set) end.
Lemma vertex_in m v : IsVertexSource m v = true <-> In v (vertex_srcs m).
Proof. unfold IsVertexSource. rewrite existsb_exists. split; [intros (x & H & E); apply Nat.eqb_eq in E; congruence|intro H; exists v; split; [exact H|apply Nat.eqb_refl]]. Qed.
Lemma not_vertex m v : ~ In v (vertex_srcs m) -> IsVertexSource m v = false.
Proof. intro H. destruct (IsVertexSource m v) eqn:E; auto. apply vertex_in in E. contradiction. Qed.
Section Doc.
Variable m m0 : mesh.
Variable doc : list doc_input.
Variable cs : list (list Z).
Hypothesis Hm : proper_mesh m.
Hypothesis Hload : loading m m0.
Hypothesis Hd : valid_doc m doc cs.
Hypothesis Hz : forall off, In (DVertex off) doc -> off = 0.
Notation P := (map (pair_of m) doc).
Notation K := (stride doc).
Lemma vx_pair a : In a doc -> vx m (pair_of m a) = is_dvertex a.
Proof.
  intro Ha. destruct Hm as (_ & _ & _ & Hne & _). destruct Hd as (_ & _ & D3 & _). destruct a as [off|k off set]; unfold vx; cbn [pair_of fst source is_dvertex].
  - apply vertex_in. destruct (vertex_srcs m); [congruence|left; reflexivity].
  - apply not_vertex. apply (D3 k off set Ha).
Qed.
Lemma pair_offset a : offset (fst (pair_of m a)) = doc_offset a. Proof. destruct a; reflexivity. Qed.
Lemma pairs_good a : In a P -> good m a.
Proof.
  intro Ha. apply in_map_iff in Ha. destruct Ha as (b & <- & Hb). pose proof (vx_pair b Hb) as Ev. destruct Hd as (_ & D2 & D3 & _). destruct Hm as (_ & _ & _ & Hne & M5).
  split; [rewrite pair_offset; apply D2; exact Hb|]. destruct b as [off|k off set]; cbn [pair_of fst snd source offset] in *.
  - split; [lia|]. destruct (nth_error (srcs m) (hd 0 (vertex_srcs m))) as [x|] eqn:E.
    + exists x. split; [reflexivity|]. split; [intros _; apply (Hz off); exact Hb|]. rewrite Ev. discriminate.
    + apply nth_error_None in E. assert (hd 0 (vertex_srcs m) < length (srcs m)); [|lia]. apply M5. destruct (vertex_srcs m); [congruence|left; reflexivity].
  - destruct (D3 k off set Hb) as (A & B & x & X1 & X2). split; [exact A|]. exists x. split; [exact X1|]. split; [rewrite Ev; discriminate|]. intros _. exact X2.
Qed.
Lemma doc_written : forall (l : list doc_input) (found : bool), (forall a, In a l -> In a doc) -> length (filter is_dvertex l) + (if found then 1 else 0) <= 1 ->
  write_inputs m (map fst (map (pair_of m) l)) (map snd (map (pair_of m) l)) found = Some (flat_map (doc_element m) l).
Proof.
  induction l as [|a l IH]; intros found Hl Hn; [reflexivity|]. cbn [map write_inputs flat_map]. pose proof (Hl a (or_introl eq_refl)) as Ha.
  destruct (pairs_good (pair_of m a) (in_map (pair_of m) _ _ Ha)) as (_ & _ & x & X1 & _). rewrite X1.
  change (IsVertexSource m (source (fst (pair_of m a)))) with (vx m (pair_of m a)). rewrite (vx_pair a Ha). cbn [filter] in Hn. destruct a as [off|k off set]; cbn [is_dvertex] in *.
  - cbn [length] in Hn. destruct found; [lia|]. rewrite (IH true) by (auto with datatypes; lia). reflexivity.
  - rewrite (IH found) by (auto with datatypes; lia). cbn [pair_of fst snd offset source] in *. cbn [doc_element]. rewrite X1. reflexivity.
Qed.
Lemma combine_pairs {A B} (l : list (A * B)) : combine (map fst l) (map snd l) = l.
Proof. induction l as [|[a b] l IH]; cbn; congruence. Qed.
Lemma doc_read mat : exists s : rstate, inv m POLYGONS mat P s /\
  forall rest, read_inputs (RState m0 (DSet (base (AddPolygons m0 POLYGONS)) (sets (AddPolygons m0 POLYGONS)) mat) [] false) (flat_map (doc_element m) doc ++ rest) = read_inputs s rest.
Proof.
  destruct (write_inputs_spec m POLYGONS mat Hm (map fst P) (map snd P) [] _ ltac:(rewrite !map_length; reflexivity) (inv_start m POLYGONS mat m0 Hload)) as (xs & s & A & B & C).
  - intros b [].
  - rewrite combine_pairs. exact pairs_good.
  - cbn [existsb] in A. rewrite (doc_written doc false) in A; [|auto|rewrite (proj1 Hd); lia]. injection A as <-. rewrite combine_pairs in B. exists s. auto.
Qed.
Section State.
Variable mat : list Z.
Variable s : rstate.
Hypothesis Hi : inv m POLYGONS mat P s.
Notation R := (rowners s).
Lemma some_dvertex : exists off, In (DVertex off) doc.
Proof.
  destruct Hd as (D1 & _). destruct (filter is_dvertex doc) as [|a l] eqn:E; [discriminate|]. assert (Ha : In a (filter is_dvertex doc)) by (rewrite E; left; reflexivity).
  apply filter_In in Ha. destruct Ha as (A & B). destruct a as [off|]; [|discriminate]. eauto.
Qed.
Lemma R_covers : forall o, (exists i, nth_error R o = Some (Some i)) <-> exists a, In a doc /\ doc_offset a = o.
Proof.
  intro o. rewrite (proj1 (i_cov _ _ _ _ _ Hi) o). split.
  - intros (b & Hb & E). apply in_map_iff in Hb. destruct Hb as (a & <- & Ha). rewrite pair_offset in E. eauto.
  - intros (a & Ha & E). exists (pair_of m a). rewrite pair_offset. split; [apply in_map; exact Ha|exact E].
Qed.
Lemma offsets_below a : In a doc -> doc_offset a < K.
Proof. intro H. unfold stride. apply Nat.lt_succ_r. assert (Hf : Forall (fun k => k <= list_max (map doc_offset doc)) (map doc_offset doc)) by (apply list_max_le; lia). rewrite Forall_forall in Hf. apply Hf. apply in_map. exact H. Qed.
Lemma max_in : forall l : list nat, l <> [] -> In (list_max l) l.
Proof.
  induction l as [|x l IH]; intro H; [congruence|]. cbn [list_max fold_right]. fold (list_max l). destruct l as [|y l].
  - left. cbn. lia.
  - specialize (IH ltac:(discriminate)). destruct (Nat.max_spec x (list_max (y :: l))) as [(_ & E)|(_ & E)]; rewrite E; [right; exact IH|left; reflexivity].
Qed.
Lemma R_length : length R = K.
Proof.
  apply Nat.le_antisymm.
  - destruct (Nat.le_gt_cases (length R) K) as [L|L]; [exact L|]. destruct (proj2 (i_cov _ _ _ _ _ Hi) K L) as (o & Ho & b & Hb & E).
    apply in_map_iff in Hb. destruct Hb as (a & <- & Ha). rewrite pair_offset in E. pose proof (offsets_below a Ha). lia.
  - unfold stride. assert (Hin : In (list_max (map doc_offset doc)) (map doc_offset doc)).
    { apply max_in. destruct some_dvertex as (off & H). destruct doc; [destruct H|discriminate]. }
    apply in_map_iff in Hin. destruct Hin as (a & E & Ha). destruct (proj2 (R_covers (doc_offset a)) ltac:(eauto)) as (i & Hx). rewrite E in Hx. apply nth_error_Some. congruence.
Qed.
Lemma DL : length R = length (ids K). Proof. unfold ids. rewrite map_length, seq_length. exact R_length. Qed.
Notation frd := (frame (loaded_inputs m P)).
Lemma DR o i : nth_error R o = Some (Some i) -> exists k, nth_error frd i = Some (o, k).
Proof. intro H. destruct (i_own _ _ _ _ _ Hi o i H) as (x & Hx & E). exists (source x). unfold frame. rewrite (map_nth_error _ _ _ Hx), E. reflexivity. Qed.
Lemma D0 : exists i, nth_error R 0 = Some (Some i).
Proof. apply R_covers. destruct some_dvertex as (off & H). exists (DVertex off). split; [exact H|]. cbn. apply (Hz off H). Qed.
Lemma rows_ok : Forall (fun c => length c = K) cs.
Proof. destruct Hd as (_ & _ & _ & D4). eapply Forall_impl; [|exact D4]. intros c H. apply H. Qed.
Lemma Dfit fv : fv < length cs -> fits (row (columns K cs) (ids K) fv).
Proof.
  intro H. destruct (nth_error cs fv) as [c|] eqn:E; [|apply nth_error_None in E; lia]. destruct Hd as (_ & _ & _ & D4). rewrite Forall_forall in D4.
  destruct (D4 c (nth_error_In _ _ E)) as (A & B). rewrite (row_back K cs fv c E A). exact B.
Qed.
Lemma Dstart c h : st (columns K cs) (ids K) R frd 0 (PSet POLYGONS c h (loaded_inputs m P)) (index_lists R).
Proof.
  assert (Hbare : forall x, In x (loaded_inputs m P) -> indices x = []).
  { unfold loaded_inputs. intros x H. apply in_app_iff in H. destruct H as [H|H]; apply in_map_iff in H; destruct H as (y & <- & _); reflexivity. }
  constructor; cbn [pinputs].
  - reflexivity.
  - apply start_single. exact Hbare.
  - intros o i Ho. right. split; [reflexivity|]. intros k z Hk _. apply nth_error_In in Hk. unfold owns. rewrite (Hbare z Hk). reflexivity.
  - unfold index_lists. apply map_length.
  - intros o Ho. unfold index_lists. rewrite (map_nth_error _ _ _ Ho). reflexivity.
  - exists 0. intros o i Ho. exists []. unfold index_lists. rewrite (map_nth_error _ _ _ Ho). auto.
Qed.
Lemma Dfinish p1 all1 : st (columns K cs) (ids K) R frd (length cs) p1 all1 -> reads_offsets m doc cs (DSet p1 (sets (rset s)) (material (rset s))).
Proof.
  intros [S1 S2 S3 S4 S5 S6]. rewrite (i_set _ _ _ _ _ Hi). cbn [sets material].
  assert (Hrows : rows_of (columns K cs) (ids K) (seq 0 (length cs)) = cs).
  { apply (rows_back K cs rows_ok [] cs []). rewrite app_nil_r. reflexivity. }
  assert (Hlen : length (loaded_sets m P) = length (pinputs p1)).
  { assert (Hf : length (frame (pinputs p1)) = length frd) by (rewrite S1; reflexivity). unfold frame in Hf. rewrite !map_length in Hf. rewrite Hf.
    unfold loaded_sets, loaded_inputs. rewrite !app_length, !map_length. reflexivity. }
  assert (Hv : view (DSet p1 (loaded_sets m P) mat) = map (fun v => Seen v 0 (-1) (numbers 0 cs)) (vertex_srcs m)
      ++ map (fun a => Seen (source (fst a)) (offset (fst a)) (snd a) (numbers (offset (fst a)) cs)) (others m P)).
  { rewrite (view_frame (DSet p1 (loaded_sets m P) mat) (fun o => numbers o cs) Hlen).
    - cbn [base sets]. rewrite S1. unfold frame, loaded_inputs, loaded_sets. rewrite map_app, !map_map. cbn [bare offset source].
      rewrite combine_two, map_app, !map_map. reflexivity.
    - cbn [base]. intros i x Hx. apply (get_of_sees _ i x _ S2 Hx).
      destruct (frame_nth (pinputs p1) (loaded_inputs m P) i x S1 Hx) as (y & Hy & Hyx & _).
      assert (Ho : exists j, nth_error R (offset x) = Some (Some j)).
      { rewrite <- Hyx. apply nth_error_In in Hy. unfold loaded_inputs in Hy. apply in_app_iff in Hy. destruct Hy as [Hy|Hy]; apply in_map_iff in Hy; destruct Hy as (a & <- & Ha).
        - exact D0.
        - unfold others in Ha. apply filter_In in Ha. destruct Ha as (Ha & _). apply in_map_iff in Ha. destruct Ha as (b & <- & Hb). cbn [bare offset]. apply R_covers. exists b. split; [exact Hb|]. symmetry. apply pair_offset. }
      destruct Ho as (j & Hj). pose proof (S3 _ _ Hj) as Hs. rewrite Hrows in Hs. exact Hs. }
  unfold reads_offsets. rewrite Hv. split.
  - intros off v Ho Hin. exists (Seen v 0 (-1) (numbers 0 cs)). split; [apply in_app_iff; left; apply (in_map (fun v => Seen v 0 (-1) (numbers 0 cs))); exact Hin|].
    cbn. rewrite (Hz off Ho). auto.
  - intros k off set Hin. apply in_app_iff. right. apply in_map_iff. exists (pair_of m (DOther k off set)). split; [reflexivity|]. unfold others. apply filter_In.
    split; [apply in_map; exact Hin|]. rewrite (vx_pair _ Hin). reflexivity.
Qed.
Lemma Dhas : has_vertex s = true.
Proof. rewrite (i_has _ _ _ _ _ Hi). apply existsb_exists. destruct some_dvertex as (off & H). exists (pair_of m (DVertex off)). split; [apply in_map; exact H|]. rewrite (vx_pair _ H). reflexivity. Qed.
End State.
Lemma doc_names : Forall (fun n => named n "vcount" = false) (flat_map (doc_element m) doc).
Proof.
  assert (HA : forall a b o st, Forall (fun n => named n "vcount" = false) (AddInput a b o st)).
  { intros a b o st. unfold AddInput. destruct a, b; repeat constructor. }
  clear Hd Hz. induction doc as [|a l IH]; cbn [flat_map]; [constructor|]. apply Forall_app. split; [|exact IH]. destruct a as [off|k off set]; cbn [doc_element]; [apply HA|].
  destruct (nth_error (srcs m) k); [apply HA|constructor].
Qed.
Lemma dface_names fs : Forall (fun n => (named n "p" || named n "ph") = true /\ named n "vcount" = false /\ named n "input" = false /\ named n "extra" = false) (map dface_element fs).
Proof. apply Forall_forall. intros n Hn. apply in_map_iff in Hn. destruct Hn as ((o & hs) & <- & _). destruct hs; repeat split; reflexivity. Qed.
Lemma import_polygons fs count : cs = all_corners fs -> exists m1 q, LoadMeshChild m0 (polygons_element m doc fs count) = Some (Some (true, m1, q)) /\
  pcounts (base q) = entries (shape fs) /\ pholes (base q) = hole_positions 0 (shape fs) /\ reads_offsets m doc cs q.
Proof.
  intro Ecs. destruct (doc_read []) as (s & I & Ri). set (n := polygons_element m doc fs count). set (rest := map dface_element fs).
  assert (Hb : base (rset s) = PSet POLYGONS [] [] (loaded_inputs m P)) by (rewrite (i_set _ _ _ _ _ I); reflexivity).
  pose proof (Dstart s [] []) as St. rewrite <- Hb in St.
  assert (Hsz : size (shape fs) = length cs) by (rewrite shape_size, Ecs; reflexivity).
  destruct (read_faces_spec (columns K cs) (ids K) (rowners s) _ (length cs) (DL [] s I) (DR [] s I) (D0 [] s I) Dfit (shape fs) 0 _ _ St ltac:(lia))
    as (p1 & all1 & G1 & G2 & G3 & G4 & G5).
  { rewrite Hb. intros h []. }
  rewrite Hb in G3, G4, G5. cbn [ptype pcounts pholes app length] in G3, G4, G5.
  pose proof (faces_back K cs rows_ok fs [] [] ltac:(rewrite app_nil_r; exact Ecs)) as Ef. cbn [length] in Ef. rewrite Ef in G1. fold rest in G1. cbn [plus] in G2. rewrite Hsz in G2.
  exists (rmesh s), (DSet p1 (sets (rset s)) (material (rset s))). split; [|split; [exact G4|]; split; [exact G5|exact (Dfinish [] s I p1 all1 G2)]].
  assert (Hnames := dface_names fs). fold rest in Hnames.
  assert (Hrd : read_inputs s rest = Some (s, rest)).
  { apply stop_inputs. intros x Hx. destruct rest as [|y r]; [discriminate|]. injection Hx as ->. inversion Hnames as [|? ? (A1 & A2 & A3 & A4) _]; subst.
    repeat split; auto. destruct (named x "p"); [reflexivity|]. cbn in A1. rewrite A1. apply orb_true_r. }
  assert (Hvc : FindChildByType n "vcount" = None).
  { unfold FindChildByType, n, polygons_element. cbn [children_of]. apply no_vcount. apply Forall_app. split; [exact doc_names|]. eapply Forall_impl; [|exact Hnames]. intros a Ha. apply Ha. }
  unfold LoadMeshChild. change (prim_of_element n) with (Some POLYGONS). cbn [option_map]. unfold LoadGeometryPolygons.
  change (ptype (base (AddPolygons m0 POLYGONS))) with POLYGONS. cbv iota. change (named n "polygons") with true. cbv iota.
  change (ReadNodeProperty n "material") with (@nil Z). change (children_of n) with (flat_map (doc_element m) doc ++ rest). rewrite Ri, Hrd. rewrite (Dhas [] s I). cbn [negb].
  assert (Hgo : (if Z.eqb (ReadNodeCount n) 0 then Some (Go (base (rset s))) else read_vcount (rmesh s) IsPolygons n (base (rset s))) = Some (Go (base (rset s)))).
  { destruct (Z.eqb _ 0); [reflexivity|]. unfold read_vcount. rewrite Hvc. reflexivity. }
  rewrite Hgo, G1. destruct rest; [|reflexivity]. cbn [read_faces] in G1. injection G1 as <-. destruct (rset s); reflexivity.
Qed.
Lemma import_triangles count : exists m1 q, LoadMeshChild m0 (triangles_element m doc cs count) = Some (Some (true, m1, q)) /\
  pcounts (base q) = repeat 3 (length cs / 3) /\ pholes (base q) = [] /\ reads_offsets m doc cs q.
Proof.
  destruct (doc_read []) as (s & I & Ri). set (n := triangles_element m doc cs count). set (pe := Elem (tx "p") [] (loop_text cs)).
  assert (Hb : base (rset s) = PSet POLYGONS [] [] (loaded_inputs m P)) by (rewrite (i_set _ _ _ _ _ I); reflexivity).
  pose proof (Dstart s [] []) as St. rewrite <- Hb in St.
  destruct (read_chunk (columns K cs) (ids K) (rowners s) _ (length cs) (DL [] s I) (DR [] s I) (D0 [] s I) Dfit 0 (length cs) _ _ St ltac:(lia))
    as (all1 & ins1 & ms & G1 & G2 & G3 & G4 & G5).
  pose proof (txt_back K cs rows_ok [] cs [] ltac:(rewrite app_nil_r; reflexivity)) as Et. cbn [length] in Et. rewrite Et in G1.
  set (p1 := PSet POLYGONS (repeat 3 (length cs / 3)) [] ins1).
  exists (rmesh s), (DSet p1 (sets (rset s)) (material (rset s))). split; [|split; [reflexivity|]; split; [reflexivity|]].
  2:{ pose proof (G5 (repeat 3 (length cs / 3)) []) as S1. rewrite Hb in S1. exact (Dfinish [] s I _ _ S1). }
  assert (Hvc : FindChildByType n "vcount" = None).
  { unfold FindChildByType, n, triangles_element. cbn [children_of]. apply no_vcount. apply Forall_app. split; [exact doc_names|]. repeat constructor. }
  unfold LoadMeshChild. change (prim_of_element n) with (Some POLYGONS). cbn [option_map]. unfold LoadGeometryPolygons.
  change (ptype (base (AddPolygons m0 POLYGONS))) with POLYGONS. cbv iota. change (named n "polygons") with false. change (named n "triangles") with true. cbv iota.
  change (ReadNodeProperty n "material") with (@nil Z). change (children_of n) with (flat_map (doc_element m) doc ++ [pe]). rewrite Ri.
  rewrite (stop_inputs s [pe]) by (intros x Hx; injection Hx as <-; repeat split; reflexivity).
  rewrite (Dhas [] s I). cbn [negb].
  assert (Hgo : (if Z.eqb (ReadNodeCount n) 0 then Some (Go (base (rset s))) else read_vcount (rmesh s) IsTriangles n (base (rset s))) = Some (Go (base (rset s)))).
  { destruct (Z.eqb _ 0); [reflexivity|]. unfold read_vcount. rewrite Hvc. reflexivity. }
  rewrite Hgo. cbn [read_faces]. change (named pe "p" || named pe "ph") with true. cbv iota. unfold read_face. change (named pe "ph") with false. cbv iota. unfold pe, loop_text.
  rewrite content_direct, G1, G2, G3, G4. cbn [read_holes]. rewrite Hb. reflexivity.
Qed.
End Doc.
