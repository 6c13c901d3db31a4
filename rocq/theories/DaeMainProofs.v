(** Reading what was written: the three ways to write the faces. *)
From Coq Require Import String List ZArith Bool Lia Arith.
From Verif Require Import TextModel TextProofs InterleaveProofs StringModel StringProofs XmlModel XmlProofs EnumModel
  PolyModel PolySpec PolyProofs TriModel DaeModel DaeSpec DaeProofs DaeReadProofs DaeInputProofs DaeRoundProofs.
Import ListNotations.
Local Open Scope nat_scope.
Local Open Scope list_scope.

Ltac texts := repeat match goal with
  | |- context [text_eq (tx ?a) (tx ?b)] => let v := eval vm_compute in (text_eq (tx a) (tx b)) in change (text_eq (tx a) (tx b)) with v
  end.
Lemma input_names m : forall ins sts found xs, write_inputs m ins sts found = Some xs -> Forall (fun n => named n "input" = true /\ named n "vcount" = false) xs.
Proof.
  assert (HA : forall a b o st, Forall (fun n => named n "input" = true /\ named n "vcount" = false) (AddInput a b o st)).
  { intros a b o st. unfold AddInput. destruct a, b; repeat constructor. }
  induction ins as [|x ins IH]; intros [|st sts] found xs H; cbn [write_inputs] in H.
  - injection H as <-. constructor.
  - injection H as <-. constructor.
  - destruct (nth_error (srcs m) (source x)); discriminate.
  - destruct (nth_error (srcs m) (source x)) as [y|]; [|discriminate]. destruct (IsVertexSource m (source x)).
    + destruct (write_inputs m ins sts true) as [l|] eqn:E; [|discriminate]. injection H as <-. apply Forall_app. split; [destruct found; [constructor|apply HA]|eauto].
    + destruct (write_inputs m ins sts found) as [l|] eqn:E; [|discriminate]. injection H as <-. apply Forall_app. split; [apply HA|eauto].
Qed.
Lemma face_names ts : Forall (fun n => (named n "p" || named n "ph") = true /\ named n "vcount" = false /\ named n "input" = false /\ named n "extra" = false) (face_element ts).
Proof. destruct ts as [|t [|h hs]]; repeat constructor. Qed.
Lemma faces_names l : Forall (fun n => (named n "p" || named n "ph") = true /\ named n "vcount" = false /\ named n "input" = false /\ named n "extra" = false) (flat_map face_element l).
Proof. induction l as [|a l IH]; cbn [flat_map]; [constructor|]. apply Forall_app. split; [apply face_names|exact IH]. Qed.
Lemma stop_inputs s l : (forall n, hd_error l = Some n -> named n "input" = false /\ named n "extra" = false /\ (named n "p" || named n "vcount" || named n "ph") = true) ->
  read_inputs s l = Some (s, l).
Proof. destruct l as [|n r]; intro H; [reflexivity|]. destruct (H n eq_refl) as (A & B & C). cbn [read_inputs]. rewrite A, B, C. reflexivity. Qed.
Lemma no_vcount l : Forall (fun n => named n "vcount" = false) l -> find (fun c => named c "vcount") l = None.
Proof. induction 1 as [|n l H _ IH]; [reflexivity|]. cbn. rewrite H. exact IH. Qed.

Lemma plain_faces : forall F k, hole_positions k F = [] -> forall f, In f F -> snd f = [].
Proof.
  induction F as [|f G IH]; intros k H g Hg; [destruct Hg|]. cbn [hole_positions] in H. apply app_eq_nil in H. destruct H as (A & B).
  destruct Hg as [<-|Hg]; [destruct (snd f); [reflexivity|discriminate]|eauto].
Qed.
(** The attributes of the element. *)
Definition attrs_of (mat : list Z) (count : nat) : list (list Z * list Z) :=
  (match mat with [] => [] | t => [(tx "material", t)] end) ++ [(tx "count", append_u64 (Z.of_nat count))].
Lemma material_back name mat count ch : plain mat -> ReadNodeProperty (Elem name (attrs_of mat count) ch) "material" = mat.
Proof.
  intro H. unfold ReadNodeProperty, attrs_of. destruct mat as [|c r]; cbn [app find_attr]; texts; cbv iota; [reflexivity|]. apply plain_same. exact H.
Qed.
Lemma count_back name mat count ch : (Z.of_nat count < 4294967296)%Z -> ReadNodeCount (Elem name (attrs_of mat count) ch) = Z.of_nat count.
Proof.
  intro H. unfold ReadNodeCount, ReadNodeProperty, attrs_of.
  assert (E : fst (ToUInt32 (XmlToString (append_u64 (Z.of_nat count)))) = Z.of_nat count).
  { unfold append_u64, u32. rewrite Z.mod_small by lia. rewrite plain_same by (apply dec_plain; lia). apply read_u32. lia. }
  destruct mat as [|c r]; cbn [app find_attr]; texts; cbv iota; exact E.
Qed.

Section Main.
Variable m m0 : mesh.
Variable d : dset.
Variable F : list face.
Hypothesis Hm : proper_mesh m.
Hypothesis Hload : loading m m0.
Hypothesis Hc : consistent m d F.
Notation ins := (pinputs (base d)).
Notation P := (combine ins (sets d)).
Notation t := (ptype (base d)).
Notation w0 := (index_owners ins).

Lemma inputs_back : exists xs s, write_inputs m ins (sets d) false = Some xs /\ inv m t (material d) P s /\
  forall rest, read_inputs (RState m0 (DSet (base (AddPolygons m0 t)) (sets (AddPolygons m0 t)) (material d)) [] false) (xs ++ rest) = read_inputs s rest.
Proof.
  destruct (write_inputs_spec m t (material d) Hm ins (sets d) [] _ (c_sets _ _ _ Hc) (inv_start m t (material d) m0 Hload)) as (xs & s & A & B & C).
  - intros b [].
  - intros a Ha. eapply all_good; eauto.
  - exists xs, s. auto.
Qed.
Lemma types_after s : inv m t (material d) P s -> types_known m (rmesh s) d.
Proof.
  intros I v a b Hv Ha Hb. rewrite (view_d m d F Hc) in Hv. rewrite frames in Hv. rewrite map_map in Hv. apply in_map_iff in Hv. destruct Hv as (x & <- & Hx).
  cbn [seen_of fst snd s_source] in *. destruct (vx m x) eqn:E.
  - destruct (i_mesh _ _ _ _ _ I) as (_ & _ & L). eapply L; eauto. unfold vx, IsVertexSource in E. apply existsb_exists in E. destruct E as (v & V1 & V2). apply Nat.eqb_eq in V2. rewrite V2. exact V1.
  - eapply (i_types _ _ _ _ _ I); eauto.
Qed.
Lemma faces_written h : (h = false -> forall f, In f F -> snd f = []) ->
  write_faces h (base d) w0 0 (length (pcounts (base d)) - length (pholes (base d))) 0 0 = Some (map (map (txt ins w0)) (face_chunks 0 F)).
Proof.
  intro Hh. destruct (c_faces _ _ _ Hc) as (E1 & E2).
  assert (Hp : base d = PSet t (entries ([] ++ F)) (hole_positions 0 ([] ++ F)) ins) by (destruct (base d); cbn in *; congruence).
  replace (length (pcounts (base d)) - length (pholes (base d))) with (length F) by (rewrite E1, E2; pose proof (hp_length F 0); lia).
  rewrite Hp. cbn [pinputs].
  pose proof (write_faces_spec ins w0 (size F)) as W.
  specialize (W ltac:(intros i Hin; apply In_nth_error in Hin; destruct Hin as (o & Ho); destruct (w0_owns d o i Ho) as (x & Hx & _); exact (get_length m d F Hc i x Hx))).
  specialize (W t h F []). cbn zeta in W. cbn [app length size entries flat_map] in W |- *. apply W; [lia|exact Hh].
Qed.
(** The three shapes. *)
Lemma round_holes name : In name ["polygons"; "lines"; "linestrips"; "trifans"; "tristrips"]%string ->
  element_kind (base d) = (name, true, true) -> t = (if String.eqb name "polygons" then POLYGONS else if String.eqb name "lines" then LINES else if String.eqb name "linestrips" then LINE_STRIPS else if String.eqb name "trifans" then TRIANGLE_FANS else TRIANGLE_STRIPS) ->
  exists n m1 q, WriteGeometryPolygons m d = Some n /\ LoadMeshChild m0 n = Some (Some (true, m1, q)) /\ loading m m1 /\ types_known m m1 d /\ same_set m d q.
Proof.
  intros Hname Hk Ht. destruct inputs_back as (xs & s & Wi & I & Ri). destruct (c_faces _ _ _ Hc) as (E1 & E2).
  pose proof (faces_written true ltac:(discriminate)) as Wf.
  assert (Hn : length (pcounts (base d)) - length (pholes (base d)) = length F) by (rewrite E1, E2; pose proof (hp_length F 0); lia).
  assert (Hlt : (length (pcounts (base d)) <? length (pholes (base d))) = false).
  { apply Nat.ltb_ge. rewrite E1, E2. pose proof (hp_length F 0). lia. }
  assert (Hpc : exists c, primitive_count (base d) = Some c).
  { unfold primitive_count. destruct t; eauto. rewrite Hn. destruct F as [|f G] eqn:EF; cbn [length Nat.ltb Nat.leb]; eauto.
    pose proof (count_spec (Polys (pcounts (base d)) 0 (pholes (base d)) []) [] f G (conj E1 E2)) as Hx. cbn [length] in Hx. rewrite Hx. cbn. eauto. }
  destruct Hpc as (c & Hpc).
  set (rest := flat_map face_element (map (map (txt ins w0)) (face_chunks 0 F))) in *.
  set (n := Elem (tx name) (attrs_of (material d) c) (xs ++ rest)).
  exists n, (rmesh s).
  assert (Hw : WriteGeometryPolygons m d = Some n).
  { unfold WriteGeometryPolygons. rewrite Hk, Hlt, Wi, Wf, Hpc. unfold n, attrs_of. cbn [negb andb app]. f_equal. f_equal. f_equal. destruct (material d); reflexivity. }
  assert (Hnames := faces_names (map (map (txt ins w0)) (face_chunks 0 F))). fold rest in Hnames.
  assert (Hrd : read_inputs s rest = Some (s, rest)).
  { apply stop_inputs. intros x Hx. destruct rest as [|y r]; [discriminate|]. injection Hx as ->. inversion Hnames as [|? ? (A1 & A2 & A3 & A4) _]; subst.
    repeat split; auto. destruct (named x "p"); [reflexivity|]. cbn in A1. rewrite A1. apply orb_true_r. }
  assert (Hvc : FindChildByType n "vcount" = None).
  { unfold FindChildByType, n. cbn [children_of]. apply no_vcount. apply Forall_app. split.
    - eapply Forall_impl; [|apply (input_names _ _ _ _ _ Wi)]. intros a Ha. apply Ha.
    - eapply Forall_impl; [|exact Hnames]. intros a Ha. apply Ha. }
  assert (Hld : forall res, (match rest with [] => Some (true, rmesh s, rset s) | _ =>
      match read_faces IsPolygons (rowners s) rest (base (rset s)) (index_lists (rowners s)) with
      | Some p1 => Some (true, rmesh s, DSet p1 (sets (rset s)) (material (rset s))) | None => None end end) = Some res ->
      LoadMeshChild m0 n = Some (Some res)).
  { intros res Hres. unfold LoadMeshChild.
    assert (Hpr : prim_of_element n = Some t).
    { rewrite Ht. cbn in Hname. decompose [or] Hname; try contradiction; subst name; reflexivity. }
    rewrite Hpr. cbn [option_map]. unfold LoadGeometryPolygons.
    assert (Hkind : (match ptype (base (AddPolygons m0 t)) with
         | POLYGONS => if named n "polygons" then Some IsPolygons else if named n "triangles" then Some IsTriangles
                       else if named n "polylist" then Some IsPolylist else None
         | _ => Some IsPolygons end) = Some IsPolygons).
    { cbn [AddPolygons base ptype]. rewrite Ht. cbn in Hname. decompose [or] Hname; try contradiction; subst name; reflexivity. }
    rewrite Hkind. assert (Hmat : ReadNodeProperty n "material" = material d) by (apply material_back; exact (c_material _ _ _ Hc)). rewrite Hmat. change (children_of n) with (xs ++ rest). rewrite Ri, Hrd.
    destruct rest as [|y r] eqn:Er; [injection Hres as <-; reflexivity|].
    rewrite (has_it m d F Hm Hc t s I). cbn [negb].
    assert (Hgo : (if Z.eqb (ReadNodeCount n) 0 then Some (Go (base (rset s))) else read_vcount (rmesh s) IsPolygons n (base (rset s))) = Some (Go (base (rset s)))).
    { destruct (Z.eqb _ 0); [reflexivity|]. unfold read_vcount. rewrite Hvc. reflexivity. }
    rewrite Hgo. destruct (read_faces _ _ _ _ _) as [p1|]; [|discriminate]. injection Hres as <-. reflexivity. }
  assert (Hb : base (rset s) = PSet t [] [] (loaded_inputs m P)) by (rewrite (i_set _ _ _ _ _ I); reflexivity).
  pose proof (start m d F t s [] []) as St. rewrite <- Hb in St.
  destruct (read_faces_spec ins (w2 d F s) (rowners s) (fr m d) (size F) (HL m d F Hc t s I) (HR m d t s I) (H0 m d F Hm Hc t s I) (Hfit m d F Hc s) F 0 _ _ St ltac:(lia))
    as (p1 & all1 & G1 & G2 & G3 & G4 & G5).
  { rewrite Hb. intros h []. }
  rewrite <- (texts_same d F s) in G1. fold rest in G1. cbn [plus] in G2. rewrite Hb in G3, G4, G5. cbn in G3, G4, G5.
  exists (DSet p1 (sets (rset s)) (material (rset s))). split; [exact Hw|]. split.
  - apply Hld. rewrite G1. destruct rest; [|reflexivity]. cbn [read_faces] in G1. injection G1 as <-. destruct (rset s); reflexivity.
  - split; [exact (i_mesh _ _ _ _ _ I)|]. split; [exact (types_after s I)|]. eapply finish; eauto; congruence.
Qed.
(** One <p> element for all the faces. *)
Lemma single_p k s p : inv m t (material d) P s -> base (rset s) = PSet t [] [] (loaded_inputs m P) -> p = PSet t (pcounts p) [] (loaded_inputs m P) ->
  exists p1 all1, read_faces k (rowners s) [Elem (tx "p") [] (content (trim (concat (concat (map (map (txt ins w0)) (face_chunks 0 F))))))] p (index_lists (rowners s)) = Some p1 /\
    st ins (w2 d F s) (rowners s) (fr m d) (size F) p1 all1 /\ ptype p1 = t /\ pholes p1 = [] /\
    pcounts p1 = (match k with IsTriangles => pcounts p ++ repeat 3 (size F / 3) | IsPolygons => pcounts p ++ [size F] | IsPolylist => pcounts p end).
Proof.
  intros I Hb Hp. pose proof (start m d F t s (pcounts p) []) as St. rewrite <- Hp in St.
  destruct (read_chunk ins (w2 d F s) (rowners s) (fr m d) (size F) (HL m d F Hc t s I) (HR m d t s I) (H0 m d F Hm Hc t s I) (Hfit m d F Hc s) 0 (size F) _ _ St ltac:(lia))
    as (all1 & ins1 & ms & G1 & G2 & G3 & G4 & G5).
  set (cs := match k with IsTriangles => pcounts p ++ repeat 3 (size F / 3) | IsPolygons => pcounts p ++ [size F] | IsPolylist => pcounts p end).
  exists (PSet t cs [] ins1), all1. split; [|split; [|auto]].
  - cbn [read_faces]. change (named (Elem (tx "p") [] (content (trim (concat (concat (map (map (txt ins w0)) (face_chunks 0 F))))))) "p") with true. cbn [orb].
    unfold read_face. change (named (Elem (tx "p") [] (content (trim (concat (concat (map (map (txt ins w0)) (face_chunks 0 F))))))) "ph") with false. cbv iota.
    rewrite content_direct. rewrite (texts_same d F s), all_text, G1, G2, G3, G4. cbn [read_holes]. unfold cs. rewrite Hp. destruct k; reflexivity.
  - pose proof (G5 cs []) as G. assert (Et : ptype p = t) by (rewrite Hp; reflexivity). rewrite Et in G. exact G.
Qed.
Lemma no_holes_faces : pholes (base d) = [] -> forall f, In f F -> snd f = [].
Proof.
  destruct (c_faces _ _ _ Hc) as (_ & ->). apply plain_faces.
Qed.
Lemma entries_sum : pholes (base d) = [] -> length (pcounts (base d)) = length F.
Proof. destruct (c_faces _ _ _ Hc) as (E1 & E2). intro H. rewrite H in E2. pose proof (hp_length F 0) as L. rewrite <- E2, <- E1 in L. cbn in L. lia. Qed.
Lemma poly3 cs : TestPolyType cs = 3%Z -> cs = repeat 3 (length cs).
Proof.
  unfold TestPolyType. destruct cs as [|c r]; [discriminate|]. destruct (forallb (Nat.eqb c) r) eqn:E; [|discriminate]. intro H. assert (c = 3) by lia. subst c.
  cbn [length repeat]. f_equal. rewrite forallb_forall in E. clear - E. induction r as [|x r IH]; [reflexivity|]. cbn. rewrite <- (IH ltac:(intros; apply E; right; auto)).
  pose proof (E x (or_introl eq_refl)) as Ex. apply Nat.eqb_eq in Ex. congruence.
Qed.
Lemma sum_repeat k : sum (repeat 3 k) = k * 3. Proof. induction k; cbn in *; [reflexivity|]. unfold sum in IHk. rewrite IHk. lia. Qed.
Lemma round_triangles : element_kind (base d) = ("triangles"%string, false, false) -> t = POLYGONS -> pholes (base d) = [] -> TestPolyType (pcounts (base d)) = 3%Z ->
  exists n m1 q, WriteGeometryPolygons m d = Some n /\ LoadMeshChild m0 n = Some (Some (true, m1, q)) /\ loading m m1 /\ types_known m m1 d /\ same_set m d q.
Proof.
  intros Hk Ht Hh H3. destruct inputs_back as (xs & s & Wi & I & Ri). destruct (c_faces _ _ _ Hc) as (E1 & E2).
  pose proof (faces_written false ltac:(intros _; exact (no_holes_faces Hh))) as Wf.
  assert (Hlt : (length (pcounts (base d)) <? length (pholes (base d))) = false) by (rewrite Hh; reflexivity).
  assert (Hpc : primitive_count (base d) = Some (length F)) by (unfold primitive_count; rewrite Ht, (entries_sum Hh), Hh, Nat.sub_0_r; reflexivity).
  set (pe := Elem (tx "p") [] (content (trim (concat (concat (map (map (txt ins w0)) (face_chunks 0 F))))))).
  set (n := Elem (tx "triangles") (attrs_of (material d) (length F)) (xs ++ [pe])).
  exists n, (rmesh s).
  assert (Hw : WriteGeometryPolygons m d = Some n).
  { unfold WriteGeometryPolygons. rewrite Hk, Hlt, Wi, Wf, Hpc. unfold n, attrs_of. cbn [negb andb app]. f_equal. f_equal. f_equal. destruct (material d); reflexivity. }
  assert (Hb : base (rset s) = PSet t [] [] (loaded_inputs m P)) by (rewrite (i_set _ _ _ _ _ I); reflexivity).
  destruct (single_p IsTriangles s (base (rset s)) I Hb ltac:(rewrite Hb; reflexivity)) as (p1 & all1 & G1 & G2 & G3 & G4 & G5). fold pe in G1.
  exists (DSet p1 (sets (rset s)) (material (rset s))). split; [exact Hw|]. split.
  - assert (Hvc : FindChildByType n "vcount" = None).
    { unfold FindChildByType, n. cbn [children_of]. apply no_vcount. apply Forall_app. split.
      - eapply Forall_impl; [|apply (input_names _ _ _ _ _ Wi)]. intros a Ha. apply Ha.
      - repeat constructor. }
    unfold LoadMeshChild. change (prim_of_element n) with (Some POLYGONS). cbn [option_map]. unfold LoadGeometryPolygons.
    change (ptype (base (AddPolygons m0 POLYGONS))) with POLYGONS. cbv iota.
    change (named n "polygons") with false. change (named n "triangles") with true. cbv iota.
    assert (Hmat : ReadNodeProperty n "material" = material d) by (apply material_back; exact (c_material _ _ _ Hc)). rewrite Hmat. change (children_of n) with (xs ++ [pe]). rewrite <- Ht at 1 2. rewrite Ri.
    rewrite (stop_inputs s [pe]) by (intros x Hx; injection Hx as <-; repeat split; reflexivity).
    rewrite (has_it m d F Hm Hc t s I). cbn [negb].
    assert (Hgo : (if Z.eqb (ReadNodeCount n) 0 then Some (Go (base (rset s))) else read_vcount (rmesh s) IsTriangles n (base (rset s))) = Some (Go (base (rset s)))).
    { destruct (Z.eqb _ 0); [reflexivity|]. unfold read_vcount. rewrite Hvc. reflexivity. }
    rewrite Hgo, G1. reflexivity.
  - split; [exact (i_mesh _ _ _ _ _ I)|]. split; [exact (types_after s I)|]. eapply finish; eauto; [|congruence].
    rewrite G5, Hb. cbn [pcounts app]. rewrite (poly3 _ H3) at 1. rewrite E1 in H3 |- *. pose proof (poly3 _ H3) as E3. rewrite E3. f_equal.
    unfold size. rewrite E3 at 1. rewrite sum_repeat, Nat.div_mul by lia. rewrite repeat_length. reflexivity.
Qed.
Lemma position_back s : inv m t (material d) P s -> small_faces m d -> exists ps, PositionSource (rmesh s) = Some ps /\ forall c, In c (pcounts (base d)) -> c <= src_values ps.
Proof.
  intros I (k & ps & A1 & A2 & A3 & A4 & A5). destruct (i_mesh _ _ _ _ _ I) as (L1 & L2 & L3). unfold PositionSource.
  destruct (forall2_nth _ _ _ L2 k ps A1) as (y & Hy & Y1 & Y2 & Y3). pose proof (L3 k ps y A2 A1 Hy) as Ty.
  exists y. rewrite Y2. split; [|exact A5].
  assert (Hbefore : forall j z, j < k -> nth_error (srcs (rmesh s)) j = Some z -> src_type z <> POSITION).
  { intros j z Hj Hz. assert (Lj : j < length (srcs m)) by (assert (k < length (srcs m)) by (apply nth_error_Some; congruence); lia).
    destruct (nth_error (srcs m) j) as [x|] eqn:Ex; [|apply nth_error_None in Ex; lia]. destruct (forall2_nth _ _ _ L2 j x Ex) as (z' & Hz' & _ & _ & [Z3|Z3]); rewrite Hz in Hz'; injection Hz' as <-.
    - rewrite Z3. eapply A4; eauto.
    - rewrite Z3. discriminate. }
  assert (Hy0 : src_type y = POSITION) by congruence. clear - Hbefore Hy Hy0. revert k Hbefore Hy. induction (srcs (rmesh s)) as [|x l IH]; intros [|k] Hb Hy; try discriminate; cbn [find].
  - injection Hy as ->. rewrite Hy0. reflexivity.
  - pose proof (Hb 0 x ltac:(lia) eq_refl) as Hx. destruct (Z.eqb_spec (src_type x) POSITION); [contradiction|]. apply (IH k); auto. intros j z Hj Hz. apply (Hb (S j) z); [lia|exact Hz].
Qed.
Lemma round_polylist : element_kind (base d) = ("polylist"%string, false, true) -> t = POLYGONS -> pholes (base d) = [] -> small_faces m d ->
  exists n m1 q, WriteGeometryPolygons m d = Some n /\ LoadMeshChild m0 n = Some (Some (true, m1, q)) /\ loading m m1 /\ types_known m m1 d /\ same_set m d q.
Proof.
  intros Hk Ht Hh Hs. destruct inputs_back as (xs & s & Wi & I & Ri). destruct (c_faces _ _ _ Hc) as (E1 & E2). destruct (c_counts _ _ _ Hc) as (C1 & C2).
  pose proof (faces_written false ltac:(intros _; exact (no_holes_faces Hh))) as Wf.
  assert (Hlt : (length (pcounts (base d)) <? length (pholes (base d))) = false) by (rewrite Hh; reflexivity).
  assert (Hpc : primitive_count (base d) = Some (length (pcounts (base d)))) by (unfold primitive_count; rewrite Ht, Hh, Nat.sub_0_r; reflexivity).
  set (pe := Elem (tx "p") [] (content (trim (concat (concat (map (map (txt ins w0)) (face_chunks 0 F))))))).
  set (ve := Elem (tx "vcount") [] (content (ToString_u32s [] (map Z.of_nat (pcounts (base d)))))).
  set (n := Elem (tx "polylist") (attrs_of (material d) (length (pcounts (base d)))) (xs ++ [ve; pe])).
  exists n, (rmesh s).
  assert (Hw : WriteGeometryPolygons m d = Some n).
  { unfold WriteGeometryPolygons. rewrite Hk, Hlt, Wi, Wf, Hpc. unfold n, attrs_of. cbn [negb andb app]. f_equal. f_equal. f_equal. destruct (material d); reflexivity. }
  assert (Hb : base (rset s) = PSet t [] [] (loaded_inputs m P)) by (rewrite (i_set _ _ _ _ _ I); reflexivity).
  destruct (single_p IsPolylist s (with_counts (base (rset s)) (pcounts (base d))) I Hb ltac:(rewrite Hb; reflexivity)) as (p1 & all1 & G1 & G2 & G3 & G4 & G5). fold pe in G1.
  exists (DSet p1 (sets (rset s)) (material (rset s))). split; [exact Hw|]. split.
  - assert (Hvc : FindChildByType n "vcount" = Some ve).
    { unfold FindChildByType, n. cbn [children_of]. pose proof (input_names _ _ _ _ _ Wi) as Hx. clear - Hx. induction Hx as [|x l (A & B) _ IH]; [reflexivity|]. cbn [app find]. rewrite B. exact IH. }
    unfold LoadMeshChild. change (prim_of_element n) with (Some POLYGONS). cbn [option_map]. unfold LoadGeometryPolygons.
    change (ptype (base (AddPolygons m0 POLYGONS))) with POLYGONS. cbv iota.
    change (named n "polygons") with false. change (named n "triangles") with false. change (named n "polylist") with true. cbv iota.
    assert (Hmat : ReadNodeProperty n "material" = material d) by (apply material_back; exact (c_material _ _ _ Hc)). rewrite Hmat. change (children_of n) with (xs ++ [ve; pe]). rewrite <- Ht at 1 2. rewrite Ri.
    rewrite (stop_inputs s [ve; pe]) by (intros x Hx; injection Hx as <-; repeat split; reflexivity).
    rewrite (has_it m d F Hm Hc t s I). cbn [negb].
    assert (Hgo : (if Z.eqb (ReadNodeCount n) 0 then Some (Go (base (rset s))) else read_vcount (rmesh s) IsPolylist n (base (rset s))) = Some (Go (with_counts (base (rset s)) (pcounts (base d))))).
    { unfold n at 1. rewrite count_back by exact C2. destruct (Z.eqb_spec (Z.of_nat (length (pcounts (base d)))) 0) as [E|_].
      - assert (pcounts (base d) = []) as -> by (destruct (pcounts (base d)); [reflexivity|discriminate]). rewrite Hb. reflexivity.
      - unfold read_vcount. rewrite Hvc. unfold ve. rewrite content_direct.
        assert (Hcs : ToUInt32List (ToString_u32s [] (map Z.of_nat (pcounts (base d)))) [] = Some (map Z.of_nat (pcounts (base d)))).
        { apply to_list_spec, u32s_parse. apply Forall_forall. intros v Hv. apply in_map_iff in Hv. destruct Hv as (c & <- & Hv). rewrite Forall_forall in C1. specialize (C1 c Hv). cbv beta in C1. lia. }
        rewrite Hcs. destruct (position_back s I Hs) as (ps & Hps & Hle). rewrite Hps.
        assert (Hfa : forallb (fun c => Nat.leb (Z.to_nat c) (src_values ps)) (map Z.of_nat (pcounts (base d))) = true).
        { apply forallb_forall. intros v Hv. apply in_map_iff in Hv. destruct Hv as (c & <- & Hv). rewrite Nat2Z.id. apply Nat.leb_le. auto. }
        rewrite Hfa. do 3 f_equal. rewrite map_map. rewrite <- (map_id (pcounts (base d))) at 2. apply map_ext. intro c. apply Nat2Z.id. }
    rewrite Hgo. change (read_faces IsPolylist (rowners s) [ve; pe]) with (read_faces IsPolylist (rowners s) [pe]). rewrite G1. reflexivity.
  - split; [exact (i_mesh _ _ _ _ _ I)|]. split; [exact (types_after s I)|]. eapply finish; eauto; congruence.
Qed.
End Main.
