(** C92: reading any <skin> element.  C93: a morph controller written to XML and read back. *)
From Coq Require Import List ZArith QArith Qabs Qpower Bool String Permutation Lia Lqa.
From Verif Require Import TextModel TextSpec TextProofs StringModel StringProofs XmlModel EnumModel FloatModel FloatSpec FloatProofs FloatProps SkinModel DaeModel DaeSpec DaeProofs RigModel RigSpec RigTextProofs RigProofs RigWriteProofs RigProps.
Import ListNotations.
Local Open Scope nat_scope.
Local Open Scope list_scope.

(** *** C92 *)
(** C92 (full statement, refuted below): reading a <skin> element ends without undefined behaviour, whatever the element contains.  What
    holds: elements of another name and elements without <joints> or without <vertex_weights> are refused or left out, and
    elements with data in the described form are read. *)
Theorem C92_refused_partial : forall a n,
  (~ is_elem "skin" n -> LoadSkinController a n = Some (LoadedSkin true (Skin unit_matrix [] []) false)) /\
  (forall attrs ch, n = Elem (tx "skin") attrs ch -> Forall (fun c => ~ is_elem "bind_shape_matrix" c) ch ->
     Forall (fun c => ~ is_elem "joints" c) ch \/ Forall (fun c => ~ is_elem "vertex_weights" c) ch ->
     LoadSkinController a n = Some (LoadedSkin false (Skin unit_matrix [] []) false)) /\
  (forall d jfirst, describes n d jfirst -> exists s, LoadSkinController a n = Some s).
Proof.
  intros a n. split; [|split].
  - intro H. unfold LoadSkinController. apply named_not in H. now rewrite H.
  - intros attrs ch -> Hb H. unfold LoadSkinController. change (named (Elem (tx "skin") attrs ch) "skin") with true. cbn [negb].
    unfold load_bind_shape, FindChildByType. cbn [children_of]. rewrite (find_no_elem _ _ Hb). destruct H as [H|H]; rewrite (find_no_elem _ _ H); [reflexivity|].
    destruct (find (fun c => named c "joints") ch); reflexivity.
  - intros d jf H. destruct (load_described a n d jf H) as (s & b & E & _). eauto.
Qed.
Print Assumptions C92_refused_partial.
Example C92_demo : describes (foreign foreign_inputs (tx "0") (tx "2 0 3 1 1 1")) foreign_data false /\
  LoadSkinController Strict (Elem (tx "skin") [] [Elem (tx "joints") [] []]) = Some (LoadedSkin false (Skin unit_matrix [] []) false).
Proof. split; [apply C91_demo|reflexivity]. Qed.

(** A <skin> with its <joints> and <vertex_weights>. *)
Definition skin_with (n jn wn : xml) : Prop :=
  exists attrs ch, n = Elem (tx "skin") attrs ch /\ first_child ch (is_elem "joints") jn /\ first_child ch (is_elem "vertex_weights") wn.
Lemma skin_with_load n jn wn : skin_with n jn wn -> named n "skin" = true /\ FindChildByType n "joints" = Some jn /\ FindChildByType n "vertex_weights" = Some wn.
Proof. intros (attrs & ch & -> & H1 & H2). split; [reflexivity|]. unfold FindChildByType. cbn [children_of]. now rewrite (find_elem _ _ _ H1), (find_elem _ _ _ H2). Qed.
Lemma combiner_none l : Forall (fun c => ~ is_elem "v" c /\ ~ is_elem "vcount" c) l -> snd (combiner_children l) = [].
Proof.
  induction 1 as [|c l (H1 & H2) _ IH]; cbn; auto. apply named_not in H1, H2. rewrite H1, H2. cbn.
  destruct (named c "input"); [destruct (combiner_children l); exact IH|exact IH].
Qed.
Lemma combiner_some pre c post : Forall (fun c => ~ is_elem "v" c /\ ~ is_elem "vcount" c) pre -> is_elem "v" c \/ is_elem "vcount" c ->
  snd (combiner_children (pre ++ c :: post)) = c :: post.
Proof.
  intros H Hc. induction H as [|x l (H1 & H2) _ IH]; cbn.
  - assert (Hi : named c "input" = false). { destruct Hc as [(x & y & ->)|(x & y & ->)]; reflexivity. }
    rewrite Hi. assert (Hv : named c "v" || named c "vcount" = true). { apply orb_true_iff. destruct Hc as [Hc|Hc]; apply named_iff in Hc; auto. }
    now rewrite Hv.
  - apply named_not in H1, H2. rewrite H1, H2. cbn. destruct (named x "input"); [destruct (combiner_children (l ++ c :: post)); exact IH|exact IH].
Qed.
Definition no_element (c : xml) : Prop := is_text c.
(** C92 (full statement, refuted): without <v> and <vcount>, and with a <vcount> (or <v>) that no other element follows, a NULL pointer is
    used, whatever else the element contains. *)
Theorem C92_no_numbers_refuted : forall a n jn wn, skin_with n jn wn ->
  Forall (fun c => ~ is_elem "v" c /\ ~ is_elem "vcount" c) (children_of wn) \/
  (exists pre c post, children_of wn = pre ++ c :: post /\ Forall (fun c => ~ is_elem "v" c /\ ~ is_elem "vcount" c) pre /\
     (is_elem "v" c \/ is_elem "vcount" c) /\ Forall is_text post) ->
  LoadSkinController a n = None.
Proof.
  intros a n jn wn Hn H. destruct (skin_with_load n jn wn Hn) as (E1 & E2 & E3). unfold LoadSkinController. rewrite E1, E2, E3. cbn [negb].
  destruct (load_bind_shape a n); [|reflexivity]. destruct (combiner_children (children_of wn)) as (ins, vals) eqn:E.
  assert (Ev : vals = snd (combiner_children (children_of wn))) by (rewrite E; reflexivity).
  destruct (gather_all a n _ _); [|reflexivity]. destruct H as [H|(pre & c & post & Ec & Hp & Hc & Ht)].
  - rewrite (combiner_none _ H) in Ev. now rewrite Ev.
  - rewrite Ec, (combiner_some pre c post Hp Hc) in Ev. rewrite Ev.
    assert (Ef : find (fun c => match c with Elem _ _ _ => true | Text _ => false end) post = None).
    { clear - Ht. induction Ht as [|x l (t & ->) _ IH]; auto. }
    now rewrite Ef.
Qed.
Print Assumptions C92_no_numbers_refuted.
(** C92 (full statement, refuted): with a count attribute larger than the number of entries of <vcount>, entries behind the list are
    used. *)
Lemma load_vertices_short g idx : forall todo counts offset, List.length counts < todo -> load_vertices g idx todo counts offset = None.
Proof.
  induction todo as [|t IH]; intros counts offset H; [lia|]. cbn. destruct counts as [|c r]; [reflexivity|]. destruct (load_pairs g idx (Z.to_nat c) offset) as [(ps, o)|]; [|reflexivity].
  rewrite IH by (cbn in H; lia). reflexivity.
Qed.
Theorem C92_count_refuted : forall a n jn wn pre vc post t tc counts k, skin_with n jn wn ->
  children_of wn = pre ++ vc :: post -> Forall (fun c => ~ is_elem "v" c /\ ~ is_elem "vcount" c) pre -> is_elem "vcount" vc ->
  has_text vc t -> numbers_of unsigned t counts -> Forall (fun c => 0 <= c < 4294967296)%Z counts ->
  has_attr wn "count" tc -> decimal k tc -> (Z.of_nat (List.length counts) < k < 4294967296)%Z -> LoadSkinController a n = None.
Proof.
  intros a n jn wn pre vc post t tc counts k Hn Ec Hp Hc Ht Hnum Hf Htc Hk Hlt. destruct (skin_with_load n jn wn Hn) as (E1 & E2 & E3). unfold LoadSkinController. rewrite E1, E2, E3. cbn [negb].
  destruct (load_bind_shape a n); [|reflexivity]. destruct (combiner_children (children_of wn)) as (ins, vals) eqn:E.
  assert (Ev : vals = snd (combiner_children (children_of wn))) by (rewrite E; reflexivity).
  destruct (gather_all a n _ _) as [g|]; [|reflexivity]. rewrite Ec, (combiner_some pre vc post Hp (or_intror Hc)) in Ev. rewrite Ev.
  destruct (find _ post) as [v|]; [|reflexivity]. rewrite (has_text_read _ _ Ht).
  assert (Eu : ToUInt32List t [] = Some counts) by (apply to_list_spec; now apply unsigned_parse). rewrite Eu.
  destruct (ToInt32List a (ReadNodeContentDirect v) []) as [idx|]; [|reflexivity].
  assert (En : ReadNodeCount wn = k).
  { unfold ReadNodeCount. rewrite (has_attr_plain _ _ _ Htc), (decimal_dec _ _ Hk); [apply read_u32; lia|]. rewrite (decimal_dec _ _ Hk). apply dec_plain. lia. }
  rewrite En, load_vertices_short by lia. reflexivity.
Qed.
Print Assumptions C92_count_refuted.
(** C92 (full statement, refuted): with fewer poses than joint names, a pose behind the list is used. *)
Theorem C92_poses_refuted : forall a n d jfirst, holds n d jfirst -> List.length (d_poses d) < List.length (d_names d) -> LoadSkinController a n = None.
Proof. exact load_few_poses. Qed.
Print Assumptions C92_poses_refuted.
(** C92 (full statement, refuted): with an empty <bind_shape_matrix>, a matrix that was not initialised is used. *)
Theorem C92_bind_shape_refuted : forall a n attrs ch e, n = Elem (tx "skin") attrs ch -> first_child ch (is_elem "bind_shape_matrix") e -> has_text e [] ->
  LoadSkinController a n = None.
Proof.
  intros a n attrs ch e -> Hf Ht. unfold LoadSkinController. change (named (Elem (tx "skin") attrs ch) "skin") with true. cbn [negb].
  unfold load_bind_shape, FindChildByType. cbn [children_of]. now rewrite (find_elem _ _ _ Hf), (has_text_read _ _ Ht).
Qed.
Print Assumptions C92_bind_shape_refuted.
(** C92 (full statement, refuted): with an empty <v> and a vertex with influences, numbers behind the empty list are used. *)
Lemma load_pairs_empty g k : load_pairs g [] (S k) 0 = None.
Proof. cbn. unfold load_pair, at_index. destruct (Z.of_nat 0 + joint_at g <? 0)%Z; [reflexivity|]. destruct (Z.to_nat (Z.of_nat 0 + joint_at g)); reflexivity. Qed.
Theorem C92_empty_v_refuted : forall a n jn wn pre vc mid v post t tc c counts k, skin_with n jn wn ->
  children_of wn = pre ++ vc :: mid ++ v :: post -> Forall (fun c => ~ is_elem "v" c /\ ~ is_elem "vcount" c) pre -> is_elem "vcount" vc ->
  Forall is_text mid -> is_elem "v" v -> has_text v [] -> has_text vc t -> numbers_of unsigned t (c :: counts) -> Forall (fun c => 0 <= c < 4294967296)%Z (c :: counts) -> (0 < c)%Z ->
  has_attr wn "count" tc -> decimal k tc -> (0 < k < 4294967296)%Z -> LoadSkinController a n = None.
Proof.
  intros a n jn wn pre vc mid v post t tc c counts k Hn Ec Hp Hc Hm Hv Hvt Ht Hnum Hf Hpos Htc Hk Hlt. destruct (skin_with_load n jn wn Hn) as (E1 & E2 & E3). unfold LoadSkinController. rewrite E1, E2, E3. cbn [negb].
  destruct (load_bind_shape a n); [|reflexivity]. destruct (combiner_children (children_of wn)) as (ins, vals) eqn:E.
  assert (Ev : vals = snd (combiner_children (children_of wn))) by (rewrite E; reflexivity).
  destruct (gather_all a n _ _) as [g|]; [|reflexivity]. rewrite Ec, (combiner_some pre vc _ Hp (or_intror Hc)) in Ev. rewrite Ev.
  assert (Ef : find (fun c => match c with Elem _ _ _ => true | Text _ => false end) (mid ++ v :: post) = Some v).
  { destruct Hv as (va & vch & ->). clear - Hm. induction Hm as [|x mid (u & ->) _ IH]; auto. }
  rewrite Ef, (has_text_read _ _ Ht), (has_text_read _ _ Hvt).
  assert (Eu : ToUInt32List t [] = Some (c :: counts)) by (apply to_list_spec; now apply unsigned_parse). rewrite Eu. change (ToInt32List a [] []) with (Some (@nil Z)).
  assert (En : ReadNodeCount wn = k).
  { unfold ReadNodeCount. rewrite (has_attr_plain _ _ _ Htc), (decimal_dec _ _ Hk); [apply read_u32; lia|]. rewrite (decimal_dec _ _ Hk). apply dec_plain. lia. }
  rewrite En. destruct (Z.to_nat k) as [|m0] eqn:Em; [lia|]. cbn [load_vertices]. destruct (Z.to_nat c) as [|j] eqn:Ej; [lia|]. now rewrite load_pairs_empty.
Qed.
Print Assumptions C92_empty_v_refuted.
(** C92 (full statement, refuted): without weights, the first weight is used although there is none. *)
Theorem C92_weights_refuted : exists n, LoadSkinController Strict n = None /\
  n = Elem (tx "skin") []
    [Elem (tx "joints") [] []; Elem (tx "vertex_weights") [(tx "count", tx "1")] [Elem (tx "vcount") [] [Text (tx "1")]; Elem (tx "v") [] [Text (tx "0 0")]]].
Proof. eexists. split; [|reflexivity]. vm_compute. reflexivity. Qed.
Print Assumptions C92_weights_refuted.
(** Elements of the refuted kinds. *)
Definition skin_of_weights (count : list Z) (l : list xml) : xml := Elem (tx "skin") [] [Elem (tx "joints") [] []; Elem (tx "vertex_weights") [(tx "count", count)] l].
Example C92_crash_demo :
  skin_with (skin_of_weights (tx "2") [Elem (tx "vcount") [] [Text (tx "1")]]) (Elem (tx "joints") [] []) (Elem (tx "vertex_weights") [(tx "count", tx "2")] [Elem (tx "vcount") [] [Text (tx "1")]]) /\
  map (LoadSkinController Strict)
    [skin_of_weights (tx "2") []; skin_of_weights (tx "2") [Elem (tx "vcount") [] [Text (tx "0")]];
     skin_of_weights (tx "2") [Elem (tx "vcount") [] [Text (tx "0")]; Elem (tx "v") [] []];
     skin_of_weights (tx "1") [Elem (tx "vcount") [] [Text (tx "1")]; Elem (tx "v") [] []]] = [None; None; None; None] /\
  exists s, LoadSkinController Strict (skin_of_weights (tx "2") [Elem (tx "vcount") [] [Text (tx "0 0")]; Elem (tx "v") [] []]) = Some (LoadedSkin true s false) /\ influences s = [[]; []].
Proof.
  split; [|split; [vm_compute; reflexivity|eexists; split; [vm_compute; reflexivity|reflexivity]]].
  do 2 eexists. split; [reflexivity|]. split; [apply first_here; elem|]. apply first_skip; [other|]. apply first_here. elem.
Qed.

(** *** C93 *)
(** What remains of a target: the geometry if the document has it, else none; a target without geometry stays one unless the document
    has a geometry of the id "UNKNOWN_IDREF". *)
Definition target_remains (eps : Q) (geometries : list (list Z)) (t t' : option (list Z) * Q) : Prop :=
  remains eps (snd t) (snd t') /\
  forall i, fst t' = Some i <-> In i geometries /\ (fst t = Some i \/ fst t = None /\ i = tx "UNKNOWN_IDREF").
(** C93 (full statement, refuted below): a morph controller that is written and read back has the same method, base, targets and weights.
    What holds, for all morphs with ids that are words: the method, unless it is UNKNOWN; the id of the base, as "#id"; the
    geometries of the targets that are in the document when the controller is read; six digits of the weights. *)
Record proper_morph (m : morph) : Prop := {
  q_method : method m = 0%Z \/ method m = 1%Z;
  q_base : plain (base_target m);
  q_ids : Forall (fun t => forall i, fst t = Some i -> word i) (targets m);
  q_finite : Forall (fun t => finite (snd t)) (targets m)
}.
Lemma joined_list l : Forall word l -> words_of (strings_text l) l.
Proof.
  intro H. assert (G : forall (l : list (list Z)) (m : mat), map fst (map (fun w => (w, m)) l) = l /\ List.concat (map (fun w => [w]) l) = l).
  { clear. induction l as [|w l IH]; intro m; cbn; auto. destruct (IH m). split; congruence. }
  destruct (G l unit_matrix) as (G1 & G2). rewrite <- G1 at 1. rewrite <- G2. apply joined_words. clear - H. induction H; cbn; constructor; auto. cbn. now apply word_words.
Qed.
Lemma existsb_in i l : existsb (text_eq i) l = true <-> In i l.
Proof.
  rewrite existsb_exists. split.
  - intros (x & Hx & E). apply text_eq_spec in E. now subst.
  - intro H. exists i. split; auto. apply text_eq_refl.
Qed.
Lemma load_targets_spec geos : forall ids ws, List.length ids <= List.length ws ->
  load_targets geos ids ws = Some (map (fun x => ((if existsb (text_eq (fst x)) geos then Some (fst x) else None), snd x)) (combine ids ws)).
Proof.
  induction ids as [|i ids IH]; intros ws H; [reflexivity|]. destruct ws as [|w ws]; [cbn in H; lia|]. cbn. rewrite IH by (cbn in H; lia). reflexivity.
Qed.
Lemma unknown_word : word (tx "UNKNOWN_IDREF"). Proof. apply word_check; [reflexivity|discriminate]. Qed.
Lemma method_read v : v = 0%Z \/ v = 1%Z -> MethodFromString (XmlToString (MethodToString v)) = v.
Proof. intros [-> | ->]; reflexivity. Qed.
Theorem morph_data a eps geos id m l n : machine_eps eps -> plain id -> plain (base_target m) -> Forall (fun t => finite (snd t)) (targets m) ->
  words_of (strings_text (map target_id (targets m))) l -> WriteMorphController eps id m n ->
  exists rs, LoadMorphController a geos n = option_map (Morph (MethodFromString (XmlToString (MethodToString (method m)))) (match base_target m with [] => [] | b => 35%Z :: b end))
      (load_targets geos l rs) /\ Forall2 (remains eps) (map snd (targets m)) rs.
Proof.
  intros He Hid Hb Hf Hw (tw & Tw & ->).
  destruct (floats_written eps (map snd (targets m)) He) with (t := tw) as (rw & Nw & Rw & _); auto.
  { clear - Hf. induction Hf; cbn; constructor; auto. }
  assert (PT : proper_id (id ++ tx "-targets")) by (apply proper_suffix; cbn; auto).
  assert (PW : proper_id (id ++ tx "-morph_weights")) by (apply proper_suffix; cbn; auto 10).
  assert (TW : id ++ tx "-targets" <> id ++ tx "-morph_weights") by (intro X; apply app_inv_head in X; discriminate).
  set (st := AddSource (id ++ tx "-targets") "IDREF_array" (strings_text (map target_id (targets m))) (List.length (targets m)) (List.length (targets m)) 1 (Some [tx "MORPH_TARGET"]) (tx "IDREF")).
  set (sw := AddSource (id ++ tx "-morph_weights") "float_array" tw (List.length (targets m)) (List.length (targets m)) 1 (Some [tx "MORPH_WEIGHT"]) (tx "float")).
  unfold morph_element. fold st sw.
  destruct (input_written (id ++ tx "-targets") "MORPH_TARGET" (-1) (proj2 PT) ltac:(discriminate)) as (i1 & -> & Ei1 & Hi1).
  destruct (input_written (id ++ tx "-morph_weights") "MORPH_WEIGHT" (-1) (proj2 PW) ltac:(discriminate)) as (i2 & -> & Ei2 & Hi2). cbn [Z.leb Z.compare] in Hi1, Hi2.
  set (attrs := (tx "method", MethodToString (method m)) :: match base_target m with [] => [] | b => [(tx "source", 35%Z :: b)] end).
  set (ch := [st; sw; Elem (tx "targets") [] ([i1] ++ [i2])]). set (n := Elem (tx "morph") attrs ch).
  assert (Ids : forall c v, In c ch -> has_attr c "id" v -> plain v).
  { intros c v Hc Hv. cbn in Hc. destruct Hc as [<- | [<- | [<- | []]]]; [| |exfalso; revert Hv; apply no_id_other; cbn; tauto].
    - destruct (list_eq_dec Z.eq_dec v (id ++ tx "-targets")) as [-> | Hne]; [apply PT|]. exfalso. revert Hv. apply (source_other (id ++ tx "-targets")). intro Ev. apply Hne. symmetry. exact Ev.
    - destruct (list_eq_dec Z.eq_dec v (id ++ tx "-morph_weights")) as [-> | Hne]; [apply PW|]. exfalso. revert Hv. apply (source_other (id ++ tx "-morph_weights")). intro Ev. apply Hne. symmetry. exact Ev. }
  assert (FT : FindChildById n (35%Z :: id ++ tx "-targets") = Some st).
  { apply (find_by_id n attrs ch _ st (or_intror eq_refl) PT Ids). apply first_here. apply source_id. }
  assert (FW : FindChildById n (35%Z :: id ++ tx "-morph_weights") = Some sw).
  { apply (find_by_id n attrs ch _ sw (or_intror eq_refl) PW Ids). apply first_skip; [apply (source_other _ _ _ _ _ _ _ _ _ TW)|]. apply first_here. apply source_id. }
  assert (Pl : forall k, In k ["MORPH_TARGET"; "MORPH_WEIGHT"]%string -> plain (tx k)).
  { intros k [<- | [<- | []]]; cbn; (split; [repeat (apply Forall_cons; [lia|]); apply Forall_nil|cbn; intuition discriminate]). }
  destruct (input_parts _ _ _ _ Hi1 PT (Pl "MORPH_TARGET"%string ltac:(cbn; auto))) as (A1 & A2 & _).
  destruct (input_parts _ _ _ _ Hi2 PW (Pl "MORPH_WEIGHT"%string ltac:(cbn; auto))) as (B1 & B2 & _).
  assert (RS : ReadSourceStrings (Some st) [] = Some l).
  { apply read_words. destruct (source_array (id ++ tx "-targets") "IDREF_array" (strings_text (map target_id (targets m))) (List.length (targets m)) (List.length (targets m)) 1 (Some [tx "MORPH_TARGET"]) (tx "IDREF"))
      as (nm & at' & c & x & E & Hx & Hc). exists nm, at', c, x, (strings_text (map target_id (targets m))). split; [exact E|]. split; [exact Hx|]. split; [exact Hw|].
    right. split; [|exact Hc]. unfold AddSource in E. injection E as _ _ <-. repeat (apply Forall_cons; [other|]). apply Forall_nil. }
  assert (RF : exists rs, ReadSourceFloats a (Some sw) [] = Some rs /\ Forall2 (fun v r => r == v)%Q rw rs).
  { apply read_floats. destruct (source_array (id ++ tx "-morph_weights") "float_array" tw (List.length (targets m)) (List.length (targets m)) 1 (Some [tx "MORPH_WEIGHT"]) (tx "float"))
      as (nm & at' & c & x & E & Hx & Hc). exists nm, at', c, x, tw. auto. }
  destruct RF as (rs & RF & Hrs). exists rs. split.
  { unfold LoadMorphController. change (named n "morph") with true. cbn [negb].
    assert (Fc : FindChildByType n "targets" = Some (Elem (tx "targets") [] ([i1] ++ [i2]))).
    { unfold FindChildByType. cbn [children_of n]. apply find_elem. do 2 (apply first_skip; [other|]). apply first_here. elem. }
    rewrite Fc. cbn [children_of app filter]. rewrite (proj2 (named_iff _ _) Ei1), (proj2 (named_iff _ _) Ei2). cbn [fold_left].
    unfold morph_input. rewrite A1, A2, B1, B2, FT, FW. change (text_eq (tx "MORPH_TARGET") (tx "MORPH_WEIGHT") || text_eq (tx "MORPH_TARGET") (tx "WEIGHT")) with false.
    change (text_eq (tx "MORPH_TARGET") (tx "MORPH_TARGET") || text_eq (tx "MORPH_TARGET") (tx "TARGET")) with true.
    change (text_eq (tx "MORPH_WEIGHT") (tx "MORPH_WEIGHT") || text_eq (tx "MORPH_WEIGHT") (tx "WEIGHT")) with true. cbv iota. cbn [fst snd].
    rewrite RS, RF. assert (Em : ReadNodeProperty n "method" = XmlToString (MethodToString (method m))) by reflexivity. rewrite Em. clear Em.
    assert (Eb : ReadNodeProperty n "source" = match base_target m with [] => [] | b => 35%Z :: b end); [|now rewrite Eb].
    unfold n, attrs. destruct (base_target m) as [|c b]; [reflexivity|].
      change (ReadNodeProperty (Elem (tx "morph") [(tx "method", MethodToString (method m)); (tx "source", 35%Z :: c :: b)] ch) "source") with (XmlToString (35%Z :: c :: b)).
      apply legal_hash. split; [exact Hb|discriminate]. }
  { clear - Rw Hrs. revert rs Hrs. induction Rw as [|q r l rw R1 _ IH]; intros rs Hrs; inversion Hrs; subst; constructor; auto. apply (remains_eq eps q r); auto. }
Qed.
Theorem morph_read a eps geos id m n : machine_eps eps -> plain id -> proper_morph m -> WriteMorphController eps id m n ->
  exists m', LoadMorphController a geos n = Some m' /\ method m' = method m /\ base_target m' = (match base_target m with [] => [] | b => 35%Z :: b end) /\
    Forall2 (target_remains eps geos) (targets m) (targets m').
Proof.
  intros He Hid [Hm Hb Hi Hf] Hn.
  assert (Hw : words_of (strings_text (map target_id (targets m))) (map target_id (targets m))).
  { apply joined_list. clear - Hi. induction Hi as [|[o q] l H _ IH]; cbn; constructor; auto. destruct o as [i|]; cbn; [now apply H|apply unknown_word]. }
  destruct (morph_data a eps geos id m _ n He Hid Hb Hf Hw Hn) as (rs & Load & Rs). pose proof (Forall2_len _ _ _ Rs) as L. rewrite map_length in L.
  rewrite load_targets_spec in Load by (rewrite map_length; lia). rewrite (method_read _ Hm) in Load. cbn [option_map] in Load.
  eexists. split; [exact Load|]. split; [reflexivity|]. split; [reflexivity|]. cbn [targets].
  clear - Rs. revert rs Rs. induction (targets m) as [|[o q] l IH]; intros rs Rs; cbn in Rs; inversion Rs as [|? r ? rs' R1 R2]; subst; cbn [map combine]; constructor; [|now apply IH].
  split; [exact R1|]. cbn [fst snd]. intro i. unfold target_id at 1 2. cbn [fst].
  destruct (existsb (text_eq match o with Some j => j | None => tx "UNKNOWN_IDREF" end) geos) eqn:Ex.
  - apply existsb_in in Ex. split.
    + intro E. injection E as <-. split; [exact Ex|]. destruct o; auto.
    + intros (Hin & [-> | (-> & ->)]); reflexivity.
  - split; [discriminate|]. intros (Hin & H). exfalso. apply existsb_in in Hin. destruct H as [-> | (-> & ->)]; congruence.
Qed.
Theorem C93_round_trip_partial : forall a eps geometries id m n, machine_eps eps -> plain id -> proper_morph m -> WriteMorphController eps id m n ->
  exists m', LoadMorphController a geometries n = Some m' /\ method m' = method m /\ base_target m' = (match base_target m with [] => [] | b => 35%Z :: b end) /\
    Forall2 (target_remains eps geometries) (targets m) (targets m').
Proof. exact morph_read. Qed.
Print Assumptions C93_round_trip_partial.
Theorem C93_writable : forall eps id m, machine_eps eps -> exists n, WriteMorphController eps id m n.
Proof. intros eps id m He. destruct (floats_writable eps (map snd (targets m)) He) as (t & H). exists (morph_element id m t), t. auto. Qed.
Print Assumptions C93_writable.
Definition face : morph := Morph 1 (tx "head") [(Some (tx "smile"), (1 # 2)%Q); (None, 0%Q); (Some (tx "frown"), 1%Q)].
Lemma face_proper : proper_morph face.
Proof.
  constructor; cbn.
  - auto.
  - split; [repeat (apply Forall_cons; [lia|]); apply Forall_nil|cbn; intuition discriminate].
  - repeat (apply Forall_cons; [cbn; intros i E; first [discriminate E|injection E as <-; apply word_check; [reflexivity|discriminate]]|]). apply Forall_nil.
  - repeat (apply Forall_cons; [cbn; apply small_finite; vm_compute; discriminate|]). apply Forall_nil.
Qed.
Example C93_demo : proper_morph face /\ exists q, (q == 1 # 2)%Q /\
  LoadMorphController Strict [tx "head"; tx "smile"] (morph_element (tx "face") face (tx "0.5 0 1")) =
  Some (Morph 1 (tx "#head") [(Some (tx "smile"), q); (None, 0%Q); (None, 1%Q)]).
Proof. split; [exact face_proper|]. exists (5 # 10)%Q. split; [reflexivity|]. vm_compute. reflexivity. Qed.
(** C93 (full statement, refuted): the method UNKNOWN comes back as NORMALIZED. *)
Theorem C93_unknown_method_refuted : forall a eps geometries id m n m', machine_eps eps -> plain id -> proper_morph (Morph 0 (base_target m) (targets m)) -> method m = 2%Z ->
  WriteMorphController eps id m n -> LoadMorphController a geometries n = Some m' -> method m' = 0%Z.
Proof.
  intros a eps geos id m n m' He Hid [_ Hb Hi Hf] Hm Hn E. cbn in Hb, Hi, Hf.
  assert (Hw : words_of (strings_text (map target_id (targets m))) (map target_id (targets m))).
  { apply joined_list. clear - Hi. induction Hi as [|[o q] l H _ IH]; cbn; constructor; auto. destruct o as [i|]; cbn; [now apply H|apply unknown_word]. }
  destruct (morph_data a eps geos id m _ n He Hid Hb Hf Hw Hn) as (rs & Load & _). rewrite E in Load. destruct (load_targets _ _ _); [|discriminate].
  cbn in Load. injection Load as ->. cbn. rewrite Hm. reflexivity.
Qed.
Print Assumptions C93_unknown_method_refuted.
(** C93 (full statement, refuted): if the ids of the targets are more words than there are targets, a weight behind the list is used. *)
Lemma load_targets_none geos : forall ids ws, List.length ws < List.length ids -> load_targets geos ids ws = None.
Proof.
  induction ids as [|i ids IH]; intros ws H; [cbn in H; lia|]. destruct ws as [|w ws]; [reflexivity|]. cbn. rewrite IH by (cbn in H; lia). reflexivity.
Qed.
Theorem C93_more_words_refuted : forall a eps geometries id m wss n, machine_eps eps -> plain id -> plain (base_target m) -> Forall (fun t => finite (snd t)) (targets m) ->
  Forall2 (fun t ws => exists i, fst t = Some i /\ words_of i ws) (targets m) wss -> List.length (targets m) < List.length (List.concat wss) ->
  WriteMorphController eps id m n -> LoadMorphController a geometries n = None.
Proof.
  intros a eps geos id m wss n He Hid Hb Hf Hi Hlt Hn.
  assert (Hw : words_of (strings_text (map target_id (targets m))) (List.concat wss)).
  { assert (E : map target_id (targets m) = map fst (map (fun t => (target_id t, unit_matrix)) (targets m))) by (rewrite map_map; reflexivity).
    rewrite E. apply joined_words. clear - Hi. induction Hi as [|[o q] ws l wss (i & E & H) _ IH]; cbn; constructor; auto. cbn in *. now rewrite E. }
  destruct (morph_data a eps geos id m _ n He Hid Hb Hf Hw Hn) as (rs & Load & Rs). pose proof (Forall2_len _ _ _ Rs) as L. rewrite map_length in L.
  rewrite load_targets_none in Load by lia. exact Load.
Qed.
Print Assumptions C93_more_words_refuted.
(** C93 (full statement, refuted): reading a <morph> without <targets> uses a NULL pointer. *)
Theorem C93_no_targets_refuted : forall a geometries attrs ch, Forall (fun c => ~ is_elem "targets" c) ch ->
  LoadMorphController a geometries (Elem (tx "morph") attrs ch) = None.
Proof.
  intros a geos attrs ch H. unfold LoadMorphController. change (named (Elem (tx "morph") attrs ch) "morph") with true. cbn [negb].
  unfold FindChildByType. cbn [children_of]. now rewrite (find_no_elem _ _ H).
Qed.
Print Assumptions C93_no_targets_refuted.
Example C93_loss_demo : Forall2 (fun (t : option (list Z) * Q) ws => exists i, fst t = Some i /\ words_of i ws) [(Some (tx "big smile"), 1%Q)] [[tx "big"; tx "smile"]] /\
  LoadMorphController Strict [tx "big smile"] (morph_element (tx "face") (Morph 0 [] [(Some (tx "big smile"), 1%Q)]) (tx "1")) = None /\
  LoadMorphController Strict [] (morph_element (tx "face") (Morph 2 [] []) []) = Some (Morph 0 [] []).
Proof.
  split; [|split; vm_compute; reflexivity]. apply Forall2_cons; [|apply Forall2_nil]. eexists. split; [reflexivity|].
  change (words_of (tx "big" ++ 32%Z :: tx "smile") ([tx "big"] ++ [tx "smile"])). apply words_join; apply word_words, word_check; try reflexivity; discriminate.
Qed.
