(** Lemmas for the import of meshes. *)
From Coq Require Import String List ZArith QArith Bool Lia.
From Verif Require Import TextModel TextSpec TextProofs StringModel StringProofs XmlModel EnumModel FloatModel FloatSpec PolyModel TriModel DaeModel DaeSpec DaeProofs DaeInputProofs
  RigModel RigSpec RigTextProofs RigProofs CustomSpec AssetSpec AnimModel MeshModel MeshSpec.
From Verif Require WireProofs WireWriteProofs.
Import ListNotations.
Local Open Scope nat_scope.
Local Open Scope list_scope.

(** *** Sources *)
Lemma stride_said n k : says_stride n k -> Z.to_nat (stride_of (FindTechniqueAccessor n)) = k.
Proof.
  unfold stride_of, FindTechniqueAccessor. intros [(acc & t & (tc & H1 & H2) & Ha & Hd & Hr)|(-> & [(acc & (tc & H1 & H2) & Ha)|[H|(tc & H1 & H)]])].
  - rewrite (WireProofs.child_found _ _ _ H1). cbn [child_of]. rewrite (WireProofs.child_found _ _ _ H2). cbn [property_of].
    rewrite (decimal_dec _ t Hd) in Ha. rewrite (has_attr_plain _ _ _ Ha) by (apply dec_plain; lia).
    rewrite read_u32 by lia. destruct (_ =? 0)%Z eqn:E; [apply Z.eqb_eq in E; lia|]. apply Nat2Z.id.
  - rewrite (WireProofs.child_found _ _ _ H1). cbn [child_of]. rewrite (WireProofs.child_found _ _ _ H2). cbn [property_of]. rewrite (no_attr_read _ _ Ha). reflexivity.
  - rewrite (WireProofs.child_missing _ _ H). reflexivity.
  - rewrite (WireProofs.child_found _ _ _ H1). cbn [child_of]. rewrite (WireProofs.child_missing _ _ H). reflexivity.
Qed.
Lemma source_said a n s : says_source n s -> exists s', LoadGeometrySource a n = Some s' /\ same_source s s' /\ g_type s' = UNKNOWN.
Proof.
  intros [(Hi & Hl) Hn Hs (v & Hf & Hv)]. destruct (read_floats a n v [] Hf) as (rs & Hr & Hrs). unfold LoadGeometrySource. rewrite Hr.
  eexists. split; [reflexivity|]. split; [|reflexivity]. constructor; cbn.
  - apply has_attr_plain; [exact Hi|apply Hl].
  - destruct Hn as [(H & ->)|(H & Hp)]; [now apply no_attr_read|now apply has_attr_plain].
  - now apply stride_said.
  - clear Hr. revert rs Hrs. clear - Hv. induction Hv as [|x y v l Hxy Hv IH]; intros rs Hrs; inversion Hrs as [|? r ? rs' Hr Hrs']; subst; constructor.
    + now rewrite Hxy, Hr.
    + now apply IH.
Qed.
Lemma picked_filter name l m : picked name l m -> filter (fun c => named c name) l = m.
Proof. induction 1 as [|c l m Hc _ IH|c l m Hc _ IH]; cbn; auto; [apply named_not in Hc; now rewrite Hc|apply named_iff in Hc; rewrite Hc; now f_equal]. Qed.
Lemma sources_said a l els ss : picked "source" l els -> Forall2 says_source els ss ->
  exists ss', load_sources a l = Some ss' /\ Forall2 same_source ss ss' /\ Forall (fun s => g_type s = UNKNOWN) ss'.
Proof.
  intro H. revert ss. induction H as [|c l m Hc _ IH|c l m Hc _ IH]; intros ss F.
  - inversion F; subst. exists []. repeat constructor.
  - cbn. apply named_not in Hc. rewrite Hc. now apply IH.
  - inversion F as [|? s ? ss0 Hs F0]; subst. cbn. apply named_iff in Hc. rewrite Hc. destruct (source_said a c s Hs) as (s' & -> & S1 & S2).
    destruct (IH ss0 F0) as (ss' & -> & S3 & S4). exists (s' :: ss'). repeat split; constructor; auto.
Qed.
Lemma same_ids ss ss' : Forall2 same_source ss ss' -> map g_id ss' = map g_id ss.
Proof. induction 1 as [|s s' l l' H _ IH]; [reflexivity|]. cbn. rewrite IH. f_equal. apply H. Qed.

(** *** Per-vertex inputs *)
Definition step (m : mesh) (p : nat * Z) : mesh := AddVertexSource (SetSourceType m (fst p) (snd p)) (fst p).
Lemma set_type_ids m k t : map src_id (srcs (SetSourceType m k t)) = map src_id (srcs m).
Proof.
  unfold SetSourceType. destruct (nth_error (srcs m) k) as [x|] eqn:E; [|reflexivity]. cbn [srcs].
  revert k E. induction (srcs m) as [|y l IH]; intros k E; [destruct k; discriminate|]. destruct k as [|k]; cbn in *; [injection E as ->; reflexivity|]. f_equal. now apply IH.
Qed.
Lemma add_vertex_srcs m k : srcs (AddVertexSource m k) = srcs m.
Proof. unfold AddVertexSource. now destruct (IsVertexSource m k). Qed.
Lemma step_ids m p : map src_id (srcs (step m p)) = map src_id (srcs m).
Proof. unfold step. rewrite add_vertex_srcs. apply set_type_ids. Qed.
Lemma word_semantic t v : semantic_word t v -> SemanticFromString t = v.
Proof.
  intros [(w & H & ->)|(H & ->)].
  - cbn in H. repeat (destruct H as [H|H]; [injection H as <- <-; reflexivity|]). destruct H.
  - unfold SemanticFromString. assert (C : forall w x, In (w, x) (chain FUDaeGeometryInput) -> t <> tx w).
    { intros w x Hw. apply (H w x). cbn in Hw |- *. intuition. }
    clear H. revert C. generalize (chain FUDaeGeometryInput). induction l as [|[w x] l IH]; intro C; [reflexivity|]. cbn [from_chain].
    destruct (text_eq t (tx w)) eqn:E; [apply text_eq_spec in E; now apply (C w x (or_introl eq_refl)) in E|]. apply IH. intros w1 x1 H1. apply (C w1 x1). now right.
Qed.
Lemma drop_legal id : legal_id id -> drop_hash (35%Z :: id) = id /\ drop_hash id = id.
Proof. intros (_ & Hn & Hh). split; [reflexivity|]. destruct id as [|c r]; [congruence|]. cbn in *. destruct (Z.eqb_spec c 35); congruence. Qed.
Lemma hash_plain id : legal_id id -> plain (35%Z :: id).
Proof. intros ((H1 & H2) & _). split; [constructor; [lia|exact H1]|]. intros [X|X]; [discriminate|now apply H2]. Qed.
Lemma find_by_ids l ids k id : map src_id l = ids -> NoDup ids -> nth_error ids k = Some id -> find_id l id = Some k.
Proof.
  intros <- Hd H. rewrite nth_error_map in H. destruct (nth_error l k) as [s|] eqn:E; [|discriminate]. injection H as <-. now apply find_id_spec.
Qed.
Lemma vertices_said ss ins vs : vertex_inputs ss ins vs -> Forall (fun s => legal_id (g_id s)) ss -> NoDup (map g_id ss) ->
  forall m, map src_id (srcs m) = map g_id ss -> read_vertices m ins = (true, fold_left step vs m).
Proof.
  intros H Hl Hd. induction H as [|i l vs Hi _ IH|i l k v vs ((t & Ht & Hp & Hw) & s & Hs & Ha) Hv _ IH]; intros m Hm; [reflexivity| |].
  - cbn [read_vertices]. rewrite (has_attr_plain _ _ _ Hi) by WireWriteProofs.plain_word. cbn -[read_vertices]. now apply IH.
  - cbn [read_vertices]. rewrite (has_attr_plain _ _ _ Ht Hp), (word_semantic t v Hw). destruct (Z.eqb_spec v VERTEX); [contradiction|].
    assert (Hls : legal_id (g_id s)) by (apply nth_error_In in Hs; rewrite Forall_forall in Hl; now apply Hl).
    rewrite (has_attr_plain _ _ _ Ha (hash_plain _ Hls)). unfold FindSourceById. rewrite (proj1 (drop_legal _ Hls)).
    rewrite (find_by_ids (srcs m) (map g_id ss) k (g_id s) Hm Hd) by (rewrite nth_error_map, Hs; reflexivity).
    cbn [fold_left]. apply (IH (step m (k, v))). rewrite step_ids. exact Hm.
Qed.
Lemma step_frame m p : mesh_id (step m p) = mesh_id m /\
  vertex_srcs (step m p) = (if existsb (Nat.eqb (fst p)) (vertex_srcs m) then vertex_srcs m else vertex_srcs m ++ [fst p]) /\
  Forall2 (fun s s1 => src_id s1 = src_id s /\ src_values s1 = src_values s) (srcs m) (srcs (step m p)).
Proof.
  unfold step, AddVertexSource, SetSourceType, IsVertexSource.
  assert (R : forall l, Forall2 (fun s s1 : src => src_id s1 = src_id s /\ src_values s1 = src_values s) l l) by (induction l; constructor; auto).
  destruct (nth_error (srcs m) (fst p)) as [x|] eqn:E; cbn [vertex_srcs]; destruct (existsb _ _); cbn [mesh_id vertex_srcs srcs]; split; auto; split; auto.
  - now apply (forall2_set _ _ _ (R (srcs m)) _ x).
  - now apply (forall2_set _ _ _ (R (srcs m)) _ x).
Qed.
Definition absent (acc : list nat) (k : nat) : bool := negb (existsb (Nat.eqb k) acc).
Lemma filter_filter {A} (f g : A -> bool) l : filter f (filter g l) = filter (fun x => g x && f x) l.
Proof. induction l as [|x l IH]; [reflexivity|]. cbn. destruct (g x) eqn:E; cbn; rewrite ?IH; reflexivity. Qed.
Lemma steps_vertex vs : forall m, vertex_srcs (fold_left step vs m) = vertex_srcs m ++ filter (absent (vertex_srcs m)) (once (map fst vs)).
Proof.
  induction vs as [|p vs IH]; intro m; [cbn; now rewrite app_nil_r|]. cbn [fold_left map once filter]. rewrite IH.
  destruct (step_frame m p) as (_ & -> & _). destruct (existsb (Nat.eqb (fst p)) (vertex_srcs m)) eqn:E.
  - unfold absent at 2. rewrite E. cbn [negb]. f_equal. rewrite filter_filter. apply filter_ext_in. intros k _. destruct (Nat.eqb_spec k (fst p)) as [->|]; [|reflexivity]. unfold absent. now rewrite E.
  - unfold absent at 2. rewrite E. cbn [negb]. rewrite <- app_assoc. cbn [app]. do 2 f_equal. rewrite filter_filter. apply filter_ext. intro k. unfold absent. rewrite existsb_app. cbn.
    rewrite orb_false_r, negb_orb. apply andb_comm.
Qed.
Lemma steps_once vs m : vertex_srcs m = [] -> vertex_srcs (fold_left step vs m) = once (map fst vs).
Proof.
  intro H. rewrite steps_vertex, H. cbn [app]. set (l := once (map fst vs)). clearbody l. induction l as [|k l IH]; [reflexivity|]. cbn. now rewrite IH.
Qed.
Lemma once_nodup l : NoDup l -> once l = l.
Proof.
  induction 1 as [|k l Hk _ IH]; [reflexivity|]. cbn. rewrite IH. f_equal. clear IH. induction l as [|j l IH]; [reflexivity|]. cbn. destruct (Nat.eqb_spec j k) as [->|]; cbn.
  - exfalso. apply Hk. now left.
  - f_equal. apply IH. intro H. apply Hk. now right.
Qed.
Lemma steps_frame vs : forall m, mesh_id (fold_left step vs m) = mesh_id m /\
  Forall2 (fun s s1 => src_id s1 = src_id s /\ src_values s1 = src_values s) (srcs m) (srcs (fold_left step vs m)).
Proof.
  induction vs as [|p vs IH]; intro m; [split; [reflexivity|]; cbn; induction (srcs m); constructor; auto|]. cbn [fold_left]. destruct (IH (step m p)) as (-> & H).
  destruct (step_frame m p) as (-> & _ & H1). split; [reflexivity|]. revert H. generalize (srcs (fold_left step vs (step m p))). induction H1 as [|x y l l' (A & B) _ IH1]; intros l2 H; inversion H as [|? z ? ? (C & D) H0]; subst; constructor.
  - split; congruence. - now apply IH1.
Qed.
Lemma step_type m p k s0 : nth_error (srcs m) k = Some s0 ->
  exists s, nth_error (srcs (step m p)) k = Some s /\ src_type s = if k =? fst p then snd p else src_type s0.
Proof.
  intro H. unfold step. rewrite add_vertex_srcs. unfold SetSourceType. destruct (nth_error (srcs m) (fst p)) as [x|] eqn:E.
  - cbn [srcs]. rewrite nth_set_nth by (apply nth_error_Some; congruence). destruct (Nat.eqb_spec k (fst p)) as [->|]; eexists; split; try reflexivity; auto.
  - destruct (Nat.eqb_spec k (fst p)) as [->|]; [congruence|]. eauto.
Qed.
Lemma steps_type vs : forall m k s0, nth_error (srcs m) k = Some s0 -> exists s, nth_error (srcs (fold_left step vs m)) k = Some s /\
  ((exists before after, vs = before ++ (k, src_type s) :: after /\ ~ In k (map fst after)) \/ (~ In k (map fst vs) /\ src_type s = src_type s0)).
Proof.
  induction vs as [|p vs IH]; intros m k s0 H; [exists s0; split; [exact H|]; right; auto|]. cbn [fold_left]. destruct (step_type m p k s0 H) as (s1 & H1 & T1).
  destruct (IH (step m p) k s1 H1) as (s & Hs & [(b & a & -> & Ha)|(Hn & T)]); exists s; (split; [exact Hs|]).
  - left. exists (p :: b), a. auto.
  - destruct (Nat.eqb_spec k (fst p)) as [->|N].
    + left. exists [], vs. split; [|exact Hn]. cbn. rewrite T, T1. now destruct p.
    + right. split; [|congruence]. cbn. intros [X|X]; [congruence|contradiction].
Qed.

(** *** Polygon sets *)
Definition kept (P : list Z -> Prop) (m m1 : mesh) : Prop :=
  mesh_id m1 = mesh_id m /\ vertex_srcs m1 = vertex_srcs m /\
  Forall2 (fun s s1 => src_id s1 = src_id s /\ src_values s1 = src_values s /\
                       (src_type s1 = src_type s \/ (src_type s1 <> UNKNOWN /\ P (src_id s)))) (srcs m) (srcs m1).
Lemma kept_refl P m : kept P m m.
Proof. split; [reflexivity|]. split; [reflexivity|]. induction (srcs m); constructor; auto. Qed.
Lemma kept_trans P m m1 m2 : kept P m m1 -> kept P m1 m2 -> kept P m m2.
Proof.
  intros (A1 & B1 & C1) (A2 & B2 & C2). split; [congruence|]. split; [congruence|]. revert C2. generalize (srcs m2).
  induction C1 as [|x y l l' (H1 & H2 & H3) _ IH]; intros l2 C2; inversion C2 as [|? z ? ? (H4 & H5 & H6) C3]; subst; constructor.
  - split; [congruence|]. split; [congruence|]. destruct H6 as [H6|(H6 & H7)]; [|right; rewrite H1 in H7; auto]. destruct H3 as [H3|(H3 & H7)]; [left; congruence|right; split; congruence || auto].
  - now apply IH.
Qed.
Lemma kept_weak (P Q : list Z -> Prop) m m1 : (forall x, P x -> Q x) -> kept P m m1 -> kept Q m m1.
Proof. intros H (A & B & C). split; [exact A|]. split; [exact B|]. induction C as [|x y l l' (H1 & H2 & H3) _ IH]; constructor; auto. intuition. Qed.
Definition names (i : xml) (id : list Z) : Prop := named i "input" = true /\ drop_hash (drop_hash (ReadNodeProperty i "source")) = id.
Lemma find_id_at l id k : find_id l id = Some k -> exists s, nth_error l k = Some s /\ src_id s = id.
Proof.
  revert k. induction l as [|s l IH]; intros k H; [discriminate|]. cbn in H. destruct (text_eq (src_id s) id) eqn:E.
  - injection H as <-. exists s. split; [reflexivity|now apply text_eq_spec].
  - destruct (find_id l id) as [j|]; [|discriminate]. injection H as <-. now apply IH.
Qed.
Lemma set_nth_length {A} (l : list A) : forall k a, length (set_nth l k a) = length l.
Proof. induction l as [|x l IH]; intros [|k] a; cbn; auto. Qed.
(** The invariant of a set that is read. *)
Definition sound (t : prim) (d : dset) : Prop := length (sets d) = length (pinputs (base d)) /\ ptype (base d) = t.
Lemma sound_vertex t off set : forall l s, sound t (rset s) -> sound t (rset (fold_left (vertex_input off set) l s)) /\ rmesh (fold_left (vertex_input off set) l s) = rmesh s.
Proof.
  induction l as [|v l IH]; intros s H; [auto|]. cbn [fold_left]. assert (K : sound t (rset (vertex_input off set s v)) /\ rmesh (vertex_input off set s v) = rmesh s).
  { unfold vertex_input. destruct (find_input _ v); cbn; (split; [|reflexivity]); destruct H as (H1 & H2); split; cbn; auto; [now rewrite set_nth_length|]. rewrite !app_length. cbn. lia. }
  destruct K as (K1 & K2). destruct (IH _ K1) as (K3 & K4). split; [exact K3|congruence].
Qed.
Lemma kept_type m k id t : find_id (srcs m) id = Some k -> t <> UNKNOWN -> kept (eq id) m (SetSourceType m k t).
Proof.
  intros H Ht. destruct (find_id_at _ _ _ H) as (x & Hx & <-). unfold SetSourceType. rewrite Hx. split; [reflexivity|]. split; [reflexivity|]. cbn [srcs].
  destruct (kept_refl (eq (src_id x)) m) as (_ & _ & R). apply (forall2_set _ _ _ R _ x); auto.
Qed.
Lemma read_input_kept t s n s1 : named n "input" = true -> read_input s n = Some s1 -> sound t (rset s) -> sound t (rset s1) /\ kept (names n) (rmesh s) (rmesh s1).
Proof.
  intros Hn H Hs. unfold read_input in H.
  destruct (match ReadNodeProperty n "set" with [] => _ | _ => _ end) as [set|]; [|discriminate]. injection H as H.
  set (off := match ReadNodeProperty n "offset" with [] => _ | _ => _ end) in H. clearbody off. cbv zeta in H.
  destruct (Z.eqb_spec (SemanticFromString (ReadNodeProperty n "semantic")) UNKNOWN) as [|NU]; [subst s1; split; [exact Hs|apply kept_refl]|].
  destruct (Z.eqb_spec (SemanticFromString (ReadNodeProperty n "semantic")) VERTEX).
  - destruct (has_vertex s); [subst s1; split; [exact Hs|apply kept_refl]|]. subst s1.
    destruct (sound_vertex t off set (vertex_srcs (rmesh s)) (RState (rmesh s) (rset s) (at_least (rowners s) (S off)) true) Hs) as (A & B). rewrite B. split; [exact A|apply kept_refl].
  - destruct (FindSourceById (rmesh s) (drop_hash (ReadNodeProperty n "source"))) as [k|] eqn:E; [|subst s1; split; [exact Hs|apply kept_refl]]. subst s1. cbn [rset rmesh]. split.
    + destruct Hs as (H1 & H2). split; cbn; auto. rewrite !app_length. cbn. lia.
    + apply kept_weak with (P := eq (drop_hash (drop_hash (ReadNodeProperty n "source")))); [intros x <-; split; auto|]. now apply kept_type.
Qed.
Lemma read_inputs_kept t : forall l s s1 r, read_inputs s l = Some (s1, r) -> sound t (rset s) ->
  sound t (rset s1) /\ kept (fun id => exists i, In i l /\ names i id) (rmesh s) (rmesh s1).
Proof.
  induction l as [|n l IH]; intros s s1 r H Hs; [injection H as <- <-; split; [exact Hs|apply kept_refl]|]. cbn in H.
  assert (W : forall m1 m2, kept (fun id => exists i, In i l /\ names i id) m1 m2 -> kept (fun id => exists i, In i (n :: l) /\ names i id) m1 m2).
  { intros m1 m2. apply kept_weak. intros x (i & Hi & Hx). exists i. split; [now right|exact Hx]. }
  destruct (named n "input") eqn:En.
  - destruct (read_input s n) as [s2|] eqn:E; [|discriminate]. destruct (read_input_kept t s n s2 En E Hs) as (A & B). destruct (IH _ _ _ H A) as (C & D). split; [exact C|].
    apply kept_trans with (m1 := rmesh s2); [|now apply W]. revert B. apply kept_weak. intros x Hx. exists n. split; [now left|exact Hx].
  - destruct (named n "extra"); [destruct (IH _ _ _ H Hs); auto|]. destruct (named n "p" || named n "vcount" || named n "ph")%bool.
    + injection H as <- <-. split; [exact Hs|apply kept_refl].
    + destruct (IH _ _ _ H Hs); auto.
Qed.
(** The set as far as [sound] is concerned. *)
Definition like (p p1 : pset Z) : Prop := length (pinputs p1) = length (pinputs p) /\ ptype p1 = ptype p.
Lemma set_indices_length (ins : list (PolyModel.input Z)) i l : length (set_indices ins i l) = length ins.
Proof. unfold set_indices. destruct (find_indices ins i) as [j|]; auto. destruct (nth_error ins j); auto. apply set_nth_length. Qed.
Lemma push_length : forall w ins all r, push_lists ins w all = Some r -> length r = length ins.
Proof.
  induction w as [|[i|] w IH]; intros ins all r H; cbn in H; [now injection H as <-| |]; (destruct all as [|[l|] all]; try discriminate; apply IH in H; auto).
  unfold add_indices in H. now rewrite set_indices_length in H.
Qed.
Lemma holes_like w : forall l p all p1 all1, read_holes w l p all = Some (p1, all1) -> like p p1.
Proof.
  induction l as [|n l IH]; intros p all p1 all1 H; [injection H as <- <-; split; reflexivity|]. cbn in H. destruct n as [k a ch|t]; [|now apply IH in H].
  destruct (ToInterleavedUInt32List _ all) as [all2|]; [|discriminate]. destruct (push_lists (pinputs p) w all2) as [ins|] eqn:E; [|discriminate]. destruct (master all2); [|discriminate].
  apply IH in H. destruct H as (H1 & H2). cbn in H1, H2. apply push_length in E. split; congruence.
Qed.
Lemma face_like k w n p all p1 all1 : read_face k w n p all = Some (p1, all1) -> like p p1.
Proof.
  unfold read_face. destruct (if named n "ph" then _ else _) as [t hs]. destruct (ToInterleavedUInt32List t all) as [all2|]; [|discriminate].
  destruct (push_lists (pinputs p) w all2) as [ins|] eqn:E; [|discriminate]. destruct (master all2); [|discriminate]. intro H. apply holes_like in H. destruct H as (H1 & H2). cbn in H1, H2.
  apply push_length in E. split; congruence.
Qed.
Lemma faces_like k w : forall l p all p1, read_faces k w l p all = Some p1 -> like p p1.
Proof.
  induction l as [|n l IH]; intros p all p1 H; [injection H as <-; split; reflexivity|]. cbn in H. destruct (named n "p" || named n "ph")%bool; [|now apply IH in H].
  destruct (read_face k w n p all) as [[p2 all2]|] eqn:E; [|discriminate]. apply IH in H. apply face_like in E. destruct H, E. split; congruence.
Qed.
Lemma vcount_like m k n p r : read_vcount m k n p = Some r -> like p (match r with Go q => q | Stop _ q => q end).
Proof.
  unfold read_vcount. intro H. destruct k; destruct (FindChildByType n "vcount"); try (injection H as <-; split; reflexivity).
  destruct (ToUInt32List _ _); [|discriminate]. destruct (PositionSource m); [|discriminate]. injection H as <-. destruct (forallb _ _); split; reflexivity.
Qed.
Lemma sound_like t d p : sound t d -> like (base d) p -> sound t (DSet p (sets d) (material d)).
Proof. intros (A & B) (C & D). split; cbn; congruence. Qed.
Lemma polygons_kept t m d0 n st m1 q : LoadGeometryPolygons m d0 n = Some (st, m1, q) -> sound t d0 -> ptype (base d0) = t ->
  sound t q /\ kept (fun id => exists i, In i (children_of n) /\ names i id) m m1.
Proof.
  intros H Hs Ht. unfold LoadGeometryPolygons in H.
  destruct (match ptype (base d0) with POLYGONS => _ | _ => _ end) as [k|]; [|injection H as <- <- <-; split; [exact Hs|apply kept_refl]].
  cbv zeta in H. destruct (read_inputs _ (children_of n)) as [[s rest]|] eqn:E; [|discriminate].
  destruct (read_inputs_kept t _ _ _ _ E) as (A & B); [exact Hs|]. cbn [rmesh] in B.
  destruct rest as [|c rest]; [injection H as <- <- <-; auto|]. destruct (negb (has_vertex s)); [injection H as <- <- <-; auto|].
  destruct (if (ReadNodeCount n =? 0)%Z then _ else _) as [r|] eqn:V; [|discriminate].
  assert (L : like (base (rset s)) (match r with Go p => p | Stop _ p => p end)).
  { destruct (ReadNodeCount n =? 0)%Z; [injection V as <-; split; reflexivity|]. now apply vcount_like in V. }
  destruct r as [p|st' p].
  - destruct (read_faces k (rowners s) (c :: rest) p (index_lists (rowners s))) as [p1|] eqn:F; [|discriminate]. injection H as <- <- <-. split; [|exact B].
    apply sound_like; [exact A|]. apply faces_like in F. destruct L, F. split; congruence.
  - injection H as <- <- <-. split; [|exact B]. now apply sound_like.
Qed.
Lemma kind_said n t : prim_of_element n = Some t <-> says_kind n t.
Proof.
  unfold prim_of_element. split.
  - intro H. repeat (match type of H with context [named n ?k] => let E := fresh in destruct (named n k) eqn:E; cbn [orb] in H; try discriminate H end).
    all: injection H as <-.
    all: match goal with E : named ?n ?k = true |- says_kind ?n ?t => exists k; split; [cbn; tauto|now apply named_iff] end.
  - intros (name & H & a & ch & ->). cbn in H. repeat (destruct H as [H|H]; [injection H as <- <-; reflexivity|]). destruct H.
Qed.
Lemma child_kept m n st m1 q : LoadMeshChild m n = Some (Some (st, m1, q)) ->
  exists t, says_kind n t /\ sound t q /\ kept (fun id => exists i, In i (children_of n) /\ names i id) m m1.
Proof.
  unfold LoadMeshChild. destruct (prim_of_element n) as [t|] eqn:E; [|discriminate]. destruct (LoadGeometryPolygons m (AddPolygons m t) n) as [[[st' m'] q']|] eqn:L; [|discriminate].
  cbn. intro H. injection H as -> -> ->. exists t. split; [now apply kind_said|]. apply (polygons_kept t) in L; [exact L| |reflexivity]. split; cbn; [now rewrite !map_length|reflexivity].
Qed.
Lemma child_none m n : LoadMeshChild m n = Some None <-> ~ is_set n.
Proof.
  unfold LoadMeshChild, is_set. destruct (prim_of_element n) as [t|] eqn:E.
  - apply kind_said in E. split; [|intro H; exfalso; apply H; eauto]. destruct (LoadGeometryPolygons _ _ _); discriminate.
  - split; auto. intros _ (t & H). apply kind_said in H. congruence.
Qed.
Lemma sets_kept : forall l m st m1 ds, read_sets m l = Some (st, m1, ds) ->
  kept (fun id => exists n i, In n l /\ is_set n /\ In i (children_of n) /\ names i id) m m1 /\
  exists es, picked_sets l es /\ Forall2 (fun e d => exists t, says_kind e t /\ sound t d) es ds.
Proof.
  induction l as [|n l IH]; intros m st m1 ds H; [injection H as <- <- <-; split; [apply kept_refl|exists []; split; constructor]|]. cbn in H.
  assert (W : forall a b, kept (fun id => exists n i, In n l /\ is_set n /\ In i (children_of n) /\ names i id) a b ->
    kept (fun id => exists n' i, In n' (n :: l) /\ is_set n' /\ In i (children_of n') /\ names i id) a b).
  { intros a b. apply kept_weak. intros x (e & i & A & B). exists e, i. split; [now right|exact B]. }
  destruct (LoadMeshChild m n) as [[[[st1 m2] d]|]|] eqn:E; [| |discriminate].
  - destruct (read_sets m2 l) as [[[st2 m3] ds2]|] eqn:R; [|discriminate]. injection H as <- <- <-. destruct (IH _ _ _ _ R) as (A & es & B & C).
    apply child_kept in E as (t & E1 & E2 & E3). assert (S : is_set n) by (exists t; exact E1). split.
    + apply kept_trans with (m1 := m2); [|now apply W]. revert E3. apply kept_weak. intros x (i & Hi & Hx). exists n, i. split; [now left|auto].
    + exists (n :: es). split; [now constructor|]. constructor; eauto.
  - apply child_none in E. destruct (IH _ _ _ _ H) as (A & es & B & C). split; [now apply W|]. exists es. split; [now constructor|exact C].
Qed.
Definition alike (d d2 : dset) : Prop := base d2 = base d /\ material d2 = material d /\ length (sets d2) = length (sets d).
Lemma alike_refl ds : Forall2 alike ds ds.
Proof. induction ds; constructor; auto. now split. Qed.
Lemma alike_trans a b c : Forall2 alike a b -> Forall2 alike b c -> Forall2 alike a c.
Proof.
  intro H. revert c. induction H as [|x y a b (H1 & H2 & H3) _ IH]; intros c H; inversion H as [|? z ? ? (H4 & H5 & H6) H0]; subst; constructor; [|now apply IH].
  split; [congruence|split; congruence].
Qed.
Lemma give_alike k set ds : Forall2 alike ds (map (give_set k set) ds).
Proof.
  induction ds as [|d ds IH]; constructor; [|exact IH]. unfold give_set. destruct (find_input _ k); split; auto. split; auto. cbn. apply set_nth_length.
Qed.
Lemma extra_alike m : forall ins ds ds2, read_extra m ins ds = Some ds2 -> Forall2 alike ds ds2.
Proof.
  induction ins as [|i ins IH]; intros ds ds2 H; [injection H as <-; apply alike_refl|]. cbn in H.
  destruct (ReadNodeProperty i "source") as [|c s] eqn:Es; [now apply IH in H|]. rewrite <- Es in H. clear Es. destruct (drop_hash _) as [|c1 s1] eqn:Ed; rewrite <- Ed in H; clear Ed.
  all: destruct (ReadNodeProperty i "set") as [|c2 t] eqn:Et; [now apply IH in H|]; rewrite <- Et in H; clear Et;
    destruct (ToInt32 Strict (ReadNodeProperty i "set")) as [[set u]|]; [|discriminate];
    destruct (FindSourceById m (drop_hash (ReadNodeProperty i "source"))) as [k|]; [|now apply IH in H];
    apply IH in H; destruct (IsVertexSource m k); [|exact H]; apply alike_trans with (b := map (give_set k set) ds); [apply give_alike|exact H].
Qed.

(** *** The sources of the result *)
Lemma retype_nth l : forall o k s', nth_error (retype l o) k = Some s' -> exists s b, nth_error l k = Some s /\ nth_error o k = Some b /\
  s' = GSource (g_id s) (g_name s) (src_type b) (g_stride s) (g_data s).
Proof.
  unfold retype. induction l as [|x l IH]; intros o k s' H; [destruct k; discriminate|]. destruct o as [|y o]; [destruct k; discriminate|]. destruct k as [|k]; cbn in *.
  - injection H as <-. eauto. - now apply IH.
Qed.
Lemma retype_same ss l : Forall2 same_source ss l -> forall o, length o = length l -> Forall2 same_source ss (retype l o).
Proof.
  induction 1 as [|s s' ss l [A B C D] _ IH]; intros o Ho; destruct o as [|b o]; try discriminate; cbn; constructor.
  - constructor; auto. - apply IH. cbn in Ho. lia.
Qed.
Lemma plain_dec t : {plain t} + {~ plain t}.
Proof.
  unfold plain. destruct (Forall_dec (fun c => 1 <= c <= 255)%Z) with (l := t) as [A|A].
  - intro c. destruct (Z_le_dec 1 c); [|right; lia]. destruct (Z_le_dec c 255); [left; lia|right; lia].
  - destruct (in_dec Z.eq_dec 37%Z t) as [B|B]; [right; tauto|left; auto].
  - right. tauto.
Qed.
Lemma named_mentions n i id : In i (children_of n) -> names i id -> id <> [] -> mentions n id.
Proof.
  intros Hi (Hn & Hd) Hne. destruct (ReadNodeProperty i "source") as [|c r] eqn:E; [cbn in Hd; congruence|].
  destruct (read_attr_has i "source" (c :: r) E) as (w & Hw & Ew); [discriminate|]. apply named_iff in Hn.
  destruct (plain_dec w) as [Hp|Hp].
  - rewrite (plain_same w Hp) in Ew. assert (D : forall t, exists p, t = p ++ drop_hash t) by (intros [|x t]; [now exists []|]; cbn; destruct (x =? 35)%Z; [now exists [x]|now exists []]).
    destruct (D (c :: r)) as (p & Ep). destruct (D (drop_hash (c :: r))) as (p2 & Ep2). rewrite Hd in Ep2. exists i, w, (p ++ p2). repeat (split; auto). left. transitivity (c :: r); [exact Ew|]. rewrite <- app_assoc, <- Ep2. exact Ep.
  - exists i, w, []. repeat (split; auto).
Qed.
Lemma kept_nth P m m1 k s1 : kept P m m1 -> nth_error (srcs m1) k = Some s1 -> exists s, nth_error (srcs m) k = Some s /\
  src_id s1 = src_id s /\ src_values s1 = src_values s /\ (src_type s1 = src_type s \/ (src_type s1 <> UNKNOWN /\ P (src_id s))).
Proof.
  intros (_ & _ & H). revert k. induction H as [|x y l l' Hxy _ IH]; intros k Hk; [destruct k; discriminate|]. destruct k as [|k]; cbn in *; [injection Hk as <-; eauto|now apply IH].
Qed.
Lemma outline_unknown l k s : Forall (fun s => g_type s = UNKNOWN) l -> nth_error (map outline_source l) k = Some s -> src_type s = UNKNOWN.
Proof. intros H E. rewrite nth_error_map in E. destruct (nth_error l k) as [x|] eqn:X; [|discriminate]. injection E as <-. apply nth_error_In in X. rewrite Forall_forall in H. now apply H. Qed.
Lemma frame_ids l l' : Forall2 (fun s s1 : src => src_id s1 = src_id s /\ src_values s1 = src_values s) l l' -> map src_id l' = map src_id l.
Proof. induction 1 as [|p q l l' (A & _) _ IH]; cbn; congruence. Qed.
Theorem mesh_imported a id n els ss v ins vs st m' : is_elem "mesh" n -> picked "source" (children_of n) els -> Forall2 says_source els ss -> NoDup (map g_id ss) ->
  first_child (children_of n) (is_elem "vertices") v -> picked "input" (children_of v) ins -> vertex_inputs ss ins vs ->
  LoadMesh a id n = Some (Some (st, m')) ->
  gm_id m' = id /\ gm_convex m' = false /\ gm_hull m' = [] /\ Forall2 same_source ss (gm_sources m') /\ gm_vertex m' = once (map fst vs) /\
  (forall k s s', nth_error ss k = Some s -> nth_error (gm_sources m') k = Some s' ->
     (forall p, In p (children_of n) -> is_set p -> ~ mentions p (g_id s)) -> type_said vs k (g_type s')) /\
  exists es, picked_sets (children_of n) es /\ Forall2 (fun e d => says_kind e (ptype (base d))) es (gm_sets m').
Proof.
  intros Hm Hp Hs Hd Hv Hi Hvs H. unfold LoadMesh in H. apply named_iff in Hm. rewrite Hm in H.
  destruct (LoadGeometryMesh a id false n) as [[st' g]|] eqn:L; [|discriminate]. cbn in H. injection H as -> ->. unfold LoadGeometryMesh in L. cbn [andb] in L.
  destruct (sources_said a _ _ _ Hp Hs) as (ss' & L1 & S1 & U1). rewrite L1, (WireProofs.child_found _ _ _ Hv), (picked_filter _ _ _ Hi) in L. cbv zeta in L.
  set (g := GMesh id false [] ss' [] []) in L.
  assert (Hl : Forall (fun s => legal_id (g_id s)) ss) by (clear - Hs; induction Hs as [|e s l l' [(_ & X) _ _ _] _ IH]; constructor; auto).
  assert (Ei : map src_id (srcs (outline g)) = map g_id ss) by (cbn; rewrite map_map; cbn; now apply same_ids).
  rewrite (vertices_said ss ins vs Hvs Hl Hd (outline g) Ei) in L. set (o := fold_left step vs (outline g)) in L.
  destruct (read_sets o (children_of n)) as [[[st2 o2] ds]|] eqn:R; [|discriminate]. destruct (sets_kept _ _ _ _ _ R) as (K & es & E1 & E2).
  assert (X : exists ds2, Forall2 alike ds ds2 /\ m' = finish g o2 ds2).
  { destruct (WireModel.technique_of v) as [q|].
    - destruct (read_extra o2 _ ds) as [ds2|] eqn:Ex; [|discriminate]. injection L as <- <-. exists ds2. split; [now apply extra_alike in Ex|reflexivity].
    - injection L as <- <-. exists ds. split; [apply alike_refl|reflexivity]. }
  clear L. destruct X as (ds2 & Al & ->). cbn [finish gm_id gm_convex gm_hull gm_sources gm_vertex gm_sets]. unfold g at 1 2 3 4. cbn [gm_id gm_convex gm_hull gm_sources].
  destruct (steps_frame vs (outline g)) as (_ & Fr). fold o in Fr.
  assert (Len : length (srcs o2) = length ss').
  { destruct K as (_ & _ & K3). rewrite <- (Forall2_len _ _ _ K3). rewrite <- (Forall2_len _ _ _ Fr). cbn. now rewrite map_length. }
  split; [reflexivity|]. split; [reflexivity|]. split; [reflexivity|]. split; [|split; [|split]].
  - now apply retype_same.
  - destruct K as (_ & K2 & _). rewrite K2. now apply steps_once.
  - intros k s s' Hk Hk' Hno. apply retype_nth in Hk' as (x & b & Hx & Hb & ->). cbn [g_type]. destruct (kept_nth _ _ _ _ _ K Hb) as (c & Hc & I1 & _ & T).
    assert (Is : src_id c = g_id s).
    { assert (Y : nth_error (map src_id (srcs o)) k = Some (src_id c)) by (rewrite nth_error_map, Hc; reflexivity).
      assert (Z1 : map src_id (srcs o) = map src_id (srcs (outline g))) by now apply frame_ids.
      rewrite Z1, Ei, nth_error_map, Hk in Y. now injection Y. }
    assert (Tc : src_type b = src_type c).
    { destruct T as [T|(_ & e & i & In1 & Se & In2 & Nm)]; [exact T|]. exfalso. apply (Hno e In1 Se). rewrite Is in Nm. apply (named_mentions e i (g_id s) In2 Nm).
      apply nth_error_In in Hk. rewrite Forall_forall in Hl. apply (Hl s Hk). }
    rewrite Tc. destruct (nth_error (srcs (outline g)) k) as [s0|] eqn:E0.
    + destruct (steps_type vs (outline g) k s0 E0) as (c' & Hc' & W). fold o in Hc'. rewrite Hc in Hc'. injection Hc' as <-. destruct W as [W|(W1 & W2)]; [left; exact W|right].
      split; [exact W1|]. rewrite W2. now apply (outline_unknown ss' k s0 U1).
    + exfalso. apply nth_error_None in E0. cbn in E0. rewrite map_length in E0. assert (H : nth_error ss' k <> None) by (unfold g in Hx; cbn [gm_sources] in Hx; rewrite Hx; discriminate). apply nth_error_Some in H. lia.
  - exists es. split; [exact E1|]. clear - E2 Al. revert ds2 Al. induction E2 as [|e d es ds (t & Ht & (_ & Hp)) _ IH]; intros ds2 Al; inversion Al as [|? d2 ? ? (B & _) Al2]; subst; constructor; auto.
    rewrite B. exact Ht.
Qed.
