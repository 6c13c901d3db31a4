(** Lemmas for writing a mesh and reading it back. *)
From Coq Require Import String List ZArith QArith Bool Lia.
From Verif Require Import TextModel TextSpec TextProofs StringModel StringProofs XmlModel EnumModel FloatModel FloatSpec FloatProps PolyModel TriModel DaeModel DaeSpec DaeProofs DaeInputProofs
  RigModel RigSpec RigTextProofs RigProofs RigWriteProofs CustomSpec AssetSpec AnimModel MeshModel MeshSpec MeshReadProofs.
From Verif Require WireProofs WireWriteProofs DaeProps.
Import ListNotations.
Local Open Scope nat_scope.
Local Open Scope list_scope.

(** *** Sources *)
Lemma exported_names t : exported t -> accessor_names t <> None.
Proof.
  intros [-> |(H & N)]; [discriminate|]. unfold VERTEX in N. assert (C : (t = 0 \/ t = 2 \/ t = 3 \/ t = 4 \/ t = 5 \/ t = 6 \/ t = 7 \/ t = 8 \/ t = 9 \/ t = 10)%Z) by lia.
  repeat (destruct C as [->|C]; [discriminate|]). subst t. discriminate.
Qed.

Lemma source_written eps s l : machine_eps eps -> proper_source s -> WriteGeometrySource eps s l ->
  exists e s1, l = [e] /\ is_elem "source" e /\ says_source e s1 /\ source_remains eps s s1.
Proof.
  intros He [Hi Hn Ht Hs Hd] H. unfold WriteGeometrySource in H. pose proof (exported_names _ Ht) as X. destruct (accessor_names (g_type s)) as [ps|]; [|congruence]. clear X.
  destruct H as (t & Tt & ->). destruct (floats_written eps _ He Hd t Tt) as (rs & Nr & Rr & _). unfold AddSourceFloat.
  destruct (g_stride s =? 0) eqn:E; [apply Nat.eqb_eq in E; lia|]. clear E. set (ty := if g_stride s =? 16 then tx "float4x4" else tx "float"). clearbody ty.
  set (e := AddSource (g_id s) "float_array" t (length (g_data s)) (length (g_data s) / g_stride s) (g_stride s) ps ty).
  exists (named_source (g_name s) e), (GSource (g_id s) (g_name s) UNKNOWN (g_stride s) rs).
  assert (F : exists at' ch, e = Elem (tx "source") at' ch /\ at' = [(tx "id", g_id s)] /\ ch = children_of e) by (do 2 eexists; split; [reflexivity|split; reflexivity]).
  destruct F as (at' & ch & E & Ea & Ec).
  assert (N : exists at2, named_source (g_name s) e = Elem (tx "source") ((tx "id", g_id s) :: at2) ch /\ ((g_name s = [] /\ at2 = []) \/ at2 = [(tx "name", g_name s)])).
  { rewrite E, Ea. unfold named_source. destruct (g_name s) as [|c r]; [exists []|exists [(tx "name", c :: r)]]; split; auto. }
  destruct N as (at2 & -> & Hat). split; [reflexivity|]. split; [eexists; eexists; reflexivity|]. split; [|constructor; auto].
  constructor; cbn [g_id g_name g_stride g_data].
  - split; [|exact Hi]. eexists _, _, [], _. split; [reflexivity|constructor].
  - destruct Hat as [(Hx & ->)| ->]; [left; split; [|exact Hx]|right; split; [|exact Hn]].
    + intros nm at3 c3 X. injection X as _ <- _. repeat constructor. discriminate.
    + eexists _, _, [_], []. split; [reflexivity|]. repeat constructor. discriminate.
  - left. exists (AddAccessor (g_id s ++ tx "-array") (length (g_data s) / g_stride s) (g_stride s) ps ty), (append_u64 (Z.of_nat (g_stride s))). split; [|split; [|split; [|lia]]].
    + eexists. split; [cbn [children_of]; rewrite Ec; cbn [children_of e AddSource]; apply first_skip; [apply not_elem; discriminate|apply first_here; eexists; eexists; reflexivity]|].
      cbn [children_of]. apply first_here. eexists; eexists; reflexivity.
    + eexists _, _, [_; _], _. split; [reflexivity|]. repeat constructor; discriminate.
    + unfold append_u64, u32. rewrite Z.mod_small by lia. apply dec_decimal. lia.
  - exists rs. split; [|apply WireWriteProofs.same_numbers].
    destruct (WireWriteProofs.source_says (g_id s) t (length (g_data s)) (length (g_data s) / g_stride s) (g_stride s) ps ty rs Nr) as (nm & at3 & ch3 & x & tt & Ex & A & B & C).
    fold e in Ex. rewrite E in Ex. injection Ex as <- <- <-. exists (tx "source"), ((tx "id", g_id s) :: at2), ch, x, tt. auto.
Qed.
Lemma sources_written eps ms ls : machine_eps eps -> Forall proper_source ms -> Forall2 (WriteGeometrySource eps) ms ls ->
  exists ss, Forall (is_elem "source") (List.concat ls) /\ Forall2 says_source (List.concat ls) ss /\ Forall2 (source_remains eps) ms ss.
Proof.
  intros He Hp H. revert Hp. induction H as [|s l ms ls Hs _ IH]; intro Hp; [exists []; repeat constructor|]. inversion Hp as [|? ? H1 H2]; subst.
  destruct (source_written eps s l He H1 Hs) as (e & s1 & -> & A & B & C). destruct (IH H2) as (ss & D & E & F). exists (s1 :: ss). cbn. repeat split; constructor; auto.
Qed.
(** *** Per-vertex inputs *)
Lemma exported_word t : exported t -> plain (SemanticToString t) /\ SemanticToString t <> [] /\ semantic_word (SemanticToString t) t /\ t <> VERTEX.
Proof.
  intros [-> |(H & N)].
  - split; [WireWriteProofs.plain_word|]. split; [discriminate|]. split; [|discriminate]. right. split; [|reflexivity]. intros w x H. cbn in H.
    repeat (destruct H as [H|H]; [injection H as <- <-; discriminate|]). destruct H.
  - unfold VERTEX in N. assert (C : (t = 0 \/ t = 2 \/ t = 3 \/ t = 4 \/ t = 5 \/ t = 6 \/ t = 7 \/ t = 8 \/ t = 9 \/ t = 10)%Z) by lia. clear H N.
    repeat (destruct C as [->|C]; [split; [WireWriteProofs.plain_word|]; split; [discriminate|]; split; [|discriminate]; left; eexists; split; [|reflexivity]; cbn; tauto|]). subst t.
    split; [WireWriteProofs.plain_word|]; split; [discriminate|]; split; [|discriminate]; left; eexists; split; [|reflexivity]; cbn; tauto.
Qed.
Definition type_at (m : gmesh) (v : nat) : Z := match nth_error (gm_sources m) v with Some s => g_type s | None => UNKNOWN end.
Lemma vertex_written m ss v : Forall proper_source (gm_sources m) -> (forall k s, nth_error (gm_sources m) k = Some s -> exists s1, nth_error ss k = Some s1 /\ g_id s1 = g_id s) ->
  v < length (gm_sources m) -> exists i, vertex_element m v = [i] /\ is_elem "input" i /\ says_vertex ss i v (type_at m v) /\ type_at m v <> VERTEX.
Proof.
  intros Hp Hs Hv. unfold vertex_element, type_at. destruct (nth_error (gm_sources m) v) as [s|] eqn:E; [|apply nth_error_None in E; lia].
  assert (P : proper_source s) by (apply nth_error_In in E; rewrite Forall_forall in Hp; now apply Hp). destruct P as [Hi _ Ht _ _]. destruct (exported_word _ Ht) as (A & B & C & D).
  rewrite add_other_input by (auto; apply Hi). eexists. split; [reflexivity|]. split; [eexists; eexists; reflexivity|]. split; [|exact D]. split.
  - exists (SemanticToString (g_type s)). split; [|auto]. eexists _, _, [], _. split; [reflexivity|constructor].
  - destruct (Hs v s E) as (s1 & E1 & I1). exists s1. split; [exact E1|]. rewrite I1. eexists _, _, [_], _. split; [reflexivity|]. repeat constructor. discriminate.
Qed.
Lemma vertices_written m ss : Forall proper_source (gm_sources m) -> (forall k s, nth_error (gm_sources m) k = Some s -> exists s1, nth_error ss k = Some s1 /\ g_id s1 = g_id s) ->
  forall vs, (forall v, In v vs -> v < length (gm_sources m)) ->
  Forall (is_elem "input") (flat_map (vertex_element m) vs) /\ vertex_inputs ss (flat_map (vertex_element m) vs) (map (fun v => (v, type_at m v)) vs).
Proof.
  intros Hp Hs. induction vs as [|v vs IH]; intro Hv; [split; constructor|]. cbn [flat_map map]. destruct (vertex_written m ss v Hp Hs) as (i & -> & A & B & C); [apply Hv; now left|].
  destruct IH as (D & E); [intros w Hw; apply Hv; now right|]. cbn [app]. split; [constructor; auto|]. now apply V_keep.
Qed.
Lemma picked_all name l r : Forall (is_elem name) l -> (forall c, In c r -> ~ is_elem name c) -> picked name (l ++ r) l.
Proof.
  intros H Hr. induction H as [|c l Hc _ IH]; [|now apply K_keep]. cbn. induction r as [|c r IH]; constructor; [apply Hr; now left|]. apply IH. intros d Hd. apply Hr. now right.
Qed.
(** *** What is loaded before the polygon sets *)
Lemma remains_outline eps s s1 s' : source_remains eps s s1 -> same_source s1 s' -> src_id (outline_source s') = src_id (outline_source s) /\ src_values (outline_source s') = src_values (outline_source s).
Proof.
  intros [A B C D] [A1 B1 C1 D1]. cbn. unfold value_count. split; [congruence|]. rewrite C1, C, <- (Forall2_len _ _ _ D1), <- (Forall2_len _ _ _ D). reflexivity.
Qed.
Lemma loaded_outline eps m ss ss' : Forall2 (source_remains eps) (gm_sources m) ss -> Forall2 same_source ss ss' -> Forall (fun s => g_type s = UNKNOWN) ss' ->
  proper_mesh (outline m) ->
  loading (outline m) (fold_left step (map (fun v => (v, type_at m v)) (gm_vertex m)) (outline (GMesh (gm_id m) false [] ss' [] []))).
Proof.
  intros H1 H2 Hu (Hd & _ & Hv & _ & Hin). set (vs := map _ (gm_vertex m)). set (g := GMesh (gm_id m) false [] ss' [] []).
  assert (Es : map fst vs = gm_vertex m) by (unfold vs; rewrite map_map; apply map_id).
  assert (F : Forall2 (fun s s0 => src_id s0 = src_id s /\ src_values s0 = src_values s) (srcs (outline m)) (srcs (outline g))).
  { cbn [outline srcs g gm_sources]. clear - H1 H2. revert ss' H2. induction H1 as [|s s1 l l1 A _ IH]; intros ss' H2; inversion H2 as [|? s' ? ? B H3]; subst; cbn; constructor; [|now apply IH].
    now apply (remains_outline eps s s1). }
  destruct (steps_frame vs (outline g)) as (_ & G). split; [|split].
  - rewrite steps_once by reflexivity. rewrite Es. now apply once_nodup.
  - assert (X : forall k s b, nth_error (srcs (outline m)) k = Some s -> nth_error (srcs (fold_left step vs (outline g))) k = Some b -> src_type b = src_type s \/ src_type b = UNKNOWN).
    { intros k s b Hs Hb. destruct (nth_error (srcs (outline g)) k) as [s0|] eqn:E0.
      - destruct (steps_type vs (outline g) k s0 E0) as (c & Hc & [(be & af & Ev & _)|(_ & T)]); rewrite Hb in Hc; injection Hc as <-.
        + left. assert (Y : In (k, src_type b) vs) by (rewrite Ev; apply in_app_iff; right; now left). unfold vs in Y. apply in_map_iff in Y as (v & Y & _). injection Y as -> <-.
          unfold type_at. cbn in Hs. rewrite nth_error_map in Hs. destruct (nth_error (gm_sources m) k); [|discriminate]. now injection Hs as <-.
        + right. rewrite T. now apply (outline_unknown ss' k s0 Hu).
      - exfalso. apply nth_error_None in E0. rewrite (Forall2_len _ _ _ G) in E0. assert (nth_error (srcs (fold_left step vs (outline g))) k <> None) as Z0 by congruence. apply nth_error_Some in Z0. lia. }
    clear Hd Hv Hin Hu H1 H2. revert F G X. generalize (srcs (outline m)), (srcs (outline g)), (srcs (fold_left step vs (outline g))). intros l1 l2 l3 F. revert l3.
    induction F as [|s s0 l1 l2 (A & B) F IH]; intros l3 G X; inversion G as [|? b ? l3' (C & D) G']; subst; constructor.
    + split; [congruence|]. split; [congruence|]. apply (X 0); reflexivity.
    + apply IH; [exact G'|]. intros k. apply (X (S k)).
  - intros v s s0 Hi Hs Hs0. cbn [outline vertex_srcs] in Hi. destruct (nth_error (srcs (outline g)) v) as [sg|] eqn:E0.
    + destruct (steps_type vs (outline g) v sg E0) as (c & Hc & [(be & af & Ev & _)|(T & _)]); rewrite Hs0 in Hc; injection Hc as <-.
      * assert (Y : In (v, src_type s0) vs) by (rewrite Ev; apply in_app_iff; right; now left). unfold vs in Y. apply in_map_iff in Y as (w & Y & _). injection Y as -> <-.
        unfold type_at. cbn in Hs. rewrite nth_error_map in Hs. destruct (nth_error (gm_sources m) v); [|discriminate]. now injection Hs as <-.
      * exfalso. apply T. now rewrite Es.
    + exfalso. apply nth_error_None in E0. rewrite (Forall2_len _ _ _ G) in E0. assert (nth_error (srcs (fold_left step vs (outline g))) v <> None) as Z0 by congruence. apply nth_error_Some in Z0. lia.
Qed.
(** *** Polygon sets *)
Lemma known_later P m m1 m2 d : loading m m1 -> loading m m2 -> kept P m1 m2 -> types_known m m1 d -> types_known m m2 d.
Proof.
  intros (_ & L1 & _) (_ & L2 & _) K H s a b Hs Ha Hb. destruct (kept_nth _ _ _ _ _ K Hb) as (b1 & Hb1 & _ & _ & [T|(T & _)]).
  - rewrite T. now apply (H s).
  - destruct (forall2_nth _ _ _ L2 _ _ Ha) as (b' & Hb' & _ & _ & [X|X]); rewrite Hb in Hb'; injection Hb' as <-; congruence.
Qed.
Lemma sets_written m : proper_mesh m -> forall ds, Forall (fun d => (exists F, consistent m d F) /\ ptype (base d) <> POINTS /\ (DaeProps.written_as_polylist d -> small_faces m d)) ds ->
  exists ns, write_sets m ds = Some ns /\ (forall n, In n ns -> is_set n) /\
  forall m0, loading m m0 -> exists m1 qs, read_sets m0 ns = Some (true, m1, qs) /\ loading m m1 /\ Forall (types_known m m1) ds /\ Forall2 (same_set m) ds qs /\
    Forall (fun q => length (sets q) = length (pinputs (base q))) qs.
Proof.
  intros Hm. induction 1 as [|d ds ((F & Hc) & Hp & Hs) _ IH].
  - exists []. split; [reflexivity|]. split; [intros n []|]. intros m0 Hl. exists m0, []. repeat (split; auto).
  - destruct IH as (ns & Hw & Hi & Hr). assert (HX : forall m0, loading m m0 -> exists n m1 q, WriteGeometryPolygons m d = Some n /\ LoadMeshChild m0 n = Some (Some (true, m1, q)) /\
      loading m m1 /\ types_known m m1 d /\ same_set m d q) by (intros m0 Hl; now apply (DaeProps.C85_round_trip_partial m m0 d F)).
    assert (R : loading m m). { split; [reflexivity|]. split; [induction (srcs m); constructor; auto|]. intros v s s0 _ A B. congruence. }
    destruct (HX m R) as (n & m' & q' & Wn & Ln & _). exists (n :: ns). cbn [write_sets]. rewrite Wn, Hw. split; [reflexivity|]. split.
    + intros x [<- |Hx]; [|now apply Hi]. apply child_kept in Ln as (t & Ht & _). now exists t.
    + intros m0 Hl. destruct (HX m0 Hl) as (n2 & m1 & q & W2 & L2 & Hl1 & Ht1 & Hs1). rewrite Wn in W2. injection W2 as <-.
      destruct (Hr m1 Hl1) as (m2 & qs & R2 & Hl2 & Ht2 & Hs2 & Hq2). exists m2, (q :: qs). cbn [read_sets]. rewrite L2, R2. split; [reflexivity|]. split; [exact Hl2|].
      split; [|split; constructor; auto].
      * constructor; [|exact Ht2]. apply sets_kept in R2 as (K & _). now apply (known_later _ m m1 m2 d Hl1 Hl2 K).
      * apply child_kept in L2 as (t & _ & (X & _) & _). exact X.
Qed.
Lemma sets_skip : forall l m r, (forall c, In c l -> ~ is_set c) -> read_sets m (l ++ r) = read_sets m r.
Proof.
  induction l as [|c l IH]; intros m r H; [reflexivity|]. cbn [app read_sets]. assert (X : LoadMeshChild m c = Some None) by (apply child_none; apply H; now left). rewrite X.
  apply IH. intros d Hd. apply H. now right.
Qed.
Lemma not_set name e : is_elem name e -> (forall k t, In (k, t) kinds -> tx k <> tx name) -> ~ is_set e.
Proof. intros (a & c & ->) H (t & k & Hk & a' & c' & E). injection E as E _ _. apply (H k t Hk). now symmetry. Qed.
(** *** The sets of the per-vertex inputs *)
Definition upd (v : nat) (set : Z) (s : seen) : seen := if s_source s =? v then Seen (s_source s) (s_offset s) set (s_indices s) else s.
Lemma view_len d : length (view d) = length (pinputs (base d)).
Proof. unfold view. now rewrite map_length, seq_length. Qed.
Lemma view_nth d i x : nth_error (pinputs (base d)) i = Some x ->
  nth_error (view d) i = Some (Seen (source x) (offset x) (nth i (sets d) (-1)%Z) (get_indices (pinputs (base d)) i)).
Proof.
  intro H. unfold view. assert (L : i < length (pinputs (base d))) by (apply nth_error_Some; congruence).
  rewrite nth_error_map, (nth_error_nth' _ 0) by now rewrite seq_length. rewrite seq_nth by exact L. cbn. now rewrite H.
Qed.
Lemma view_sources d : map s_source (view d) = map source (pinputs (base d)).
Proof.
  apply nth_ext with (d := 0) (d' := 0); [now rewrite !map_length, view_len|]. intros i Hi. rewrite map_length, view_len in Hi.
  destruct (nth_error (pinputs (base d)) i) as [x|] eqn:E; [|apply nth_error_None in E; lia].
  assert (A : nth_error (map s_source (view d)) i = Some (source x)) by (rewrite nth_error_map, (view_nth d i x E); reflexivity).
  assert (B : nth_error (map source (pinputs (base d))) i = Some (source x)) by (rewrite nth_error_map, E; reflexivity).
  now rewrite (nth_error_nth _ _ _ A), (nth_error_nth _ _ _ B).
Qed.
Lemma find_input_at ins v i : find_input ins v = Some i -> exists x : PolyModel.input Z, nth_error ins i = Some x /\ source x = v.
Proof.
  revert i. induction ins as [|x ins IH]; intros i H; [discriminate|]. cbn in H. destruct (Nat.eqb_spec (source x) v); [injection H as <-; exists x; split; auto|].
  destruct (find_input ins v) as [j|]; [|discriminate]. injection H as <-. now apply IH.
Qed.
Lemma find_input_none ins v : find_input ins v = None -> ~ In v (map (@source Z) ins).
Proof.
  induction ins as [|x ins IH]; [auto|]. cbn. destruct (Nat.eqb_spec (source x) v); [discriminate|]. destruct (find_input ins v); [discriminate|]. intros _ [X|X]; [congruence|now apply IH].
Qed.
Definition lone (v : nat) (d : dset) : Prop := forall i j, nth_error (map source (pinputs (base d))) i = Some v -> nth_error (map source (pinputs (base d))) j = Some v -> i = j.
Lemma give_view v set d : length (sets d) = length (pinputs (base d)) -> lone v d -> view (give_set v set d) = map (upd v set) (view d).
Proof.
  intros Hl Hu. apply nth_ext with (d := Seen 0 0 0 []) (d' := Seen 0 0 0 []).
  { rewrite map_length, !view_len. unfold give_set. now destruct (find_input _ v). }
  intros i Hi. rewrite view_len in Hi. assert (B : base (give_set v set d) = base d) by (unfold give_set; now destruct (find_input _ v)). rewrite B in Hi.
  destruct (nth_error (pinputs (base d)) i) as [x|] eqn:E; [|apply nth_error_None in E; lia].
  assert (A1 : nth_error (view (give_set v set d)) i = Some (Seen (source x) (offset x) (nth i (sets (give_set v set d)) (-1)%Z) (get_indices (pinputs (base d)) i))).
  { rewrite (view_nth (give_set v set d) i x) by (rewrite B; exact E). now rewrite B. }
  assert (A2 : nth_error (map (upd v set) (view d)) i = Some (upd v set (Seen (source x) (offset x) (nth i (sets d) (-1)%Z) (get_indices (pinputs (base d)) i)))).
  { rewrite nth_error_map, (view_nth d i x E). reflexivity. }
  rewrite (nth_error_nth _ _ _ A1), (nth_error_nth _ _ _ A2). unfold upd. cbn [s_source s_offset s_indices]. unfold give_set.
  destruct (find_input (pinputs (base d)) v) as [j|] eqn:Ej.
  - destruct (find_input_at _ _ _ Ej) as (y & Ey & Sy). cbn [sets]. assert (Lj : j < length (sets d)) by (rewrite Hl; apply nth_error_Some; congruence).
    destruct (Nat.eqb_spec (source x) v) as [Sx|Sx].
    + assert (i = j) as -> by (apply Hu; rewrite nth_error_map; [rewrite E|rewrite Ey]; cbn; congruence).
      f_equal. apply nth_error_nth. rewrite nth_set_nth by exact Lj. now rewrite Nat.eqb_refl.
    + f_equal. destruct (nth_error (sets d) i) as [z|] eqn:Ez; [|apply nth_error_None in Ez; lia]. rewrite (nth_error_nth _ _ _ Ez). apply nth_error_nth. rewrite nth_set_nth by exact Lj.
      destruct (Nat.eqb_spec i j) as [->|]; [rewrite E in Ey; congruence|exact Ez].
  - apply find_input_none in Ej. destruct (Nat.eqb_spec (source x) v) as [Sx|Sx]; [|reflexivity]. exfalso. apply Ej. rewrite <- Sx. apply in_map. now apply nth_error_In in E.
Qed.
Lemma lone_filter f (l : list nat) v : NoDup (filter f l) -> f v = true -> forall i j, nth_error l i = Some v -> nth_error l j = Some v -> i = j.
Proof.
  intros Hd Hf. induction l as [|x l IH]; intros i j Hi Hj; [destruct i; discriminate|]. cbn in Hd.
  assert (N : f x = true -> ~ In x (filter f l)) by (intro Y; rewrite Y in Hd; now inversion Hd). assert (Hd' : NoDup (filter f l)) by (destruct (f x); [now inversion Hd|exact Hd]).
  destruct i as [|i], j as [|j]; cbn in *; auto.
  - injection Hi as ->. exfalso. apply (N Hf). apply filter_In. split; [now apply nth_error_In in Hj|exact Hf].
  - injection Hj as ->. exfalso. apply (N Hf). apply filter_In. split; [now apply nth_error_In in Hi|exact Hf].
Qed.
Definition give (sets : list dset) (q : dset) (v : nat) : dset := match vertex_set sets v with Some set => give_set v set q | None => q end.
Lemma give_base sets q v : base (give sets q v) = base q /\ length (DaeModel.sets (give sets q v)) = length (DaeModel.sets q) /\ material (give sets q v) = material q.
Proof. unfold give, give_set. destruct (vertex_set sets v); auto. destruct (find_input _ v); auto. cbn. now rewrite set_nth_length. Qed.
Definition upds (sets : list dset) (s : seen) (v : nat) : seen := match vertex_set sets v with Some set => upd v set s | None => s end.
Lemma gives_view sets : forall vs q, length (DaeModel.sets q) = length (pinputs (base q)) -> (forall v, In v vs -> lone v q) ->
  base (fold_left (give sets) vs q) = base q /\ material (fold_left (give sets) vs q) = material q /\ view (fold_left (give sets) vs q) = map (fun s => fold_left (upds sets) vs s) (view q).
Proof.
  induction vs as [|v vs IH]; intros q Hl Hu; [cbn; rewrite map_id; auto|]. cbn [fold_left]. destruct (give_base sets q v) as (B & L & M).
  destruct (IH (give sets q v)) as (I1 & I2 & I3); [congruence| |].
  - intros w Hw. unfold lone. rewrite B. apply Hu. now right.
  - rewrite I1, I2, I3. split; [exact B|]. split; [exact M|]. unfold give, upds at 2. destruct (vertex_set sets v) as [set|] eqn:E.
    + rewrite give_view; [|exact Hl|apply Hu; now left]. rewrite map_map. apply map_ext. intro s. unfold upds at 2. now rewrite E.
    + apply map_ext. intro s. unfold upds at 2. now rewrite E.
Qed.
Lemma upds_spec sets : forall vs s, let s' := fold_left (upds sets) vs s in s_source s' = s_source s /\ s_offset s' = s_offset s /\ s_indices s' = s_indices s /\
  s_set s' = match (if existsb (Nat.eqb (s_source s)) vs then vertex_set sets (s_source s) else None) with Some z => z | None => s_set s end.
Proof.
  induction vs as [|v vs IH]; intros s; [cbn; auto|]. cbn [fold_left existsb]. cbv zeta. destruct (IH (upds sets s v)) as (A & B & C & D).
  assert (E : s_source (upds sets s v) = s_source s /\ s_offset (upds sets s v) = s_offset s /\ s_indices (upds sets s v) = s_indices s /\
    s_set (upds sets s v) = (if s_source s =? v then match vertex_set sets v with Some z => z | None => s_set s end else s_set s)).
  { unfold upds, upd. destruct (vertex_set sets v); destruct (s_source s =? v); cbn; auto. }
  destruct E as (E1 & E2 & E3 & E4). rewrite A, B, C, D, E1, E2, E3, E4. repeat (split; [reflexivity|]). destruct (Nat.eqb_spec (s_source s) v) as [->|]; cbn [orb]; [|reflexivity].
  destruct (existsb (Nat.eqb v) vs); [|reflexivity]. destruct (vertex_set sets v); reflexivity.
Qed.
Lemma vertex_set_seen d r v : length (sets d) = length (pinputs (base d)) -> In v (map source (pinputs (base d))) ->
  exists s, In s (view d) /\ s_source s = v /\ s_set s = match vertex_set (d :: r) v with Some z => z | None => (-1)%Z end.
Proof.
  intros Hl Hv. unfold vertex_set. destruct (find_input (pinputs (base d)) v) as [i|] eqn:E; [|apply find_input_none in E; contradiction].
  destruct (find_input_at _ _ _ E) as (x & Ex & Sx). apply view_nth in Ex. eexists. split; [apply nth_error_In in Ex; exact Ex|]. cbn [s_source s_set]. split; [exact Sx|].
  destruct (Z.eqb_spec (nth i (sets d) (-1)%Z) (-1)%Z) as [N|N]; [exact N|reflexivity].
Qed.
Lemma set_range m d r v z : proper_gmesh m -> gm_sets m = d :: r -> vertex_set (gm_sets m) v = Some z -> (0 <= z < 2147483600)%Z.
Proof.
  intros Hp E H. destruct Hp as [_ _ _ Hs]. rewrite E in Hs, H. inversion Hs as [|? ? ((F & Hc) & _) _]; subst. unfold vertex_set in H.
  destruct (find_input (pinputs (base d)) v) as [i|] eqn:Ei; [|discriminate]. destruct (find_input_at _ _ _ Ei) as (x & Ex & _). apply view_nth, nth_error_In in Ex.
  destruct (c_small _ _ _ Hc _ Ex) as (_ & R & _). cbn [s_set] in R. destruct (Z.eqb_spec (nth i (sets d) (-1)%Z) (-1)%Z) as [|N]; [discriminate|]. injection H as <-. lia.
Qed.
Lemma extra_element m v z s : proper_gmesh m -> nth_error (gm_sources m) v = Some s -> vertex_set (gm_sets m) v = Some z ->
  exists i, vertex_extra m v = [i] /\ named i "input" = true /\ ReadNodeProperty i "source" = 35%Z :: g_id s /\ ReadNodeProperty i "set" = dec z /\ (0 <= z < 2147483600)%Z.
Proof.
  intros Hp E H. assert (R : (0 <= z < 2147483600)%Z) by (destruct (gm_sets m) as [|d r] eqn:Es; [discriminate|]; rewrite <- Es in H; now apply (set_range m d r v)).
  destruct Hp as [_ Hs _ _]. assert (P : proper_source s) by (apply nth_error_In in E; rewrite Forall_forall in Hs; now apply Hs). destruct P as [Hi _ Ht _ _].
  unfold vertex_extra. rewrite E, H. rewrite add_other_input; [|apply Hi|apply (exported_word _ Ht)]. eexists. split; [reflexivity|]. split; [reflexivity|].
  rewrite (proj2 (Z.leb_le 0 z)) by lia. rewrite (i32_dec z) by lia. split; [|split; [|exact R]].
  - apply has_attr_plain; [eexists _, _, [_], _; split; [reflexivity|repeat constructor; discriminate]|now apply hash_plain].
  - apply has_attr_plain; [eexists _, _, [_; _], _; split; [reflexivity|repeat constructor; discriminate]|apply dec_plain; lia].
Qed.
Lemma extra_written m o : proper_gmesh m -> map src_id (srcs o) = map src_id (srcs (outline m)) -> vertex_srcs o = gm_vertex m ->
  forall vs ds, (forall v, In v vs -> In v (gm_vertex m)) -> read_extra o (filter (fun c => named c "input") (flat_map (vertex_extra m) vs)) ds = Some (map (fun q => fold_left (give (gm_sets m)) vs q) ds).
Proof.
  intros Hp Hi Hv. induction vs as [|v vs IH]; intros ds Hin; [cbn; now rewrite map_id|]. cbn [flat_map fold_left].
  assert (L : exists s, nth_error (gm_sources m) v = Some s).
  { destruct (q_mesh _ Hp) as (_ & _ & _ & _ & X). specialize (X v (Hin v (or_introl eq_refl))). cbn in X. rewrite map_length in X. destruct (nth_error (gm_sources m) v) eqn:Y; eauto. apply nth_error_None in Y. lia. }
  destruct L as (s & Es). assert (Hin' : forall w, In w vs -> In w (gm_vertex m)) by (intros w Hw; apply Hin; now right).
  destruct (vertex_set (gm_sets m) v) as [z|] eqn:Ez.
  - destruct (extra_element m v z s Hp Es Ez) as (i & -> & Ni & Ps & Pz & R). cbn [app filter]. rewrite Ni. cbn [read_extra]. rewrite Ps, Pz.
    assert (Ls : legal_id (g_id s)) by (apply nth_error_In in Es; pose proof (q_sources _ Hp) as Q; rewrite Forall_forall in Q; now apply (Q s)).
    rewrite (proj1 (drop_legal _ Ls)). pose proof (dec_nonempty z ltac:(lia)) as Nz. pose proof (read_i32 z ltac:(lia)) as Rz. rewrite i32_dec in Rz by lia.
    assert (F : FindSourceById o (g_id s) = Some v).
    { unfold FindSourceById. rewrite (proj2 (drop_legal _ Ls)). destruct (q_mesh _ Hp) as (Nd & _). apply (find_by_ids _ _ v _ Hi Nd). rewrite nth_error_map. cbn. rewrite nth_error_map, Es. reflexivity. }
    assert (V : IsVertexSource o v = true) by (unfold IsVertexSource; rewrite Hv; apply existsb_exists; exists v; split; [apply Hin; now left|apply Nat.eqb_refl]).
    destruct (g_id s) as [|c r] eqn:Eg; [now destruct Ls as (_ & X & _)|]. destruct (dec z) as [|c2 t2]; [congruence|].
    destruct (ToInt32 Strict (c2 :: t2)) as [[z' u]|]; [|discriminate]. cbn in Rz. injection Rz as ->. rewrite F, V. rewrite IH by exact Hin'. rewrite map_map. f_equal. apply map_ext.
    intro q. assert (give (gm_sets m) q v = give_set v z q) as -> by (unfold give; now rewrite Ez). reflexivity.
  - assert (vertex_extra m v = []) as -> by (unfold vertex_extra; now rewrite Es, Ez). cbn [app]. rewrite IH by exact Hin'. f_equal. apply map_ext. intro q. assert (give (gm_sets m) q v = q) as -> by (unfold give; now rewrite Ez). reflexivity.
Qed.
Lemma vertices_technique m : Forall (is_elem "input") (flat_map (vertex_element m) (gm_vertex m)) ->
  (existsb (fun v => match vertex_set (gm_sets m) v with Some _ => true | None => false end) (gm_vertex m) = true /\
   exists q, WireModel.technique_of (vertices_element m) = Some q /\ children_of q = flat_map (vertex_extra m) (gm_vertex m)) \/
  (existsb (fun v => match vertex_set (gm_sets m) v with Some _ => true | None => false end) (gm_vertex m) = false /\ WireModel.technique_of (vertices_element m) = None).
Proof.
  intro H. unfold vertices_element. destruct (existsb _ (gm_vertex m)).
  - left. split; [reflexivity|]. eexists. split.
    + apply WireProofs.technique_found. exists (WireModel.AddExtraTechniqueChild (flat_map (vertex_extra m) (gm_vertex m))). cbn [children_of]. split; [|split].
      * exists (flat_map (vertex_element m) (gm_vertex m)), []. split; [reflexivity|]. split; [eexists; eexists; reflexivity|]. revert H. apply Forall_impl. intros e (a & c & ->). apply not_elem. discriminate.
      * intros c v [<- | []] (nm & ch & q & q' & E & Hq). injection E as _ E _. destruct q as [|x q]; cbn in E; [injection E as <- _; apply WireProofs.plain_word|]. injection E as _ E. destruct q; discriminate.
      * apply first_here. split; [eexists; eexists; reflexivity|]. eexists _, _, [], []. split; [reflexivity|constructor].
    + reflexivity.
  - right. split; [reflexivity|]. rewrite app_nil_r. unfold WireModel.technique_of. rewrite WireProofs.child_missing; [reflexivity|]. cbn [children_of]. intros e He. rewrite Forall_forall in H.
    destruct (H e He) as (a & c & ->). apply not_elem. discriminate.
Qed.
Lemma gives_none sets vs q : existsb (fun v => match vertex_set sets v with Some _ => true | None => false end) vs = false -> fold_left (give sets) vs q = q.
Proof.
  induction vs as [|v vs IH]; [reflexivity|]. cbn. unfold give at 2. destruct (vertex_set sets v); [discriminate|]. exact IH.
Qed.
Lemma filter_all {A} (f : A -> bool) l : (forall x, In x l -> f x = true) -> filter f l = l.
Proof. induction l as [|x l IH]; intro H; [reflexivity|]. cbn. rewrite (H x (or_introl eq_refl)). f_equal. apply IH. intros y Hy. apply H. now right. Qed.
Lemma filter_nothing {A} (f : A -> bool) l : (forall x, In x l -> f x = false) -> filter f l = [].
Proof. induction l as [|x l IH]; intro H; [reflexivity|]. cbn. rewrite (H x (or_introl eq_refl)). apply IH. intros y Hy. apply H. now right. Qed.
Lemma filter_map_comm {A B} (f : B -> bool) (g : A -> B) l : filter f (map g l) = map g (filter (fun x => f (g x)) l).
Proof. induction l as [|x l IH]; [reflexivity|]. cbn. destruct (f (g x)); cbn; now rewrite IH. Qed.
(** The vertex sources of a set that was read. *)
Lemma same_vertex m d F q : consistent m d F -> same_set m d q -> filter (IsVertexSource m) (map source (pinputs (base q))) = vertex_srcs m.
Proof.
  intros Hc (_ & _ & _ & _ & V). rewrite <- view_sources, V, map_app, filter_app. rewrite (filter_all _ (map s_source (map _ _))), (filter_nothing _ (map s_source (filter _ _))), app_nil_r.
  - rewrite map_map. cbn. rewrite <- (c_vertex _ _ _ Hc), <- view_sources, filter_map_comm. reflexivity.
  - intros x Hx. apply in_map_iff in Hx as (s & <- & Hs). apply filter_In in Hs as (_ & Hs). unfold is_vertex in Hs. now destruct (IsVertexSource m (s_source s)).
  - intros x Hx. rewrite map_map in Hx. cbn in Hx. apply in_map_iff in Hx as (s & <- & Hs). now apply filter_In in Hs as (_ & Hs).
Qed.
Lemma set_back m d q : proper_gmesh m -> In d (gm_sets m) -> length (sets q) = length (pinputs (base q)) -> same_set (outline m) d q -> set_remains m d (fold_left (give (gm_sets m)) (gm_vertex m) q).
Proof.
  intros Hp Hd Hl Hs. assert (Hdc : exists F, consistent (outline m) d F) by (pose proof (q_sets _ Hp) as X; rewrite Forall_forall in X; now destruct (X d Hd)). destruct Hdc as (F & Hc).
  pose proof (same_vertex _ d F q Hc Hs) as Hv. cbn [outline vertex_srcs] in Hv. pose proof (q_mesh _ Hp) as (_ & _ & Nd & _). cbn [outline vertex_srcs] in Nd.
  assert (Hin : forall v, In v (gm_vertex m) <-> IsVertexSource (outline m) v = true).
  { intro v. unfold IsVertexSource. rewrite existsb_exists. cbn. split; [intro H; exists v; split; [exact H|apply Nat.eqb_refl]|intros (x & A & B); apply Nat.eqb_eq in B; now subst]. }
  destruct (gives_view (gm_sets m) (gm_vertex m) q Hl) as (B & M & V).
  { intros v Hi i j. apply (lone_filter (IsVertexSource (outline m)) _ v); [rewrite Hv; exact Nd|now apply Hin]. }
  destruct Hs as (S1 & S2 & S3 & S4 & S5). unfold set_remains. rewrite B, M, V. repeat (split; [assumption|]). rewrite S5, map_app. eexists. split; [f_equal; rewrite <- map_id; apply map_ext_in|].
  - intros s Hs. apply filter_In in Hs as (_ & Hs). destruct (upds_spec (gm_sets m) (gm_vertex m) s) as (A1 & A2 & A3 & A4).
    assert (existsb (Nat.eqb (s_source s)) (gm_vertex m) = false) as X by (unfold is_vertex, IsVertexSource in Hs; cbn in Hs; now destruct (existsb _ _)). rewrite X in A4. clear X.
    destruct (fold_left (upds (gm_sets m)) (gm_vertex m) s), s. cbn in *. congruence.
  - rewrite map_map. assert (G : Forall (fun s => is_vertex (outline m) s = true) (filter (is_vertex (outline m)) (view d))) by (apply Forall_forall; intros s Hs; now apply filter_In in Hs).
    clear S5. induction G as [|s l Hvs _ IH]; cbn [map]; [constructor|]. constructor; [|exact IH]. clear IH. destruct (upds_spec (gm_sets m) (gm_vertex m) (Seen (s_source s) (s_offset s) (-1) (s_indices s))) as (A1 & A2 & A3 & A4).
    cbn [s_source s_offset s_indices s_set] in A1, A2, A3, A4. repeat (split; [assumption|]). rewrite A4. unfold is_vertex in Hvs. change (existsb (Nat.eqb (s_source s)) (gm_vertex m)) with (IsVertexSource (outline m) (s_source s)). rewrite Hvs.
    destruct (gm_sets m) as [|d0 r] eqn:E; [destruct Hd|]. assert (H0 : exists F0, consistent (outline m) d0 F0) by (pose proof (q_sets _ Hp) as X; rewrite E in X; inversion X as [|? ? (X1 & _) _]; exact X1).
    destruct H0 as (F0 & H0). destruct (vertex_set_seen d0 r (s_source s) (c_sets _ _ _ H0)) as (s0 & I0 & I1 & I2).
    { assert (Y : In (s_source s) (filter (IsVertexSource (outline m)) (map source (pinputs (base d0))))) by (rewrite (c_vertex _ _ _ H0); apply Hin in Hvs; exact Hvs). now apply filter_In in Y. }
    rewrite <- I2. exists d0, r, s0. auto.
Qed.
Theorem mesh_round eps a m n : machine_eps eps -> proper_gmesh m -> WriteGeometryMesh eps m n -> exists m', LoadMesh a (gm_id m) n = Some (Some (true, m')) /\
  gm_id m' = gm_id m /\ gm_convex m' = gm_convex m /\ gm_hull m' = gm_hull m /\ gm_vertex m' = gm_vertex m /\ Forall2 (source_remains eps) (gm_sources m) (gm_sources m') /\
  (forall k s s', nth_error (gm_sources m) k = Some s -> nth_error (gm_sources m') k = Some s' -> (used m k -> g_type s' = g_type s) /\ (g_type s' = g_type s \/ g_type s' = UNKNOWN)) /\
  Forall2 (set_remains m) (gm_sets m) (gm_sets m').
Proof.
  intros He Hp Hw. pose proof Hp as [(Hc & Hh) Hs Hm Hd]. unfold WriteGeometryMesh in Hw. rewrite Hc in Hw. cbn [andb] in Hw. destruct Hw as (ls & ns & Wl & Wn & ->).
  destruct (sources_written eps _ _ He Hs Wl) as (ss & A1 & A2 & A3). destruct (sets_written (outline m) Hm (gm_sets m) Hd) as (ns' & Wn' & Hns & Hr). rewrite Wn in Wn'. injection Wn' as <-.
  assert (Ids : forall k s, nth_error (gm_sources m) k = Some s -> exists s1, nth_error ss k = Some s1 /\ g_id s1 = g_id s).
  { intros k s Hk. destruct (forall2_nth _ _ _ A3 _ _ Hk) as (s1 & X1 & [X2 _ _ _]). eauto. }
  assert (In' : forall v, In v (gm_vertex m) -> v < length (gm_sources m)) by (intros v Hv; destruct Hm as (_ & _ & _ & _ & X); specialize (X v Hv); cbn in X; now rewrite map_length in X).
  destruct (vertices_written m ss Hs Ids (gm_vertex m) In') as (V1 & V2).
  set (ch := List.concat ls ++ vertices_element m :: ns).
  assert (P1 : picked "source" ch (List.concat ls)).
  { apply picked_all; [exact A1|]. intros c [<- |Hc0]; [apply not_elem; discriminate|]. destruct (Hns c Hc0) as (t & k & Hk & ac & cc & ->). apply not_elem. cbn in Hk.
    repeat (destruct Hk as [Hk|Hk]; [injection Hk as <- _; discriminate|]). destruct Hk. }
  assert (P2 : first_child ch (is_elem "vertices") (vertices_element m)).
  { exists (List.concat ls), ns. split; [reflexivity|]. split; [eexists; eexists; reflexivity|]. revert A1. apply Forall_impl. intros e (x & y & ->). apply not_elem. discriminate. }
  assert (P3 : picked "input" (children_of (vertices_element m)) (flat_map (vertex_element m) (gm_vertex m))).
  { unfold vertices_element. cbn [children_of]. apply picked_all; [exact V1|]. intros c Hc0. destruct (existsb _ _); [|destruct Hc0]. destruct Hc0 as [<- |[]]. apply not_elem. discriminate. }
  destruct (sources_said a ch _ _ P1 A2) as (ss' & L1 & L2 & L3).
  assert (Nd : NoDup (map g_id ss)).
  { replace (map g_id ss) with (map src_id (srcs (outline m))); [apply Hm|]. cbn. rewrite map_map. cbn. clear - A3. induction A3 as [|x y l l' [X _ _ _] _ IH]; cbn; [reflexivity|]. rewrite IH. f_equal. now symmetry. }
  assert (Hl : Forall (fun s => legal_id (g_id s)) ss) by (clear - A2; induction A2 as [|e s l l' [(_ & X) _ _ _] _ IH]; constructor; auto).
  set (g := GMesh (gm_id m) false [] ss' [] []). set (vs := map (fun v => (v, type_at m v)) (gm_vertex m)).
  assert (Ei : map src_id (srcs (outline g)) = map g_id ss) by (cbn; rewrite map_map; cbn; now apply same_ids).
  pose proof (vertices_said ss _ vs V2 Hl Nd (outline g) Ei) as L4. pose proof (loaded_outline eps m ss ss' A3 L2 L3 Hm) as L5. fold vs g in L5.
  destruct (Hr _ L5) as (o2 & qs & R1 & R2 & R3 & R4 & R5).
  assert (R0 : read_sets (fold_left step vs (outline g)) ch = Some (true, o2, qs)).
  { unfold ch. rewrite sets_skip; [|intros c Hc0; rewrite Forall_forall in A1; apply (not_set "source"); [now apply A1|intros k t Hk; cbn in Hk; repeat (destruct Hk as [Hk|Hk]; [injection Hk as <- _; discriminate|]); destruct Hk]].
    change (vertices_element m :: ns) with ([vertices_element m] ++ ns). rewrite sets_skip; [exact R1|]. intros c [<- |[]]. apply (not_set "vertices"); [eexists; eexists; reflexivity|].
    intros k t Hk; cbn in Hk; repeat (destruct Hk as [Hk|Hk]; [injection Hk as <- _; discriminate|]); destruct Hk. }
  exists (finish g o2 (map (fun q => fold_left (give (gm_sets m)) (gm_vertex m) q) qs)). split.
  - unfold LoadMesh. assert (named (Elem (tx "mesh") [] ch) "mesh" = true) as -> by reflexivity. unfold LoadGeometryMesh. cbn [andb children_of]. cbv zeta.
    rewrite L1. rewrite (WireProofs.child_found "vertices" (Elem (tx "mesh") [] ch) _ P2). rewrite (picked_filter _ _ _ P3). fold g. rewrite L4, R0.
    destruct (vertices_technique m V1) as [(T1 & q & T2 & T3)|(T1 & T2)]; rewrite T2.
    + rewrite T3. rewrite (extra_written m o2 Hp); [reflexivity|now apply loading_ids|now destruct R2|auto].
    + rewrite (map_ext _ (fun q => q)); [rewrite map_id; reflexivity|]. intro q. now apply gives_none.
  - cbn [finish gm_id gm_convex gm_hull gm_vertex gm_sources gm_sets]. unfold g. cbn [gm_id gm_convex gm_hull gm_sources]. rewrite Hc, Hh. repeat (split; [reflexivity|]).
    destruct R2 as (Rv & Rs & Rt). split; [exact Rv|].
    assert (Len : length (srcs o2) = length ss') by (rewrite <- (Forall2_len _ _ _ Rs), <- (Forall2_len _ _ _ L2), <- (Forall2_len _ _ _ A3); cbn; now rewrite map_length). split; [|split].
    + pose proof (retype_same ss ss' L2 (srcs o2) Len) as X. revert X. generalize (retype ss' (srcs o2)). clear - A3. induction A3 as [|s s1 l l1 [B1 B2 B3 B4] _ IH]; intros l2 X; inversion X as [|? s2 ? ? [C1 C2 C3 C4] X2]; subst; constructor; auto.
      constructor; try congruence. clear - B4 C4. revert C4. generalize (g_data s2). induction B4 as [|x y u w Hxy _ IH]; intros l C4; inversion C4 as [|? z ? ? Hz C5]; subst; constructor; auto.
      exact (remains_eq _ _ _ _ Hxy Hz).
    + intros k s s' Hk Hk'. apply retype_nth in Hk' as (x & b & Hx & Hb & ->). cbn [g_type]. assert (Ho : nth_error (srcs (outline m)) k = Some (outline_source s)) by (cbn; rewrite nth_error_map, Hk; reflexivity).
      split.
      * intros [Hu|(d & sn & Hu1 & Hu2 & <-)]; [exact (Rt k _ _ Hu Ho Hb)|]. rewrite Forall_forall in R3. exact (R3 d Hu1 sn _ _ Hu2 Ho Hb).
      * destruct (forall2_nth _ _ _ Rs _ _ Ho) as (b' & Hb' & _ & _ & T). rewrite Hb in Hb'. injection Hb' as <-. exact T.
    + assert (Y : forall ds, (forall d, In d ds -> In d (gm_sets m)) -> forall qs, Forall2 (same_set (outline m)) ds qs -> Forall (fun q => length (sets q) = length (pinputs (base q))) qs ->
        Forall2 (set_remains m) ds (map (fun q => fold_left (give (gm_sets m)) (gm_vertex m) q) qs)).
      { clear - Hp. intros ds Hin qs H. induction H as [|d q ds qs Hdq _ IH]; intro Hq; [constructor|]. inversion Hq as [|? ? H1 H2]; subst. cbn [map]. constructor; [apply set_back; auto; apply Hin; now left|].
        apply IH; [|exact H2]. intros e He. apply Hin. now right. }
      apply Y; auto.
Qed.
