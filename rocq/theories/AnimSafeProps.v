(** C97: the elements a channel reads are found by their ids.  C98: reading a <channel> does not leave the lists. *)
From Coq Require Import String List ZArith NArith QArith Qabs Qpower Bool Lia Lqa FinFun.
From Verif Require Import TextModel TextSpec TextProofs StringModel StringProofs XmlModel FloatModel FloatSpec FloatProofs FloatProps DaeModel DaeSpec DaeProofs RigModel RigSpec
  RigTextProofs RigProofs RigWriteProofs RigProps CrcModel AnimModel AnimSpec AnimReadProofs AnimLoadProofs AnimChannelProofs AnimWriteProofs AnimRoundProofs AnimProps.
From Verif Require IdModel.
Import ListNotations.
Local Open Scope nat_scope.
Local Open Scope list_scope.

(** *** C97 *)
(** C97 (full statement, refuted below): a reference "#id" finds the nearest element with that id.  What holds: this is so if no element
    of the scopes searched has another id with the same CRC. *)
Theorem C97_found_partial : forall scopes id n, refers scopes id n -> FindChildByIdFCDAnimation scopes (35%Z :: id) = Some n.
Proof. apply find_by_crc. Qed.
Print Assumptions C97_found_partial.
(** C97 (full statement, refuted): "#buckeroo" finds the element "plumless". *)
Definition two_samplers : list xml :=
  [source_of_text "T" "float_array" (tx "0") []; source_of_text "V" "float_array" (tx "1") [accessor_of "1" "1"]; source_of_text "W" "float_array" (tx "2") [accessor_of "1" "1"];
   Elem (tx "sampler") [(tx "id", tx "plumless")] [reads "INPUT" "#T"; reads "OUTPUT" "#V"];
   Elem (tx "sampler") [(tx "id", tx "buckeroo")] [reads "INPUT" "#T"; reads "OUTPUT" "#W"]].
Definition plumless_channel (id : string) : xml := Elem (tx "channel") [(tx "source", 35%Z :: tx id); (tx "target", tx "cam/pos")] [].
Theorem C97_collision_refuted :
  NoDup (flat_map id_of two_samplers) /\
  first_child two_samplers (with_id (tx "buckeroo")) (Elem (tx "sampler") [(tx "id", tx "buckeroo")] [reads "INPUT" "#T"; reads "OUTPUT" "#W"]) /\
  exists c c', LoadAnimationChannel Strict [two_samplers] (plumless_channel "buckeroo") = Some (Some c) /\
    LoadAnimationChannel Strict [two_samplers] (plumless_channel "plumless") = Some (Some c') /\
    map (fun x => map (fun k => Qred (output k)) (keys x)) (curves c) = [[1%Q]] /\ map (fun x => map (fun k => Qred (output k)) (keys x)) (curves c') = [[1%Q]].
Proof.
  split; [|split].
  - vm_compute. repeat (apply NoDup_cons; [cbn; intuition discriminate|]). apply NoDup_nil.
  - do 4 (apply first_skip; [no_id|]). apply first_here. attr (@nil (list Z * list Z)).
  - do 2 eexists. split; [vm_compute; reflexivity|]. split; [vm_compute; reflexivity|]. split; vm_compute; reflexivity.
Qed.
Print Assumptions C97_collision_refuted.

(** Two curves whose elements get the same ids. *)
Lemma refers_first l r parents id c : faithful_ids (l ++ r) -> distinct_ids l -> In c l -> with_id id c -> proper_id id -> refers ((l ++ r) :: parents) id c.
Proof.
  intros (F1 & F2) (H1 & H2) Hc Hi Hp. split; [exact Hp|]. exists [], (l ++ r), parents. split; [reflexivity|]. split; [constructor|]. split.
  - apply in_split in Hc as (u & v & ->). exists u, (v ++ r). split; [now rewrite <- app_assoc|]. split; [exact Hi|]. apply Forall_forall. intros d Hd Hx.
    apply in_split in Hd as (w & z & ->). apply (H1 w d z c v id id); auto. now rewrite <- app_assoc.
  - intros l' d [<- | []] Hd. split.
    + intros v Hv E. symmetry. apply (F1 c d id v); auto. apply in_or_app. now left.
    + intros _. apply (F2 c id); [apply in_or_app; now left|exact Hi].
Qed.
Lemma faithful_part l r : faithful_ids (l ++ r) -> faithful_ids l.
Proof. intros (F1 & F2). split; [intros c c' v v' H1 H2; apply F1; apply in_or_app; now left|intros c v H; apply F2; apply in_or_app; now left]. Qed.
Lemma faithful_distinct l : faithful_ids l -> NoDup (flat_map id_of l) -> distinct_ids l.
Proof.
  intros (F1 & F2) Hn. split; [|exact F2]. intros u c m c' r v v' -> Hv Hv' E.
  assert (E' : v = v'). { apply (F1 c c'); auto; apply in_or_app; right; [now left|]. right. apply in_or_app. right. now left. }
  subst v'. rewrite flat_map_app in Hn. cbn [flat_map] in Hn. rewrite flat_map_app in Hn. cbn [flat_map] in Hn. rewrite (id_of_attr _ _ Hv), (id_of_attr _ _ Hv') in Hn.
  apply NoDup_remove_2 in Hn. apply Hn. apply in_or_app. right. apply in_or_app. right. left. reflexivity.
Qed.
Lemma curve_ids base c t rest : NoDup (flat_map id_of (curve_sources base (qualifier c) (memory c) (t_curve c) t ++ [curve_sampler base (t_curve c)])) /\
  (id_of rest = [] -> NoDup (flat_map id_of (curve_sources base (qualifier c) (memory c) (t_curve c) t ++ [curve_sampler base (t_curve c); rest]))).
Proof.
  assert (G : forall l : list (list Z), (fix nodup l := match l with [] => true | x :: r => negb (existsb (text_eq x) r) && nodup r end) l = true -> NoDup l).
  { induction l as [|x l IH]; [constructor|]. intro H. apply andb_true_iff in H as (H1 & H2). constructor; [|now apply IH]. intro Hx. apply negb_true_iff in H1.
    rewrite <- not_true_iff_false in H1. apply H1. apply existsb_exists. exists x. split; [exact Hx|apply text_eq_refl]. }
  set (suf := map tx (["-input"; "-output"; "-interpolations"]%string ++ (if has_tangents (keys (t_curve c)) then ["-intangents"; "-outtangents"]%string else []) ++
    (if has_tcb (keys (t_curve c)) then ["-tcbs"; "-eases"]%string else []) ++ ["-sampler"]%string)).
  assert (N : NoDup (map (fun k => base ++ k) suf)).
  { apply Injective_map_NoDup; [intros x y H; now apply app_inv_head in H|]. apply G. unfold suf. destruct (has_tangents (keys (t_curve c))), (has_tcb (keys (t_curve c))); vm_compute; reflexivity. }
  assert (E : flat_map id_of (curve_sources base (qualifier c) (memory c) (t_curve c) t ++ [curve_sampler base (t_curve c)]) = map (fun k => base ++ k) suf).
  { unfold curve_sources, sources, suf. destruct (has_tangents (keys (t_curve c))), (has_tcb (keys (t_curve c))); reflexivity. }
  split; [now rewrite E|]. intro Hr. rewrite <- E in N. revert N. rewrite !flat_map_app. cbn [flat_map]. now rewrite Hr.
Qed.
(** C97 (full statement, refuted): if two curves of an animation get the same id, the second is read back with the keys, the
    infinities and the driver of the first, for all animations with two such curves. *)
Theorem C97_shared_ids_refuted : forall a eps id p1 p2 c1 c2 n parents, machine_eps eps -> proper_curve p1 c1 -> proper_curve p2 c2 ->
  curve_id (base_id id p1) c1 = curve_id (base_id id p2) c2 ->
  WriteAnimation eps (Tree id [Separate p1 [c1]; Separate p2 [c2]] []) n -> faithful_ids (children_of n) ->
  exists x1 x2, LoadAnimation a parents n = Some (Animation true [x1; x2] []) /\ curve_kept eps p1 c1 x1 /\
    curve_kept eps p2 (Targeted (t_curve c1) (element c2) (qualifier c2) (memory c1)) x2.
Proof.
  intros a eps id p1 p2 c1 c2 n parents He P1 P2 Hb Hw Hf. inversion Hw as [? ? ? attrs outs nodes W1 W2]; subst. inversion W2; subst. inversion W1 as [|? o1 ? os T1 T2]; subst. inversion T2 as [|? o2 ? os2 T3 T4]; subst. inversion T4; subst.
  clear Hw W1 W2 T2 T4. destruct T1 as (ts1 & F1 & ->). destruct T3 as (ts2 & F2 & ->). inversion F1 as [|? t1 ? r1 T1 Hn1]; subst. inversion Hn1; subst. inversion F2 as [|? t2 ? r2 T2 Hn2]; subst. inversion Hn2; subst.
  clear F1 F2 Hn1 Hn2. cbn [List.concat children_of] in *. rewrite !app_nil_r in *. unfold channel_elements in *. cbn [combine map flat_map fst snd] in *. rewrite !app_nil_r in *. rewrite <- Hb in *.
  set (b := curve_id (base_id id p1) c1) in *. assert (Hpb : plain b) by apply clean_plain. clearbody b.
  set (s1 := curve_sources b (qualifier c1) (memory c1) (t_curve c1) t1) in *. set (s2 := curve_sources b (qualifier c2) (memory c2) (t_curve c2) t2) in *.
  set (m1 := curve_sampler b (t_curve c1)) in *. set (m2 := curve_sampler b (t_curve c2)) in *. set (n1 := channel_node b p1 (element c1) (qualifier c1)) in *. set (n2 := channel_node b p2 (element c2) (qualifier c2)) in *.
  cbn [app] in Hf |- *. set (ch := (s1 ++ [m1; n1]) ++ s2 ++ [m2; n2]) in *.
  assert (Hd : distinct_ids (s1 ++ [m1; n1])).
  { apply faithful_distinct; [apply (faithful_part _ _ Hf)|]. apply (curve_ids b c1 t1 n1). reflexivity. }
  assert (R : forall y i, In y (m1 :: s1) -> with_id i y -> proper_id i -> refers (ch :: parents) i y).
  { intros y i Hy Hi Hpi. apply refers_first; auto. destruct Hy as [<- | Hy]; apply in_or_app; [right; left; reflexivity|now left]. }
  destruct (curve_back a eps b p1 c1 t1 (Some [skip_dot (qualifier c1)]) ch parents He Hpb P1 T1 R) as (x1 & L1 & K1).
  set (c := Targeted (t_curve c1) (element c2) (qualifier c2) (memory c1)) in *.
  assert (Pc : proper_curve p2 c). { destruct P1 as (A1 & A2 & A3 & A4 & A5 & A6 & A7 & A8). destruct P2 as (_ & _ & _ & _ & _ & _ & B7 & _). unfold proper_curve, c. cbn [t_curve element qualifier memory]. tauto. }
  destruct (curve_back a eps b p2 c t1 (Some [skip_dot (qualifier c1)]) ch parents He Hpb Pc T1 R) as (x2 & L2 & K2).
  change (LoadAnimationChannel a (ch :: parents) n1 = Some (Some x1)) in L1. change (LoadAnimationChannel a (ch :: parents) n2 = Some (Some x2)) in L2.
  exists x1, x2. split; [|auto]. rewrite load_animation_eq.
  assert (Q : forall k, k = "channel"%string \/ k = "animation"%string -> filter (fun y => named y k) s1 = [] /\ filter (fun y => named y k) s2 = []) by (intros k Hk; split; now apply sources_other).
  assert (E : filter (fun y => named y "channel") ch = [n1; n2]).
  { unfold ch. rewrite !filter_app. destruct (Q "channel"%string) as (-> & ->); [auto|]. reflexivity. }
  rewrite E. cbn [load_channels]. rewrite L1. cbn [andb]. rewrite L2. cbn [andb].
  assert (E2 : load_subs a (ch :: parents) ch = Some []); [|now rewrite E2].
  rewrite <- (app_nil_r ch) at 2. apply load_subs_skip. unfold ch. rewrite !filter_app. destruct (Q "animation"%string) as (-> & ->); [auto|]. reflexivity.
Qed.
Print Assumptions C97_shared_ids_refuted.
(** This happens to all curves of an animation with an id of 512 characters or more ... *)
Lemma clean_long s r : 512 <= List.length s -> IdModel.CleanId (s ++ r) = IdModel.CleanId s.
Proof. intro H. unfold IdModel.CleanId. rewrite firstn_app. unfold IdModel.MAX_ID_LENGTH. replace (512 - List.length s) with 0 by lia. now rewrite app_nil_r. Qed.
Lemma clean_length s : 512 <= List.length s -> List.length (IdModel.CleanId s) = 512.
Proof.
  intro H. unfold IdModel.CleanId. assert (L : List.length (firstn IdModel.MAX_ID_LENGTH s) = 512) by (apply firstn_length_le; exact H).
  destruct (firstn IdModel.MAX_ID_LENGTH s) as [|x l]; [discriminate|]. cbn [IdModel.clean_with List.length]. rewrite map_length. exact L.
Qed.
Theorem C97_long_id : forall id p1 p2 c1 c2, 512 <= List.length id -> curve_id (base_id id p1) c1 = curve_id (base_id id p2) c2.
Proof.
  intros id p1 p2 c1 c2 H. unfold curve_id, base_id. rewrite (clean_long id _ H), (clean_long id _ H). pose proof (clean_length id H) as L.
  rewrite !clean_long by lia. reflexivity.
Qed.
Print Assumptions C97_long_id.
(** ... and to curves for pointers that differ in a '/' and a '_'. *)
Theorem C97_slash : forall id u v c1 c2, id <> [] -> element c1 = element c2 -> qualifier c1 = qualifier c2 ->
  curve_id (base_id id (u ++ 47%Z :: v)) c1 = curve_id (base_id id (u ++ 95%Z :: v)) c2.
Proof.
  intros id u v c1 c2 Hid He Hq. unfold curve_id. rewrite He, Hq. f_equal. f_equal. unfold base_id, IdModel.CleanId. destruct id as [|x id]; [congruence|]. cbn [app].
  assert (E : forall k l, map IdModel.clean_id_char (firstn k (l ++ 47%Z :: v)) = map IdModel.clean_id_char (firstn k (l ++ 95%Z :: v))).
  { intros k l. rewrite !firstn_app, !map_app. f_equal. destruct (k - List.length l); reflexivity. }
  assert (Em : exists m, IdModel.MAX_ID_LENGTH = S m) by (exists 511; reflexivity). destruct Em as (m & ->). cbn [firstn IdModel.clean_with]. f_equal. replace (id ++ 95%Z :: u ++ 47%Z :: v) with ((id ++ 95%Z :: u) ++ 47%Z :: v) by now rewrite <- app_assoc.
  replace (id ++ 95%Z :: u ++ 95%Z :: v) with ((id ++ 95%Z :: u) ++ 95%Z :: v) by now rewrite <- app_assoc. apply E.
Qed.
Print Assumptions C97_slash.
(** Two curves for "box/x" and "box_x". *)
Definition other_x : targeted := Targeted (Curve [Key 5 7 (Plain 1)] 0 0 None)%Q (-1) (tx ".X") [0]%Z.
Example C97_demo : forall eps, machine_eps eps -> proper_curve (tx "box/x") walk_x /\ proper_curve (tx "box_x") other_x /\
  curve_id (base_id (tx "walk") (tx "box/x")) walk_x = curve_id (base_id (tx "walk") (tx "box_x")) other_x /\
  exists n, WriteAnimation eps (Tree (tx "walk") [Separate (tx "box/x") [walk_x]; Separate (tx "box_x") [other_x]] []) n /\ faithful_ids (children_of n).
Proof.
  intros eps He. assert (T : forall p q, plain p -> Forall (fun c => c <> 40 /\ c <> 91 /\ c <> 46)%Z p -> plain q -> q = [] \/ In (hd 0%Z q) [40; 91; 46]%Z -> proper_target p (-1) q) by (intros p q A B C D; unfold proper_target; tauto).
  split; [|split; [|split]].
  - split; [discriminate|]. split; [cbn; lia|]. split; [|split; [unfold proper_infinity; cbn; lia|split; [unfold proper_infinity; cbn; lia|]]].
    + constructor; [split; [small|split; [small|cbn; repeat split; small]]|]. constructor; [split; [small|split; [small|cbn; tauto]]|constructor].
    + split; [exact I|]. split; [|reflexivity]. apply T; [apply plain_check; reflexivity|apply pointer_check; reflexivity|apply plain_check; reflexivity|right; cbn; tauto].
  - split; [discriminate|]. split; [cbn; lia|]. split; [|split; [unfold proper_infinity; cbn; lia|split; [unfold proper_infinity; cbn; lia|]]].
    + constructor; [split; [small|split; [small|cbn; tauto]]|constructor].
    + split; [exact I|]. split; [|reflexivity]. apply T; [apply plain_check; reflexivity|apply pointer_check; reflexivity|apply plain_check; reflexivity|right; cbn; tauto].
  - apply (C97_slash (tx "walk") (tx "box") (tx "x")); [discriminate|reflexivity|reflexivity].
  - destruct (texts_exist eps (map input (keys (t_curve walk_x))) (keys (t_curve walk_x)) He) as (t1 & T1). destruct (texts_exist eps (map input (keys (t_curve other_x))) (keys (t_curve other_x)) He) as (t2 & T2).
    exists (Elem (tx "animation") [(tx "id", tx "walk")] (List.concat [channel_elements (base_id (tx "walk") (tx "box/x")) (tx "box/x") (combine [walk_x] [t1]);
      channel_elements (base_id (tx "walk") (tx "box_x")) (tx "box_x") (combine [other_x] [t2])] ++ [])).
    split.
    + constructor; [|constructor]. constructor; [exists [t1]; split; [constructor; [exact T1|constructor]|reflexivity]|]. constructor; [exists [t2]; split; [constructor; [exact T2|constructor]|reflexivity]|constructor].
    + cbn [children_of]. assert (Q : forall ch, forallb (fun v => negb (CRC32 (bytes v) =? 0)%N) (flat_map id_of ch) = true ->
        forallb (fun v => forallb (fun v' => negb (CRC32 (bytes v) =? CRC32 (bytes v'))%N || text_eq v v') (flat_map id_of ch)) (flat_map id_of ch) = true -> faithful_ids ch).
      { intros ch H1 H2. rewrite forallb_forall in H1, H2. assert (I : forall c v, In c ch -> has_attr c "id" v -> In v (flat_map id_of ch)).
        { intros c v Hc Hv. apply in_flat_map. exists c. split; [exact Hc|]. rewrite (id_of_attr _ _ Hv). now left. }
        split.
        - intros c c' v v' Hc Hc' Hv Hv' E. specialize (H2 v (I c v Hc Hv)). rewrite forallb_forall in H2. specialize (H2 v' (I c' v' Hc' Hv')). rewrite E, N.eqb_refl in H2. now apply text_eq_spec.
        - intros c v Hc Hv E. specialize (H1 v (I c v Hc Hv)). rewrite E in H1. discriminate. }
      apply Q; vm_compute; reflexivity.
Qed.

(** *** C98 *)
(** C98 (full statement, refuted below): reading a <channel> uses neither elements behind the end of a list nor values that were never
    initialised.  What holds: this is so if the arrays hold what the accessors say. *)
Theorem C98_described_partial : forall a scopes n m, means scopes n m -> LoadAnimationChannel a scopes n <> None.
Proof. intros a scopes n m H. destruct (load_described a scopes n _ _ _ _ H) as (c & E & _). congruence. Qed.
Print Assumptions C98_described_partial.
(** A channel with given sources. *)
Definition untrusted (values words tangents tcbs : xml) : list xml :=
  [source_of_text "T" "float_array" (tx "0 1") []; values; words; tangents; tcbs;
   Elem (tx "sampler") [(tx "id", tx "S")] [reads "INPUT" "#T"; reads "OUTPUT" "#V"; reads "INTERPOLATION" "#K"; reads "OUT_TANGENT" "#R"; reads "TCB" "#C"]].
Definition values_ok : xml := source_of_text "V" "float_array" (tx "0 1") [accessor_of "2" "1"].
Definition words_ok : xml := source_of_text "K" "Name_array" (tx "BEZIER TCB") [accessor_of "2" "1"].
Definition tangents_ok : xml := source_of_text "R" "float_array" (tx "0 0 1 1") [accessor_of "2" "2"].
Definition tcbs_ok : xml := source_of_text "C" "float_array" (tx "0 0 0 1 1 1") [accessor_of "2" "3"].
Example C98_demo : exists c, LoadAnimationChannel Strict [untrusted values_ok words_ok tangents_ok tcbs_ok] foreign_channel = Some (Some c) /\
  map (fun x => map (fun k => interpolation (kind k)) (keys x)) (curves c) = [[2%Z; 3%Z]].
Proof. eexists. split; [vm_compute; reflexivity|]. vm_compute. reflexivity. Qed.
(** C98 (full statement, refuted): more entries than numbers in the tangents: values that were never initialised become tangents. *)
Theorem C98_tangents_refuted : forall a, LoadAnimationChannel a
  [untrusted values_ok words_ok (source_of_text "R" "float_array" [] [accessor_of "2" "2"]) tcbs_ok] foreign_channel = None.
Proof. intros []; vm_compute; reflexivity. Qed.
Print Assumptions C98_tangents_refuted.
(** More entries than words in the interpolations: words behind the end of the list are used. *)
Theorem C98_words_refuted : forall a, LoadAnimationChannel a
  [untrusted values_ok (source_of_text "K" "Name_array" (tx "BEZIER") [accessor_of "2" "1"]) tangents_ok tcbs_ok] foreign_channel = None.
Proof. intros []; vm_compute; reflexivity. Qed.
Print Assumptions C98_words_refuted.
(** The last row of the values is incomplete. *)
Theorem C98_values_refuted : forall a, LoadAnimationChannel a
  [untrusted (source_of_text "V" "float_array" (tx "0 1 2") [accessor_of "2" "2"]) words_ok tangents_ok tcbs_ok] foreign_channel = None.
Proof. intros []; vm_compute; reflexivity. Qed.
Print Assumptions C98_values_refuted.
(** Fewer entries than numbers in the TCB values: a list behind the end of the lists is used. *)
Theorem C98_tcb_refuted : forall a, LoadAnimationChannel a
  [untrusted values_ok words_ok tangents_ok (source_of_text "C" "float_array" (tx "0 0 0 1 1 1 0 0 0") [accessor_of "1" "3"])] foreign_channel = None.
Proof. intros []; vm_compute; reflexivity. Qed.
Print Assumptions C98_tcb_refuted.
