(** C94: reading a <channel> element.  C95: animations written to XML and read back.  C96: the channels of an <animation> element. *)
From Coq Require Import String List ZArith NArith QArith Qabs Qpower Bool Lia Lqa.
From Verif Require Import TextModel TextSpec TextProofs StringModel StringProofs XmlModel FloatModel FloatSpec FloatProofs FloatProps DaeModel DaeSpec DaeProofs RigModel RigSpec
  RigTextProofs RigProofs RigWriteProofs RigProps CrcModel AnimModel AnimSpec AnimReadProofs AnimLoadProofs AnimChannelProofs AnimWriteProofs AnimRoundProofs.
From Verif Require IdModel.
Import ListNotations.
Local Open Scope nat_scope.
Local Open Scope list_scope.

(** *** C94 *)
(** C94: a <channel> element with data for dim curves gives dim curves with exactly these keys, infinities and driver, and its
    target. *)
Theorem C94_import : forall a scopes n dim d pointer qualifier, describes scopes n dim d pointer qualifier ->
  exists c, LoadAnimationChannel a scopes n = Some (Some c) /\ channel_is dim d pointer qualifier c.
Proof. intros a scopes n dim d p q. apply load_described. Qed.
Print Assumptions C94_import.

(** Checking the ids of a list of elements. *)
Definition id_of (c : xml) : list (list Z) := match c with Elem _ a _ => match find_attr a (tx "id") with Some v => [v] | None => [] end | Text _ => [] end.
Fixpoint all_different (l : list N) : bool := match l with [] => true | x :: r => negb (existsb (N.eqb x) r) && all_different r end.
Definition distinct_check (ch : list xml) : bool :=
  let l := map (fun v => CRC32 (bytes v)) (flat_map id_of ch) in all_different l && forallb (fun x => negb (x =? 0)%N) l.
Lemma id_of_attr c v : has_attr c "id" v -> id_of c = [v].
Proof. intros (nm & ch & pre & post & -> & H). cbn [id_of]. now rewrite (find_attr_some pre (tx "id") v post H). Qed.
Lemma all_different_nodup : forall l, all_different l = true -> NoDup l.
Proof.
  induction l as [|x l IH]; intro H; [constructor|]. apply andb_true_iff in H as (H1 & H2). constructor; [|auto]. intro Hx. apply negb_true_iff in H1.
  rewrite <- not_true_iff_false in H1. apply H1. apply existsb_exists. exists x. split; [exact Hx|]. apply N.eqb_refl.
Qed.
Lemma distinct_checked ch : distinct_check ch = true -> distinct_ids ch.
Proof.
  intro H. unfold distinct_check in H. apply andb_true_iff in H as (H1 & H2). apply all_different_nodup in H1. rewrite forallb_forall in H2. split.
  - intros l c m c' r v v' -> Hv Hv' E. rewrite !flat_map_app in H1. cbn [flat_map] in H1. rewrite flat_map_app in H1. cbn [flat_map] in H1.
    rewrite (id_of_attr _ _ Hv), (id_of_attr _ _ Hv') in H1. rewrite !map_app in H1. cbn [map] in H1.
    apply NoDup_remove_2 in H1. apply H1. apply in_or_app. right. apply in_or_app. right. apply in_or_app. left. rewrite E. left. reflexivity.
  - intros c v Hc Hv E. assert (Hi : In (CRC32 (bytes v)) (map (fun v => CRC32 (bytes v)) (flat_map id_of ch))).
    { apply (in_map (fun v => CRC32 (bytes v))). apply in_flat_map. exists c. split; [exact Hc|]. rewrite (id_of_attr _ _ Hv). now left. }
    specialize (H2 _ Hi). rewrite E in H2. discriminate.
Qed.

(** The sources of an animation as another tool could write them: two curves with relative tangents for the outgoing ones. *)
Definition accessor_of (count stride : string) : xml := Elem (tx "technique_common") [] [Elem (tx "accessor") [(tx "count", tx count); (tx "stride", tx stride)] []].
Definition source_of_text (id array : string) (text : list Z) (rest : list xml) : xml := Elem (tx "source") [(tx "id", tx id)] (Elem (tx array) [] [Text text] :: rest).
Definition reads (semantic id : string) : xml := Elem (tx "input") [(tx "semantic", tx semantic); (tx "source", tx id)] [].
Definition foreign_children (out_count : string) : list xml :=
  [source_of_text "T" "float_array" (tx "0 1") [Elem (tx "technique") [(tx "profile", tx "MAYA")]
     [Elem (tx "post_infinity") [] [Text (tx "CYCLE")]; Elem (tx "pre_infinity") [] [Text (tx "LINEAR")]]];
   source_of_text "V" "float_array" (tx "0 1 1 0") [accessor_of "2" "2"];
   source_of_text "K" "Name_array" (tx "LINEAR BEZIER") [accessor_of "2" "1"];
   source_of_text "R" "float_array" (tx "0 0 1 1") [accessor_of out_count "2"];
   Elem (tx "sampler") [(tx "id", tx "S")] [reads "OUT_TANGENT" "#R"; reads "INPUT" "#T"; Text (tx " "); reads "OUTPUT" "#V"; reads "INTERPOLATION" "#K"; reads "DRIVER" "#knob(2)"];
   Elem (tx "channel") [(tx "source", tx "#S"); (tx "target", tx "cam/pos.XY")] []].
Definition foreign_channel : xml := Elem (tx "channel") [(tx "source", tx "#S"); (tx "target", tx "cam/pos.XY")] [].
Definition foreign_channel_data : channel_data :=
  ChannelData [0; 1]%Q [[0; 1]; [1; 0]]%Q [tx "LINEAR"; tx "BEZIER"] None (Some (Relative [[0; 0]; [1; 1]]%Q)) None None 1 2 (Some (tx "knob", 2%Z)).
Lemma foreign_distinct count : In count ["1"; "2"]%string -> distinct_ids (foreign_children count).
Proof. intros [<- |[<- |[]]]; apply distinct_checked; vm_compute; reflexivity. Qed.
Lemma accessor_read_off id array text count stride c s rest : (0 <= Z.of_nat c < 10)%Z -> (0 <= Z.of_nat s < 10)%Z -> tx count = [(48 + Z.of_nat c)%Z] -> tx stride = [(48 + Z.of_nat s)%Z] ->
  tx array <> tx "technique_common" -> accessor (source_of_text id array text (accessor_of count stride :: rest)) s c.
Proof.
  intros Hc Hs Ec Es Ha. do 4 eexists. split; [apply first_skip; [apply not_elem; congruence|]; apply first_here; elem|]. split; [apply first_here; elem|].
  split; [attr [(tx "count", tx count)]|]. split; [rewrite Es; now apply dec1|]. split; [attr (@nil (list Z * list Z))|]. split; [rewrite Ec; now apply dec1|]. lia.
Qed.
Lemma plain_check t : forallb (fun c => (1 <=? c) && (c <=? 255) && negb (c =? 37))%Z t = true -> plain t.
Proof.
  intro H. rewrite forallb_forall in H. split.
  - apply Forall_forall. intros c Hc. specialize (H c Hc). rewrite !andb_true_iff, !Z.leb_le in H. lia.
  - intro Hi. specialize (H _ Hi). discriminate.
Qed.
Ltac text_there := do 3 eexists; split; [reflexivity|]; right; eexists; reflexivity.
Ltac other_semantics := repeat (apply Forall_cons; [let X := fresh in intro X; apply has_attr_find in X; discriminate X|]); apply Forall_nil.
Lemma foreign_described ch parents : distinct_ids ch -> incl (foreign_children "2") ch -> describes (ch :: parents) foreign_channel 2 foreign_channel_data (tx "cam/pos") (tx ".XY").
Proof.
  intros Hd Hin.
  split.
  - split; [attr [(tx "source", tx "#S")]|]. split; [apply plain_check; reflexivity|]. split; [apply plain_check; reflexivity|]. split; [|right; cbn; tauto].
    apply Forall_forall. intros c Hc. cbn in Hc. repeat (destruct Hc as [<- | Hc]; [lia|]). destruct Hc.
  - set (ins := [reads "OUT_TANGENT" "#R"; reads "INPUT" "#T"; reads "OUTPUT" "#V"; reads "INTERPOLATION" "#K"; reads "DRIVER" "#knob(2)"]).
    exists (tx "S"), (Elem (tx "sampler") [(tx "id", tx "S")] [reads "OUT_TANGENT" "#R"; reads "INPUT" "#T"; Text (tx " "); reads "OUTPUT" "#V"; reads "INTERPOLATION" "#K"; reads "DRIVER" "#knob(2)"]).
    do 2 eexists. exists ins. split; [attr (@nil (list Z * list Z))|]. split; [apply refers_in; [exact Hd|apply Hin; cbn; tauto|attr (@nil (list Z * list Z))|apply proper_letter; cbn; lia]|]. split; [reflexivity|]. split.
    { repeat first [apply I_keep; [elem|] | apply I_skip; [other|]]. apply I_nil. }
    split.
    { intros i v Hi Hv. cbn [ins In] in Hi. repeat (destruct Hi as [<- | Hi]); try contradiction; apply has_attr_find in Hv; injection Hv as <-; apply plain_check; reflexivity. }
    cbn [d_times d_values d_words d_in d_out d_tcb d_ease d_pre d_post d_driver foreign_channel_data].
    split; [|split; [|split; [|split; [|split; [|split; [|split]]]]]].
    + exists (tx "T"). eexists. split; [exists [reads "OUT_TANGENT" "#R"]; do 2 eexists; split; [reflexivity|]; split; [attr (@nil (list Z * list Z))|]; split; [attr [(tx "semantic", tx "INPUT")]|other_semantics]|].
      split; [apply refers_in; [exact Hd|apply Hin; left; reflexivity|attr (@nil (list Z * list Z))|apply proper_letter; cbn; lia]|]. split.
      * do 5 eexists. split; [reflexivity|]. split; [text_there|]. split; [|apply first_here; elem]. change (tx "0 1") with ([48] ++ 32 :: [49])%Z. zeros_ones.
      * split; [intros c v Hc Hv; cbn in Hc; repeat (destruct Hc as [<- | Hc]); try contradiction; apply has_attr_find in Hv; [discriminate|]; injection Hv as <-; apply plain_check; reflexivity|].
        right. do 3 eexists. exists "LINEAR"%string, "CYCLE"%string. split.
        { apply first_skip; [intros ((? & ? & X) & _); discriminate X|]. apply first_here. split; [elem|attr (@nil (list Z * list Z))]. }
        split; [right; reflexivity|]. split; [elem|]. split; [text_there|]. split; [cbn; tauto|]. split; [elem|]. split; [text_there|cbn; tauto].
    + exists (tx "V"). eexists. split; [exists [reads "OUT_TANGENT" "#R"; reads "INPUT" "#T"]; do 2 eexists; split; [reflexivity|]; split; [attr (@nil (list Z * list Z))|]; split; [attr [(tx "semantic", tx "OUTPUT")]|other_semantics]|].
      split; [apply refers_in; [exact Hd|apply Hin; right; left; reflexivity|attr (@nil (list Z * list Z))|apply proper_letter; cbn; lia]|]. exists 2. split; [|cbn; lia].
      split; [lia|]. split; [apply accessor_read_off; [cbn; lia|cbn; lia|reflexivity|reflexivity|discriminate]|]. split; [repeat (apply Forall_cons; [reflexivity|]); apply Forall_nil|].
      do 5 eexists. split; [reflexivity|]. split; [text_there|]. split; [apply first_here; elem|]. change (tx "0 1 1 0") with ([48] ++ 32 :: ([49] ++ 32 :: ([49] ++ 32 :: [48])))%Z. cbn [List.concat app]. zeros_ones.
    + exists (tx "K"). eexists. split; [exists [reads "OUT_TANGENT" "#R"; reads "INPUT" "#T"; reads "OUTPUT" "#V"]; do 2 eexists; split; [reflexivity|]; split; [attr (@nil (list Z * list Z))|]; split; [attr [(tx "semantic", tx "INTERPOLATION")]|other_semantics]|].
      split; [apply refers_in; [exact Hd|apply Hin; right; right; left; reflexivity|attr (@nil (list Z * list Z))|apply proper_letter; cbn; lia]|].
      exists 1, [tx "LINEAR"; tx "BEZIER"]. split; [lia|]. split; [apply accessor_read_off; [cbn; lia|cbn; lia|reflexivity|reflexivity|discriminate]|]. split; [cbn; lia|].
      split; [intros i _; now rewrite Nat.mul_1_r|]. do 5 eexists. split; [reflexivity|]. split; [text_there|]. split; [apply first_here; elem|].
      change (words_of (tx "LINEAR" ++ 32%Z :: tx "BEZIER") ([tx "LINEAR"] ++ [tx "BEZIER"])). apply words_join; apply word_words, word_check; first [reflexivity|discriminate].
    + cbn [sampled wired]. other_semantics.
    + exists (tx "R"). eexists. split; [exists []; do 2 eexists; split; [reflexivity|]; split; [attr (@nil (list Z * list Z))|]; split; [attr [(tx "semantic", tx "OUT_TANGENT")]|other_semantics]|].
      split; [apply refers_in; [exact Hd|apply Hin; right; right; right; left; reflexivity|attr (@nil (list Z * list Z))|apply proper_letter; cbn; lia]|]. exists 2. split; [|cbn; lia].
      split; [lia|]. split; [apply accessor_read_off; [cbn; lia|cbn; lia|reflexivity|reflexivity|discriminate]|]. split; [repeat (apply Forall_cons; [reflexivity|]); apply Forall_nil|].
      do 5 eexists. split; [reflexivity|]. split; [text_there|]. split; [apply first_here; elem|]. change (tx "0 0 1 1") with ([48] ++ 32 :: ([48] ++ 32 :: ([49] ++ 32 :: [49])))%Z. cbn [List.concat app]. zeros_ones.
    + cbn [sampled wired]. other_semantics.
    + cbn [sampled wired]. other_semantics.
    + exists (tx "knob(2)"). split.
      { exists [reads "OUT_TANGENT" "#R"; reads "INPUT" "#T"; reads "OUTPUT" "#V"; reads "INTERPOLATION" "#K"]. do 2 eexists. split; [reflexivity|].
        split; [attr (@nil (list Z * list Z))|]. split; [attr [(tx "semantic", tx "DRIVER")]|other_semantics]. }
      split; [|split; [lia|]].
      * split; [split; [apply plain_check; reflexivity|discriminate]|]. apply Forall_forall. intros c Hc. cbn in Hc. repeat (destruct Hc as [<- | Hc]; [lia|]). destruct Hc.
      * exists [50%Z], []. split; [reflexivity|]. split; [apply (dec1 2); lia|]. split; [constructor|intros []].
  - split; [discriminate|lia].
Qed.
Example C94_demo : describes [foreign_children "2"] foreign_channel 2 foreign_channel_data (tx "cam/pos") (tx ".XY") /\
  exists c, LoadAnimationChannel Strict [foreign_children "2"] foreign_channel = Some (Some c) /\ List.length (curves c) = 2 /\
    map (fun x => (pre_infinity x, post_infinity x, driver x)) (curves c) = repeat (1%Z, 2%Z, Some (tx "knob", 2%Z)) 2 /\
    map (fun x => map (fun k => (Qred (output k), interpolation (kind k))) (keys x)) (curves c) = [[(0, 1%Z); (1, 2%Z)]; [(1, 1%Z); (0, 2%Z)]]%Q.
Proof.
  split; [apply foreign_described; [apply foreign_distinct; cbn; tauto|intros x H; exact H]|]. eexists. split; [vm_compute; reflexivity|]. split; [reflexivity|]. split; [reflexivity|]. vm_compute. reflexivity.
Qed.

(** *** C95 *)
(** C95 (full statement, refuted below): an animation that is written and read back has the same channels, and these have the same
    targets, infinities, drivers and keys - time, value, interpolation and the members that belong to it, numbers to six digits.
    What holds for every animation whose elements get different ids: all of this but the interpolations.  Those are taken from memory
    that was never initialised: n numbers for n keys.  A key whose interpolation is met there by chance keeps the rest. *)
Theorem C95_round_trip_partial : forall a eps t n parents, machine_eps eps -> WriteAnimation eps t n -> proper_tree t -> clear_ids n ->
  exists an, LoadAnimation a parents n = Some an /\ tree_kept eps t an.
Proof. intros a eps t n parents He. now apply tree_back. Qed.
Print Assumptions C95_round_trip_partial.
(** Every animation can be written. *)
Theorem C95_writable : forall eps t, machine_eps eps -> exists n, WriteAnimation eps t n.
Proof. intros eps t He. now apply tree_writable. Qed.
Print Assumptions C95_writable.
(** With the interpolations of the keys in the memory, everything is kept: [intact] says so of a curve. *)
Definition intact (eps : Q) (pointer : list Z) (c : targeted) (ch : channel) : Prop :=
  target_pointer ch = pointer /\ qualifier_is (element c) (qualifier c) (target_qualifier ch) /\
  exists x, curves ch = [x] /\ pre_infinity x = pre_infinity (t_curve c) /\ post_infinity x = post_infinity (t_curve c) /\ driver x = driver (t_curve c) /\
    Forall2 (fun k k' => remains eps (input k) (input k') /\ remains eps (output k) (output k') /\ shape_remains eps (kind k) (kind k')) (keys (t_curve c)) (keys x).
Lemma forall2_same {A B} (P : A -> B -> Prop) : forall l l', List.length l' = List.length l ->
  (forall j x y, nth_error l j = Some x -> nth_error l' j = Some y -> P x y) -> Forall2 P l l'.
Proof.
  induction l as [|x l IH]; intros [|y l'] Hl H; try discriminate; [constructor|]. constructor; [apply (H 0); reflexivity|]. apply IH; [cbn in Hl; congruence|]. intros j. apply (H (S j)).
Qed.
Theorem C95_lucky_memory_partial : forall a eps id pointer cs n parents, machine_eps eps -> Forall (proper_curve pointer) cs ->
  Forall (fun c => memory c = map (fun k => interpolation (kind k)) (keys (t_curve c))) cs ->
  WriteAnimation eps (Tree id [Separate pointer cs] []) n -> clear_ids n ->
  exists chs, LoadAnimation a parents n = Some (Animation true chs []) /\ Forall2 (intact eps pointer) cs chs.
Proof.
  intros a eps id pointer cs n parents He Hp Hm Hw Hc. destruct (tree_back a eps He _ n parents Hw) as (an & L & K); [|exact Hc|].
  { constructor; [|constructor]. constructor; [exact Hp|constructor]. }
  inversion K as [? ? ? groups anims G1 G2]; subst. inversion G1 as [|? g ? gs T1 T2]; subst. inversion T2; subst. inversion G2; subst. exists g. cbn [List.concat] in L. rewrite app_nil_r in L.
  split; [exact L|]. cbn [track_kept] in T1. clear - T1 Hm. induction T1 as [|c ch cs chs (H1 & H2 & x & E & (K1 & K2) & Rest) _ IH]; [constructor|]. pose proof (Forall_inv Hm) as M1. pose proof (Forall_inv_tail Hm) as M2.
  constructor; [|auto]. split; [exact H1|]. split; [exact H2|]. exists x. split; [exact E|]. destruct Rest as (R1 & R2 & R3). split; [exact R1|]. split; [exact R2|]. split; [exact R3|].
  apply forall2_same; [exact K1|]. intros j k k' Hk Hk'. destruct (K2 j (interpolation (kind k)) k k') as (A & B & _ & D); auto.
  rewrite M1, nth_error_map, Hk. reflexivity.
Qed.
Print Assumptions C95_lucky_memory_partial.
(** C95 (full statement, refuted): for all curves there is memory with which no key of the curve that is read has the interpolation it
    was written with. *)
Definition garbled (c : targeted) : targeted :=
  Targeted (t_curve c) (element c) (qualifier c) (map (fun k => if (interpolation (kind k) =? 0)%Z then 1%Z else 0%Z) (keys (t_curve c))).
Theorem C95_interpolation_refuted : forall a eps id pointer c n parents, machine_eps eps -> proper_curve pointer c ->
  WriteAnimation eps (Tree id [Separate pointer [garbled c]] []) n -> clear_ids n ->
  exists ch x, LoadAnimation a parents n = Some (Animation true [ch] []) /\ curves ch = [x] /\ List.length (keys x) = List.length (keys (t_curve c)) /\
    forall j k k', nth_error (keys (t_curve c)) j = Some k -> nth_error (keys x) j = Some k' -> interpolation (kind k') <> interpolation (kind k).
Proof.
  intros a eps id pointer c n parents He (P1 & P2 & P3 & P4 & P5 & P6 & P7 & P8) Hw Hc. destruct (tree_back a eps He _ n parents Hw) as (an & L & K); [|exact Hc|].
  { constructor; [|constructor]. constructor; [|constructor]. constructor; [|constructor]. unfold proper_curve, garbled. cbn [t_curve element qualifier memory]. rewrite map_length.
    split; [exact P1|]. split; [exact P2|]. split; [exact P3|]. split; [exact P4|]. split; [exact P5|]. split; [exact P6|]. split; [exact P7|reflexivity]. }
  inversion K as [? ? ? groups anims G1 G2]; subst. inversion G1 as [|? g ? gs T1 T2]; subst. inversion T2; subst. inversion G2; subst. cbn [List.concat] in L. rewrite app_nil_r in L.
  cbn [track_kept] in T1. inversion T1 as [|? ch ? chs T3 T4]; subst. inversion T4; subst. destruct T3 as (_ & _ & x & E & (K1 & K2) & _). exists ch, x. split; [exact L|]. split; [exact E|]. split; [exact K1|].
  intros j k k' Hk Hk'. destruct (K2 j (if (interpolation (kind k) =? 0)%Z then 1 else 0)%Z k k') as (_ & _ & D & _); auto.
  { cbn [garbled memory]. rewrite nth_error_map, Hk. reflexivity. }
  rewrite D. destruct (Z.eqb_spec (interpolation (kind k)) 0) as [E0|E0]; [rewrite E0; discriminate|]. cbn. congruence.
Qed.
Print Assumptions C95_interpolation_refuted.
(** ... and a curve without keys loses its infinities and its driver. *)
Definition keyless : targeted := Targeted (Curve [] 2 3 (Some (tx "knob/value", 0%Z))) (-1) (tx ".X") [].
Theorem C95_keyless_refuted : forall a eps n parents, WriteAnimation eps (Tree (tx "walk") [Separate (tx "box/trans") [keyless]] []) n ->
  LoadAnimation a parents n = Some (Animation true [Channel (tx "box/trans") (tx ".X") [Curve [] 0 0 None]] []).
Proof.
  intros a eps n parents Hw. inversion Hw as [? ? ? attrs outs nodes W1 W2]; subst. inversion W2; subst. inversion W1 as [|? o ? os T1 T2]; subst. inversion T2; subst. clear Hw W1 W2 T2.
  destruct T1 as (ts & Hts & ->). inversion Hts as [|? t ? ts' (T1 & T2 & _) Hn]; subst. inversion Hn; subst. clear Hts Hn. cbn [keyless t_curve keys map] in T1, T2.
  unfold floats_text in T1, T2. assert (E1 : t_in t = []) by (inversion T1; reflexivity). assert (E2 : t_out t = []) by (inversion T2; reflexivity). destruct t as [u1 u2 u3 u4 u5 u6]. cbn [t_in t_out] in E1, E2. subst u1 u2. vm_compute. reflexivity.
Qed.

Print Assumptions C95_keyless_refuted.

(** A walk: the X and the Y of a translation with BEZIER, LINEAR and STEP keys and a driver, and in an animation inside it a scale
    with three dimensions and TCB keys. *)
Definition walk_x : targeted := Targeted (Curve [Key 0 1 (Bezier (-1 # 3, 1) (1 # 3, 1)); Key 1 (5 # 2) (Plain 1)] 2 1 None)%Q (-1) (tx ".X") [2; 1]%Z.
Definition walk_y : targeted := Targeted (Curve [Key 0 0 (Plain 0); Key 2 (-3 # 4) (Plain 1)] 0 0 (Some (tx "knob/value", 0%Z)))%Q (-1) (tx ".Y") [77; 3]%Z.
Definition walk_scale : multi :=
  let k v := Key (1 # 2) v (Tcb 0 (1 # 4) 1 0 0)%Q in Multi 3 [MKey (1 # 2) 3 [k 1; k 2; k 3]]%Q 4 0 (-1).
Definition walk : tree :=
  Tree (tx "walk") [Separate (tx "box/trans") [walk_x; walk_y]] [Tree (tx "grow") [Merged (tx "box/scale") [tx ".X"; tx ".Y"; tx ".Z"] [3%Z] walk_scale] []].
Lemma number_check q : Qle_bool (Qabs q) 1000 = true -> AnimSpec.number q.
Proof. intro H. apply Qle_bool_iff in H. unfold AnimSpec.number. eapply Qle_trans; [exact H|]. vm_compute. discriminate. Qed.
Ltac small := apply number_check; reflexivity.
Lemma pointer_check t : forallb (fun c => negb (c =? 40) && negb (c =? 91) && negb (c =? 46))%Z t = true -> Forall (fun c => c <> 40 /\ c <> 91 /\ c <> 46)%Z t.
Proof.
  intro H. rewrite forallb_forall in H. apply Forall_forall. intros c Hc. specialize (H c Hc). rewrite !andb_true_iff, !negb_true_iff, !Z.eqb_neq in H. tauto.
Qed.
Lemma walk_proper : proper_tree walk.
Proof.
  assert (T : forall p q, plain p -> Forall (fun c => c <> 40 /\ c <> 91 /\ c <> 46)%Z p -> plain q -> q = [] \/ In (hd 0%Z q) [40; 91; 46]%Z -> proper_target p (-1) q) by (intros p q A B C D; unfold proper_target; tauto).
  constructor; [constructor; [|constructor]|constructor; [|constructor]].
  - cbn [proper_track]. constructor; [|constructor; [|constructor]]; (split; [discriminate|]; split; [cbn; lia|]; split; [|split; [unfold proper_infinity; cbn; lia|split; [unfold proper_infinity; cbn; lia|]]]).
    + constructor; [split; [small|split; [small|cbn; repeat split; small]]|]. constructor; [split; [small|split; [small|cbn; tauto]]|constructor].
    + split; [exact I|]. split; [|reflexivity]. apply T; [apply plain_check; reflexivity|apply pointer_check; reflexivity|apply plain_check; reflexivity|right; cbn; tauto].
    + constructor; [split; [small|split; [small|cbn; tauto]]|]. constructor; [split; [small|split; [small|cbn; tauto]]|constructor].
    + split; [|split; [|reflexivity]].
      * cbn. split; [|lia]. split; [split; [apply plain_check; reflexivity|discriminate]|apply pointer_check; reflexivity].
      * apply T; [apply plain_check; reflexivity|apply pointer_check; reflexivity|apply plain_check; reflexivity|right; cbn; tauto].
  - constructor; [constructor; [|constructor]|constructor]. cbn [proper_track]. split; [cbn; lia|]. split; [cbn; lia|]. split; [discriminate|]. split; [cbn; lia|]. split; [|split; [unfold proper_infinity; cbn; lia|]].
    + constructor; [|constructor]. split; [reflexivity|]. repeat (apply Forall_cons; [split; [|split; reflexivity]; split; [small|split; [small|cbn; repeat split; small]]|]). apply Forall_nil.
    + split; [unfold proper_infinity; cbn; lia|]. split; [|reflexivity]. apply T; [apply plain_check; reflexivity|apply pointer_check; reflexivity|split; [constructor|intros []]|left; reflexivity].
Qed.
(** It can be written with ids that are told apart. *)
Example C95_demo : forall eps, machine_eps eps -> proper_tree walk /\ exists n, WriteAnimation eps walk n /\ clear_ids n.
Proof.
  intros eps He. split; [exact walk_proper|].
  destruct (texts_exist eps (map input (keys (t_curve walk_x))) (keys (t_curve walk_x)) He) as (t1 & T1). destruct (texts_exist eps (map input (keys (t_curve walk_y))) (keys (t_curve walk_y)) He) as (t2 & T2).
  destruct (texts_exist eps (map m_input (m_keys walk_scale)) (flat_map m_cells (m_keys walk_scale)) He) as (t3 & T3).
  exists (Elem (tx "animation") [(tx "id", tx "walk")] (List.concat [channel_elements (base_id (tx "walk") (tx "box/trans")) (tx "box/trans") (combine [walk_x; walk_y] [t1; t2])] ++
    [Elem (tx "animation") [(tx "id", tx "grow")] (List.concat [multi_elements (base_id (tx "grow") (tx "box/scale")) (tx "box/scale") [tx ".X"; tx ".Y"; tx ".Z"] [3%Z] walk_scale t3] ++ [])])).
  split.
  - constructor; [constructor; [|constructor]|constructor; [|constructor]].
    + exists [t1; t2]. split; [constructor; [exact T1|constructor; [exact T2|constructor]]|reflexivity].
    + constructor; [|constructor]. constructor; [|constructor]. exists t3. auto.
  - clear. constructor; [apply distinct_checked; vm_compute; reflexivity|]. intros c Hc Ha.
    assert (E : c = Elem (tx "animation") [(tx "id", tx "grow")] (List.concat [multi_elements (base_id (tx "grow") (tx "box/scale")) (tx "box/scale") [tx ".X"; tx ".Y"; tx ".Z"] [3%Z] walk_scale t3] ++ [])).
    { apply in_app_or in Hc as [Hc|[<- |[]]]; [exfalso|reflexivity]. apply named_iff in Ha. revert Ha. cbn in Hc. repeat (destruct Hc as [<- | Hc]; [discriminate|]). destruct Hc. }
    subst c. constructor; [apply distinct_checked; vm_compute; reflexivity|]. intros c Hc2 Ha2. exfalso. apply named_iff in Ha2. revert Ha2. cbn in Hc2. repeat (destruct Hc2 as [<- | Hc2]; [discriminate|]). destruct Hc2.
Qed.

(** *** C96 *)
Lemma among_filter name l l' : among name l l' -> filter (fun c => named c name) l = l'.
Proof.
  induction 1 as [|c l l' H _ IH|c l l' H _ IH]; cbn; [reflexivity| |].
  - now rewrite (proj2 (named_not c name) H).
  - rewrite (proj2 (named_iff c name) H). now f_equal.
Qed.
Lemma no_subs a sc l : among "animation" l [] -> load_subs a sc l = Some [].
Proof.
  intro H. apply among_filter in H. rewrite <- (app_nil_r l). rewrite load_subs_skip by exact H. reflexivity.
Qed.
Lemma means_loads a sc : forall l ms, Forall2 (means sc) l ms -> exists cs, load_channels a sc true l = Some (true, cs) /\ Forall2 loaded ms cs.
Proof.
  induction 1 as [|n m l ms H _ (cs & L & K)]; [exists []; split; [reflexivity|constructor]|]. destruct (load_described a sc n _ _ _ _ H) as (c & E & C). exists (c :: cs). cbn [load_channels]. rewrite E. cbn [andb]. rewrite L.
  split; [reflexivity|]. now constructor.
Qed.
(** C96 (full statement, refuted below): every <channel> of an <animation> that has a meaning is loaded.  What holds: this is so if all
    the channels have one. *)
Theorem C96_all_channels_partial : forall a parents name attrs ch channels ms, among "channel" ch channels -> among "animation" ch [] ->
  Forall2 (means (ch :: parents)) channels ms ->
  exists cs, LoadAnimation a parents (Elem name attrs ch) = Some (Animation true cs []) /\ Forall2 loaded ms cs.
Proof.
  intros a parents nm attrs ch l ms Hc Hs Hm. rewrite load_animation_eq, (among_filter _ _ _ Hc), (no_subs _ _ _ Hs). destruct (means_loads a _ _ _ Hm) as (cs & L & K). rewrite L. exists cs. split; [reflexivity|exact K].
Qed.
Print Assumptions C96_all_channels_partial.
Lemma dangling_fails a scopes n : dangling scopes n -> LoadAnimationChannel a scopes n = Some None.
Proof.
  intros (id & Hs & (Hp & Hn) & Hz & H). unfold LoadAnimationChannel. destruct (SplitTarget (ReadNodeProperty n "target")) as [p q].
  assert (Hph : plain (35%Z :: id)) by (destruct Hp as (A & B); split; [constructor; [lia|exact A]|intros [X|X]; [discriminate|auto]]).
  rewrite (has_attr_plain _ _ _ Hs Hph).
  assert (E : FindChildByIdFCDAnimation scopes (35%Z :: id) = None); [|now rewrite E].
  revert H. induction scopes as [|l scopes IH]; intro H; [reflexivity|]. cbn [FindChildByIdFCDAnimation]. change (drop_hash (35%Z :: id)) with id. change (map Z.to_N id) with (bytes id).
  rewrite find_none; [apply IH; intros l' c v Hl; apply H; right; exact Hl|]. apply Forall_forall. intros c Hc. apply andb_false_iff. destruct c as [nm at' ch|t]; [right|left; reflexivity].
  apply N.eqb_neq. cbn [id_crc]. destruct (find_attr at' (tx "id")) as [v|] eqn:E; [|congruence]. apply find_attr_inv in E as (pre & post & -> & Hpre).
  apply (H l (Elem nm (pre ++ (tx "id", v) :: post) ch) v); [now left|exact Hc|]. exists nm, ch, pre, post. auto.
Qed.
Lemma means_dropped a sc : forall l ms, Forall2 (means sc) l ms -> load_channels a sc false l = Some (false, []).
Proof. induction 1 as [|n m l ms H _ IH]; [reflexivity|]. destruct (load_described a sc n _ _ _ _ H) as (c & E & _). cbn [load_channels]. rewrite E. cbn [andb]. rewrite IH. reflexivity. Qed.
(** C96 (full statement, refuted): behind a channel whose sampler does not exist all channels of the animation are dropped, for all
    animations with such a channel. *)
Theorem C96_later_channels_refuted : forall a parents name attrs ch before bad after ms ms', among "channel" ch (before ++ bad :: after) -> among "animation" ch [] ->
  Forall2 (means (ch :: parents)) before ms -> dangling (ch :: parents) bad -> Forall2 (means (ch :: parents)) after ms' ->
  exists cs, LoadAnimation a parents (Elem name attrs ch) = Some (Animation false cs []) /\ Forall2 loaded ms cs.
Proof.
  intros a parents nm attrs ch l1 bad l2 ms ms' Hc Hs H1 Hb H2. rewrite load_animation_eq, (among_filter _ _ _ Hc), (no_subs _ _ _ Hs).
  destruct (means_loads a _ _ _ H1) as (cs & L & K). exists cs. split; [|exact K].
  assert (E : load_channels a (ch :: parents) true (l1 ++ bad :: l2) = Some (false, cs)); [|now rewrite E].
  clear - L Hb H2 H1. revert cs L. induction H1 as [|n m l ms H _ IH]; intros cs L.
  - cbn in L. injection L as <-. cbn [app load_channels]. rewrite (dangling_fails a _ _ Hb). cbn [andb]. now rewrite (means_dropped a _ _ _ H2).
  - cbn [app load_channels] in *. destruct (load_described a _ n _ _ _ _ H) as (c & E & _). rewrite E in *. cbn [andb] in *.
    destruct (load_channels a (ch :: parents) true l) as [[s cs']|] eqn:El; [|discriminate]. injection L as -> <-. rewrite (IH cs' eq_refl). reflexivity.
Qed.
Print Assumptions C96_later_channels_refuted.
(** An animation with two channels and, between them, one whose sampler does not exist. *)
Definition lost_channel : xml := Elem (tx "channel") [(tx "source", tx "#Q"); (tx "target", tx "cam/rot")] [].
Definition lost_children : list xml := foreign_children "2" ++ [lost_channel; foreign_channel].
Example C96_demo : among "channel" lost_children ([foreign_channel] ++ lost_channel :: [foreign_channel]) /\ among "animation" lost_children [] /\
  dangling [lost_children] lost_channel /\ means [lost_children] foreign_channel (Meaning 2 foreign_channel_data (tx "cam/pos") (tx ".XY")) /\
  exists c, LoadAnimationChannel Strict [lost_children] foreign_channel = Some (Some c) /\
    LoadAnimation Strict [] (Elem (tx "animation") [] lost_children) = Some (Animation false [c] []).
Proof.
  split; [|split; [|split; [|split]]].
  - repeat first [apply A_keep; [elem|] | apply A_skip; [other|]]. apply A_nil.
  - repeat (apply A_skip; [other|]). apply A_nil.
  - exists (tx "Q"). split; [attr (@nil (list Z * list Z))|]. split; [apply proper_letter; cbn; lia|]. split; [vm_compute; discriminate|].
    intros l c v [<- |[]] Hc Hv. cbn [lost_children foreign_children app In] in Hc. repeat (destruct Hc as [<- | Hc]); try contradiction; apply has_attr_find in Hv; try discriminate Hv; injection Hv as <-; vm_compute; discriminate.
  - apply foreign_described; [apply distinct_checked; vm_compute; reflexivity|]. intros x H. apply in_or_app. now left.
  - eexists. split; [vm_compute; reflexivity|]. vm_compute. reflexivity.
Qed.
