(** C110-C112: assets in COLLADA XML.  The specification is in AssetSpec.v. *)
From Coq Require Import String List ZArith QArith Qabs Bool Lia Lqa.
From Verif Require Import TextModel TextProofs FloatWrite StringModel StringProofs XmlModel XmlProofs FloatModel FloatSpec FloatProps UriModel UriSpec DaeModel DaeSpec DaeProofs RigSpec RigProofs CustomModel CustomSpec LampModel LampSpec LampProofs LampWriteProofs LampSafeProofs AssetModel AssetSpec AssetProofs AssetWriteProofs.
From Verif Require FloatProps LampProps UriProps.
Import ListNotations.
Local Open Scope Z_scope.
Local Open Scope list_scope.

(** *** C110 *)
(** C110 (full statement, refuted below): an asset that is written and read into a new asset is the same, but for the time of modification.
    What holds: so it is for the assets AssetSpec describes; contributors that say nothing are left out, a unit or an up-axis that is not
    set is the default one and still not set. *)
Theorem C110_round_trip_partial : forall a b eps now now' x n x1, machine_eps eps -> proper_asset x -> proper_date now ->
  WriteAsset a eps now x n x1 ->
  exists y, LoadAsset b n (new_asset now') = Some y /\
    contributors y = filter with_credits (contributors x) /\ created y = created x /\ modified y = now /\
    (forall k, text_of k y = text_of k x) /\
    hasUpAxis y = hasUpAxis x /\ (hasUpAxis x = true -> upAxis y = upAxis x) /\
    hasUnits y = hasUnits x /\ (hasUnits x = true -> unitName y = unitName x /\ remains eps (unitFactor x) (unitFactor y)).
Proof.
  intros a b eps now now' x n x1 He [P1 P2 P3 P4 P5 P6] Hn (meter & Hm & Hw & _).
  destruct (FloatProps.appends_text eps (unitFactor x) meter He P4 Hm) as (q & Fq & Kq).
  destruct (printed_number eps (unitFactor x) meter He P4 Hm) as (q' & Oq & _).
  assert (Oq' : one_number meter q).
  { unfold one_number. replace meter with ([] ++ meter ++ [] ++ []) by now rewrite app_nil_r. apply N_cons; [constructor|exact Fq| |constructor]. split; [constructor|]. split; [auto|exact I]. }
  destruct (asset_back a b now now' meter q x P1 P2 Hn P3) as (n' & r & En & Er & L); auto.
  { intro H. apply P5 in H. apply H. }
  rewrite Hw in En. injection En as <-. eexists. split; [exact L|]. unfold read_again. cbn [contributors created modified upAxis hasUpAxis unitName unitFactor hasUnits].
  split; [reflexivity|]. split; [reflexivity|]. split; [reflexivity|]. split; [intros []; reflexivity|]. split; [reflexivity|]. split; [now intros ->|]. split; [reflexivity|].
  intro H. rewrite H. destruct (P5 H) as (U1 & U2 & U3). split; [destruct (unitName x); congruence|].
  assert (E : (eps <= Qabs (unitFactor x))%Q). { rewrite (Qabs_pos (unitFactor x)) by lra. destruct He as [-> | ->]; (eapply Qle_trans; [|exact U1]); vm_compute; discriminate. }
  destruct Kq as (_ & K). destruct (K E) as (C & _). assert (A : (Qabs (unitFactor x) == unitFactor x)%Q) by (apply Qabs_pos; lra). rewrite A in C.
  assert (Hq : (1 # 10000 <= q)%Q). { apply Qabs_Qle_condition in C. destruct C as (C & _). unfold Qdiv in C. change (/ 200000)%Q with (1 # 200000)%Q in C. lra. }
  replace (Qle_bool (1 # 10000) q) with true by (symmetry; now apply Qle_bool_iff).
  split; [intro X; exfalso; exact (Qlt_not_le _ _ X E)|]. intros _. destruct (K E) as (D1 & D2). split; [rewrite Er; exact D1|intro S; rewrite Er; auto].
Qed.
Print Assumptions C110_round_trip_partial.
(** Every such asset can be written, and writing leaves all but the time of modification as it was. *)
Theorem C110_writable : forall a eps now x, machine_eps eps -> proper_asset x -> proper_date now ->
  (exists n x1, WriteAsset a eps now x n x1) /\
  (forall n x1, WriteAsset a eps now x n x1 -> modified x1 = now /\ SetModified (modified x) x1 = x).
Proof.
  intros a eps now x He [P1 P2 P3 P4 P5 P6] Hn. split.
  - destruct (C78_writable eps (Fin (unitFactor x)) He) as (meter & Hm). destruct (contributors_back a a (contributors x) P1) as (cs & Ec & _).
    do 2 eexists. exists meter. split; [exact Hm|]. split; [unfold write_asset; rewrite Ec; reflexivity|reflexivity].
  - intros n x1 (meter & _ & _ & ->). split; [reflexivity|]. now destruct x.
Qed.
Print Assumptions C110_writable.
(** A unit of less than 0.09 mm (the micrometre, or a negative one) is read as one metre under the same name. *)
Theorem C110_small_unit_refuted : forall a b eps now now' x n x1, machine_eps eps -> proper_date now ->
  proper_asset (SetUnitConversionFactor 1 x) -> hasUnits x = true -> finite (unitFactor x) -> (unitFactor x < 9 # 100000)%Q ->
  WriteAsset a eps now x n x1 ->
  exists y, LoadAsset b n (new_asset now') = Some y /\ hasUnits y = true /\ unitName y = unitName x /\ unitFactor y = 1%Q.
Proof.
  intros a b eps now now' x n x1 He Hn [P1 P2 P3 _ P5 P6] Hu Hf Hs (meter & Hm & Hw & _).
  destruct (FloatProps.appends_text eps (unitFactor x) meter He Hf Hm) as (q & Fq & K0 & K1).
  assert (Oq : one_number meter q).
  { unfold one_number. replace meter with ([] ++ meter ++ [] ++ []) by now rewrite app_nil_r. apply N_cons; [constructor|exact Fq| |constructor]. split; [constructor|]. split; [auto|exact I]. }
  cbn in P1, P2, P5, P6. destruct (P5 eq_refl) as (_ & U2 & U3).
  destruct (asset_back a b now now' meter q x P1 P2 Hn) as (n' & r & En & Er & L); auto.
  rewrite Hw in En. injection En as <-. eexists. split; [exact L|]. unfold read_again. cbn [unitName unitFactor hasUnits]. rewrite Hu.
  split; [reflexivity|]. split; [destruct (unitName x); congruence|].
  assert (Hq : (q < 1 # 10000)%Q).
  { destruct (Qlt_le_dec (Qabs (unitFactor x)) eps) as [H | H]; [rewrite (K0 H); reflexivity|]. destruct (K1 H) as (C & _).
    unfold Qdiv in C. change (/ 200000)%Q with (1 # 200000)%Q in C. apply Qabs_Qle_condition in C. destruct C as (_ & C).
    destruct (Qlt_le_dec (unitFactor x) 0) as [J | J].
    - assert (A : (Qabs (unitFactor x) == - unitFactor x)%Q) by (apply Qabs_neg; lra). rewrite A in C. lra.
    - assert (A : (Qabs (unitFactor x) == unitFactor x)%Q) by (apply Qabs_pos; lra). rewrite A in C. lra. }
  replace (Qle_bool (1 # 10000) q) with false; [reflexivity|]. symmetry. apply not_true_iff_false. intro X. apply Qle_bool_iff in X. exact (Qlt_not_le _ _ Hq X).
Qed.
Print Assumptions C110_small_unit_refuted.
(** Two times of day. *)
Definition monday : datetime := {| year := 2007; month := 4; day := 30; hour := 9; minutes := 5; seconds := 0 |}.
Definition tuesday : datetime := {| year := 2007; month := 5; day := 1; hour := 17; minutes := 45; seconds := 59 |}.
Lemma written_now x n : unitFactor x = 1%Q -> write_asset Strict tuesday (tx "1") x = Some n -> WriteAsset Strict eps_float tuesday x n (SetModified tuesday x).
Proof. intros H1 H2. exists (tx "1"). rewrite H1. split; [apply LampProps.print_1|]. split; [exact H2|reflexivity]. Qed.
(** The z-axis downwards is written as the y-axis; so is every other axis. *)
Theorem C110_axis_refuted :
  let x := SetUpAxis (0, 0, -1)%Q (new_asset monday) in
  exists n y, WriteAsset Strict eps_float tuesday x n (SetModified tuesday x) /\ LoadAsset Strict n (new_asset monday) = Some y /\ hasUpAxis y = true /\ upAxis y = (0, 1, 0)%Q.
Proof. intro x. do 2 eexists. split; [apply written_now; [reflexivity|vm_compute; reflexivity]|]. split; [vm_compute; reflexivity|]. split; reflexivity. Qed.
Print Assumptions C110_axis_refuted.
(** A unit that got a name but no factor is not written. *)
Theorem C110_name_refuted :
  let x := SetUnitName (tx "yard") (new_asset monday) in
  exists n y, WriteAsset Strict eps_float tuesday x n (SetModified tuesday x) /\ LoadAsset Strict n (new_asset monday) = Some y /\ unitName y = tx "meter".
Proof. intro x. do 2 eexists. split; [apply written_now; [reflexivity|vm_compute; reflexivity]|]. split; [vm_compute; reflexivity|]. reflexivity. Qed.
Print Assumptions C110_name_refuted.
(** Other addresses of source data do not come back: folders, files of a Windows server, a fragment after a query. *)
Definition source (s : string) : contributor := Contributor (tx "Ann") [] [] [] (tx s).
Definition changed_source (s s' : string) : Prop :=
  let x := AddContributor (source s) (new_asset monday) in
  exists n y, WriteAsset Strict eps_float tuesday x n (SetModified tuesday x) /\ LoadAsset Strict n (new_asset monday) = Some y /\ contributors y = [source s'].
Theorem C110_source_refuted :
  changed_source "file:///scenes/" "file:///scenes//" /\ changed_source "\\server\a.ma" "file:////server/a.ma" /\ changed_source "http://x.org/a.ma?q=1#f" "http://x.org/a.ma?q=1##f".
Proof. repeat split; (do 2 eexists; split; [apply written_now; [reflexivity|vm_compute; reflexivity]|]; split; vm_compute; reflexivity). Qed.
Print Assumptions C110_source_refuted.
(** A text with a percent sign does not come back. *)
Theorem C110_percent_refuted :
  let x := SetTitle (tx "100% cotton") (SetSubject (tx "a%20b") (new_asset monday)) in
  exists n y, WriteAsset Strict eps_float tuesday x n (SetModified tuesday x) /\ LoadAsset Strict n (new_asset monday) = Some y /\ title y = tx "100" /\ subject y = tx "a b".
Proof. intro x. do 2 eexists. split; [apply written_now; [reflexivity|vm_compute; reflexivity]|]. split; [vm_compute; reflexivity|]. split; reflexivity. Qed.
Print Assumptions C110_percent_refuted.
(** An asset with two contributors (one says nothing), texts, a unit and an axis. *)
Definition movie : asset :=
  SetUpAxis (0, 0, 1)%Q (SetUnitConversionFactor (1 # 2) (SetUnitName (tx "half") (SetTitle (tx "Up & away") (SetRevision (tx "7") (AddContributor new_contributor
    (AddContributor (Contributor (tx "Ann") (tx "Maya <8>") [] (tx "(c) 2007") (tx "file:///scenes/a b.ma")) (new_asset monday))))))).
Lemma written_half a x n : unitFactor x = (1 # 2)%Q -> write_asset a tuesday (tx "0.5") x = Some n -> WriteAsset a eps_float tuesday x n (SetModified tuesday x).
Proof. intros H1 H2. exists (tx "0.5"). rewrite H1. split; [apply LampProps.print_half|]. split; [exact H2|reflexivity]. Qed.
Ltac plain_text := let c := fresh in let H := fresh in apply Forall_forall; intros c H; vm_compute in H; intuition (subst; lia).
Ltac plain_text' := let H := fresh in split; [plain_text|intro H; vm_compute in H; intuition discriminate].
Lemma movie_proper : proper_asset movie /\ proper_date tuesday.
Proof.
  split; [|split; [cbn; lia|repeat (apply Forall_cons; [cbn; lia|]); apply Forall_nil]]. split.
  - apply Forall_cons; [|apply Forall_cons; [|apply Forall_nil]]; split.
    + intros []; plain_text'.
    + right. exists [tx "scenes"; tx "a b.ma"]. split; [|split; [discriminate|reflexivity]].
      repeat (apply Forall_cons; [split; [discriminate|]; apply Forall_forall; intros c Hc B; vm_compute in Hc; vm_compute in B; intuition (subst; discriminate)|]). apply Forall_nil.
    + intros []; (split; [apply Forall_nil|intros []]).
    + now left.
  - split; [cbn; lia|repeat (apply Forall_cons; [cbn; lia|]); apply Forall_nil].
  - intros []; plain_text'.
  - unfold finite. eapply Qle_trans; [|apply (p10_le 1 309); lia]. vm_compute. discriminate.
  - intros _. split; [vm_compute; discriminate|]. split; [plain_text'|discriminate].
  - intros _. exists "Z_UP"%string. constructor.
Qed.
Example C110_demo : exists n y, WriteAsset Strict eps_float tuesday movie n (SetModified tuesday movie) /\ proper_asset movie /\ proper_date tuesday /\
  LoadAsset Strict n (new_asset monday) = Some y /\ contributors y = [Contributor (tx "Ann") (tx "Maya <8>") [] (tx "(c) 2007") (tx "file:///scenes/a b.ma")] /\
  modified y = tuesday /\ title y = tx "Up & away" /\ upAxis y = (0, 0, 1)%Q /\ (unitFactor y == 1 # 2)%Q /\ unitName y = tx "half".
Proof.
  do 2 eexists. split; [apply written_half; [reflexivity|vm_compute; reflexivity]|]. destruct movie_proper as (P & D). split; [exact P|]. split; [exact D|].
  split; [vm_compute; reflexivity|]. repeat split.
Qed.

(** *** C111 *)
Lemma unit_read a n x y : LoadUnit a n x = Some y -> hasUnits y = true /\ unit_is n (unitName y) (unitFactor y).
Proof.
  intro E. assert (G : hasUnits y = true /\ unitName y = (match ReadNodeProperty n "name" with [] => tx "UNKNOWN" | t => t end) /\ (1 # 10000 <= unitFactor y)%Q).
  { unfold LoadUnit in E. destruct (ToFloat a (ReadNodeProperty n "meter")) as [[q r]|]; [|discriminate]. cbv zeta in E.
    assert (D : equivalent q 0 || negb (Qle_bool 0 q) = false -> (1 # 10000 <= q)%Q).
    { intro H. destruct (Qlt_le_dec q (1 # 10000)) as [L | L]; [|exact L]. rewrite (small_unit q L) in H. discriminate. }
    cbn [unitName SetUnitConversionFactor SetUnitName] in E. destruct (ReadNodeProperty n "name"); cbn [unitFactor SetUnitConversionFactor SetUnitName] in E;
      (destruct (equivalent q 0 || negb (Qle_bool 0 q)); injection E as <-; cbn [hasUnits unitName unitFactor SetUnitConversionFactor SetUnitName];
        (split; [reflexivity|split; [reflexivity|]]); [vm_compute; discriminate|auto]). }
  destruct G as (G1 & G2 & G3). split; [exact G1|]. split; [|split; [|split; [|split; [|exact G3]]]].
  - intros t Ht Pt Nt. rewrite G2, (has_attr_plain _ _ _ Ht Pt). destruct t; congruence.
  - intros [H | H]; rewrite G2; [rewrite (has_attr_read _ _ _ H)|rewrite (no_attr_read _ _ H)]; reflexivity.
  - intros m q Hm Pm Hq. destruct (load_unit a n m q x Hm Pm Hq) as (r & Er & L). rewrite E in L. injection L as ->. cbn [unitFactor].
    split; intro H; [replace (Qle_bool (1 # 10000) q) with true by (symmetry; now apply Qle_bool_iff); exact Er|].
    destruct (Qle_bool (1 # 10000) q) eqn:B; [apply Qle_bool_iff in B; exfalso; exact (Qlt_not_le _ _ H B)|reflexivity].
  - rewrite G2. destruct (ReadNodeProperty n "name"); discriminate.
Qed.
Definition axis_text_of (n : xml) : bool :=
  named n "up_axis" && (text_eq (ReadNodeContentFull n) (tx "X_UP") || text_eq (ReadNodeContentFull n) (tx "Y_UP") || text_eq (ReadNodeContentFull n) (tx "Z_UP")).
Lemma says_hit n v : says_axis n v -> axis_text_of n = true /\ forall x, axis_view (LoadUpAxis (ReadNodeContentFull n) x) = (v, true).
Proof.
  intros (H & s & Hs & Ht). apply named_iff in H. apply holds_read in Ht. unfold axis_text_of. rewrite H, Ht. inversion Hs; subst; (split; [reflexivity|intro; reflexivity]).
Qed.
Lemma hit_says n : axis_text_of n = true -> exists v, says_axis n v.
Proof.
  unfold axis_text_of. intro H. apply andb_true_iff in H. destruct H as (H & T). apply named_iff in H. pose proof (holds_own n) as O.
  apply orb_true_iff in T. destruct T as [T | T]; [apply orb_true_iff in T; destruct T as [T | T]|]; apply eq_text_iff in T; rewrite T in O; eexists; (split; [exact H|]); eexists; (split; [constructor|exact O]).
Qed.
Lemma axis_missed a x n y : LoadAssetChild a x n = Some y -> axis_text_of n = false -> axis_view y = axis_view x.
Proof.
  intros E H. destruct (named n "up_axis") eqn:N; [|exact (axis_other _ _ _ _ E N)]. rewrite (axis_child _ _ _ _ E N). unfold axis_text_of in H. rewrite N in H. cbn [andb] in H.
  apply orb_false_iff in H. destruct H as (H & H3). apply orb_false_iff in H. destruct H as (H1 & H2). unfold LoadUpAxis. now rewrite H1, H2, H3.
Qed.
(** Whatever the document, what an import makes of it: the contributors come in order behind those the asset has, a text and a date is that
    of its last element, the unit as well (and has a name and at least a tenth of a millimetre then), the up-axis is that of the last element
    that names one of the three; what the document does not say remains. *)
Theorem C111_import : forall a n x y, LoadAsset a n x = Some y ->
  (exists cs, contributors y = contributors x ++ cs /\ contributors_are (children_of n) cs) /\
  (forall k, last_or (children_of n) (label_word k) holds (text_of k x) (text_of k y)) /\
  last_or (children_of n) "created" says_date (created x) (created y) /\
  last_or (children_of n) "modified" says_date (modified x) (modified y) /\
  (forall u, last_child (children_of n) "unit" u -> hasUnits y = true /\ unit_is u (unitName y) (unitFactor y)) /\
  (no_child (children_of n) "unit" -> hasUnits y = hasUnits x /\ unitName y = unitName x /\ unitFactor y = unitFactor x) /\
  (forall v, last_axis (children_of n) v -> hasUpAxis y = true /\ upAxis y = v) /\
  ((forall d v, In d (children_of n) -> ~ says_axis d v) -> hasUpAxis y = hasUpAxis x /\ upAxis y = upAxis x).
Proof.
  intros a n x y E. change (LoadAsset a n x) with (fold_option (LoadAssetChild a) (children_of n) (Some x)) in E. set (ch := children_of n) in *.
  split; [exact (contributors_read a ch x y E)|]. split; [|split; [|split; [|split; [|split; [|split]]]]].
  - intro k. destruct (fold_last (LoadAssetChild a) (text_of k) (fun n => named n (label_word k)) (fun n t => t = ReadNodeContentFull n)
      (fun x b y E H => text_child a k x b y E H) (fun x b y E H => text_other a k x b y E H) ch x y E) as (A & B).
    split; [|intro N; exact (B (none_named _ _ N))]. intros d t Hd Ht. destruct (last_split _ _ _ Hd) as (u & v & X & N & V). rewrite (A u d v X N V). now apply holds_read.
  - destruct (fold_last (LoadAssetChild a) created (fun n => named n "created") (fun n t => forall d, says_date n d -> t = d)) with (l := ch) (x := x) (y := y) as (A & B); auto.
    + intros x0 b y0 H N d (t & Ht & Hd). rewrite (created_child _ _ _ _ H N), (holds_read _ _ Ht). now apply date_read.
    + intros x0 b y0 H N. exact (created_other _ _ _ _ H N).
    + split; [|intro N; exact (B (none_named _ _ N))]. intros d t Hd Ht. destruct (last_split _ _ _ Hd) as (u & v & X & N & V). exact (A u d v X N V _ Ht).
  - destruct (fold_last (LoadAssetChild a) modified (fun n => named n "modified") (fun n t => forall d, says_date n d -> t = d)) with (l := ch) (x := x) (y := y) as (A & B); auto.
    + intros x0 b y0 H N d (t & Ht & Hd). rewrite (modified_child _ _ _ _ H N), (holds_read _ _ Ht). now apply date_read.
    + intros x0 b y0 H N. exact (modified_other _ _ _ _ H N).
    + split; [|intro N; exact (B (none_named _ _ N))]. intros d t Hd Ht. destruct (last_split _ _ _ Hd) as (u & v & X & N & V). exact (A u d v X N V _ Ht).
  - destruct (fold_last (LoadAssetChild a) unit_view (fun n => named n "unit") (fun n o => snd o = true /\ unit_is n (fst (fst o)) (snd (fst o)))) with (l := ch) (x := x) (y := y) as (A & _); auto.
    + intros x0 b y0 H N. exact (unit_read a b x0 y0 (unit_child _ _ _ _ H N)).
    + intros x0 b y0 H N. exact (unit_other _ _ _ _ H N).
    + intros u Hu. destruct (last_split _ _ _ Hu) as (b & e & X & N & V). exact (A b u e X N V).
  - destruct (fold_last (LoadAssetChild a) unit_view (fun n => named n "unit") (fun n o => True)) with (l := ch) (x := x) (y := y) as (_ & B); auto.
    + intros x0 b y0 H N. exact (unit_other _ _ _ _ H N).
    + intro N. specialize (B (none_named _ _ N)). unfold unit_view in B. injection B as -> -> ->. auto.
  - destruct (fold_last (LoadAssetChild a) axis_view axis_text_of (fun n o => forall v, says_axis n v -> o = (v, true))) with (l := ch) (x := x) (y := y) as (A & _); auto.
    + intros x0 b y0 H N v Hv. assert (H1 := Hv). destruct H1 as (H1 & _). apply named_iff in H1. rewrite (axis_child _ _ _ _ H H1). now apply says_hit.
    + exact (fun x b y H N => axis_missed a x b y H N).
    + intros v (b & d & e & X & Hd & V). specialize (A b d e X (proj1 (says_hit _ _ Hd))). assert (W : axis_view y = (v, true)).
      { apply A; [|exact Hd]. intros c Hc. destruct (axis_text_of c) eqn:Ec; [|reflexivity]. destruct (hit_says c Ec) as (w & Hw). destruct (V c w Hc Hw). }
      unfold axis_view in W. injection W as -> ->. auto.
  - destruct (fold_last (LoadAssetChild a) axis_view axis_text_of (fun n o => True)) with (l := ch) (x := x) (y := y) as (_ & B); auto.
    + exact (fun x b y H N => axis_missed a x b y H N).
    + intro N. assert (W : axis_view y = axis_view x).
      { apply B. intros c Hc. destruct (axis_text_of c) eqn:Ec; [|reflexivity]. destruct (hit_says c Ec) as (w & Hw). destruct (N c w Hc Hw). }
      unfold axis_view in W. injection W as -> ->. auto.
Qed.
Print Assumptions C111_import.
(** Every document whose units say nothing with the letter I (as the spellings of infinity do) can be imported. *)
Theorem C111_safe : forall n x, (forall u m, In u (children_of n) -> is_elem "unit" u -> has_attr u "meter" m -> ~ In 73 (XmlToString m)) ->
  exists y, LoadAsset Wrapping n x = Some y.
Proof.
  intros n x H. apply (fold_total (LoadAssetChild Wrapping)). intros z u Hu. unfold LoadAssetChild.
  destruct (negb (is_element u)); [eauto|]. destruct (named u "contributor"); [eauto|]. destruct (named u "created"); [eauto|]. destruct (named u "keywords"); [eauto|].
  destruct (named u "modified"); [eauto|]. destruct (named u "revision"); [eauto|]. destruct (named u "subject"); [eauto|]. destruct (named u "title"); [eauto|].
  destruct (named u "unit") eqn:E; [|destruct (named u "up_axis"); eauto]. apply named_iff in E. unfold LoadUnit.
  destruct (float_safe (ReadNodeProperty u "meter")) as (q & s & ->); [|eauto].
  destruct (ReadNodeProperty u "meter") as [|c t] eqn:R; [intros []|]. destruct (read_attr_has u "meter" (c :: t) R) as (w & Hw & Ew); [discriminate|]. rewrite <- Ew. exact (H u w Hu E Hw).
Qed.
Print Assumptions C111_safe.
(** Refuted: the date of a document is that of the asset.  A date of XML Schema with a fraction of a second or a time zone, or without one,
    is ignored; any other text of twenty characters is taken for a date. *)
Definition dated (t : string) : xml := Elem (tx "asset") [] [Elem (tx "created") [] [Text (tx t)]].
Theorem C111_date_refuted : forall a x,
  (exists y, LoadAsset a (dated "2008-02-29T12:00:00") x = Some y /\ created y = created x) /\
  (exists y, LoadAsset a (dated "2008-02-29T12:00:00.5Z") x = Some y /\ created y = created x) /\
  (exists y, LoadAsset a (dated "2008-02-29T12:00:00+01:00") x = Some y /\ created y = created x) /\
  (exists y, LoadAsset a (dated "some time in 2008 AD") x = Some y /\ created y = {| year := 0; month := 0; day := 0; hour := 0; minutes := 8; seconds := 0 |}).
Proof. intros a x. repeat split; (eexists; split; [reflexivity|vm_compute; reflexivity]). Qed.
Print Assumptions C111_date_refuted.
(** Refuted: the name of the up-axis may be padded; then it is ignored. *)
Theorem C111_padded_refuted : forall a x, exists y,
  LoadAsset a (Elem (tx "asset") [] [Elem (tx "up_axis") [] [Text (tx " Z_UP ")]]) x = Some y /\ hasUpAxis y = hasUpAxis x /\ upAxis y = upAxis x.
Proof. intros a x. eexists. split; [reflexivity|]. split; reflexivity. Qed.
Print Assumptions C111_padded_refuted.
(** A document with two units, two contributors, two axes (one unknown) and a date. *)
Definition foreign_asset : xml :=
  Elem (tx "asset") [] [
    Elem (tx "unit") [(tx "name", tx "inch"); (tx "meter", tx "0.0254")] [];
    Elem (tx "contributor") [] [Elem (tx "author") [] [Text (tx "Ann")]; Elem (tx "author") [] [Text (tx "Bo")]];
    Elem (tx "contributor") [] [];
    Elem (tx "created") [] [Text (tx "2007-04-30T09:05:00Z")];
    Elem (tx "title") [] [Text (tx "A%20B")];
    Elem (tx "up_axis") [] [Text (tx "Z_UP")]; Elem (tx "up_axis") [] [Text (tx "W_UP")];
    Elem (tx "unit") [(tx "meter", tx "0")] [] ].
Example C111_demo : exists y, LoadAsset Wrapping foreign_asset (new_asset tuesday) = Some y /\
  last_axis (children_of foreign_asset) (0, 0, 1)%Q /\
  (forall u m, In u (children_of foreign_asset) -> is_elem "unit" u -> has_attr u "meter" m -> ~ In 73 (XmlToString m)) /\
  contributors y = [Contributor (tx "Bo") [] [] [] []; new_contributor] /\ created y = monday /\ modified y = tuesday /\ title y = tx "A B" /\
  upAxis y = (0, 0, 1)%Q /\ unitName y = tx "UNKNOWN" /\ unitFactor y = 1%Q.
Proof.
  eexists. split; [vm_compute; reflexivity|]. split; [|split].
  - exists (firstn 5 (children_of foreign_asset)), (Elem (tx "up_axis") [] [Text (tx "Z_UP")]), (skipn 6 (children_of foreign_asset)). split; [reflexivity|]. split.
    + split; [eexists _, _; reflexivity|]. exists "Z_UP"%string. split; [constructor|]. apply (holds_own (Elem (tx "up_axis") [] [Text (tx "Z_UP")])).
    + intros d w Hd Hs. destruct (says_hit d w Hs) as (Hh & _). destruct Hd as [<- | [<- | []]]; vm_compute in Hh; discriminate.
  - intros u m Hu He Hm. apply has_attr_read in Hm. rewrite <- Hm. apply named_iff in He. cbn [foreign_asset children_of In] in Hu.
    repeat (destruct Hu as [<- | Hu]; [first [discriminate He|intro X; vm_compute in X; intuition discriminate]|]). destruct Hu.
  - repeat split.
Qed.

(** *** C112 *)
(** A clone into a new asset is written to the same XML. *)
Theorem C112_clone : forall a now now' meter x, write_asset a now meter (Clone now' true x None) = write_asset a now meter x.
Proof.
  intros a now now' meter x. unfold write_asset, Clone. cbn [contributors created keywords revision subject title upAxis hasUpAxis unitName unitFactor hasUnits new_asset orb app].
  replace (map CloneContributor (contributors x)) with (contributors x); [reflexivity|]. induction (contributors x) as [|c l IH]; [reflexivity|]. cbn [map]. now rewrite clone_same, <- IH.
Qed.
Print Assumptions C112_clone.
(** Without the contributors it is the same but for them; the clone is modified at the time of cloning. *)
Theorem C112_texts : forall now all x,
  let y := Clone now all x None in
  contributors y = (if all then contributors x else []) /\ created y = created x /\ modified y = now /\ (forall k, text_of k y = text_of k x) /\
  hasUpAxis y = hasUpAxis x /\ upAxis y = upAxis x /\ hasUnits y = hasUnits x /\ unitName y = unitName x /\ unitFactor y = unitFactor x.
Proof.
  intros now all x y. split; [|repeat split; intros []; reflexivity]. subst y. unfold Clone. cbn [contributors new_asset app]. destruct all; [|reflexivity].
  induction (contributors x) as [|c l IH]; [reflexivity|]. cbn [map]. now rewrite clone_same, IH.
Qed.
Print Assumptions C112_texts.
(** Refuted for a clone into an asset that exists: it keeps its contributors, and its unit and up-axis stay set though those of the original
    are not, so the clone is written with a unit and an axis the original is written without. *)
Theorem C112_existing_refuted : forall now now' a meter,
  let x := new_asset monday in let z := SetUnitConversionFactor (1 # 100) (SetUpAxis (0, 0, 1)%Q (AddContributor (source "file:///a.ma") (new_asset tuesday))) in
  contributors (Clone now true x (Some z)) = [source "file:///a.ma"] /\ hasUnits (Clone now true x (Some z)) = true /\ hasUpAxis (Clone now true x (Some z)) = true /\
  write_asset a now' meter (Clone now true x (Some z)) <> write_asset a now' meter x.
Proof.
  intros now now' a meter x z. repeat split. intro H. apply (f_equal (fun o => match o with Some n => List.length (children_of n) | None => O end)) in H.
  subst x z. destruct a; vm_compute in H; discriminate H.
Qed.
Print Assumptions C112_existing_refuted.
Example C112_demo : exists n, write_asset Strict tuesday (tx "0.5") movie = Some n /\ write_asset Strict tuesday (tx "0.5") (Clone tuesday true movie None) = Some n /\
  List.length (children_of n) = 7%nat.
Proof. eexists. split; [vm_compute; reflexivity|]. split; vm_compute; reflexivity. Qed.
