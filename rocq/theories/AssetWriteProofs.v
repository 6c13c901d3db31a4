(** Assets: what was written is read back. *)
From Coq Require Import String List ZArith QArith Qabs Bool Lia Lqa.
From Verif Require Import TextModel TextProofs StringModel StringProofs XmlModel XmlProofs XmlProps FloatModel FloatSpec FloatProps UriModel UriSpec UriProps DaeModel DaeSpec DaeProofs RigSpec RigProofs CustomModel CustomSpec LampModel LampSpec LampProofs LampWriteProofs LampSafeProofs AssetModel AssetSpec AssetProofs.
From Verif Require CustomProofs CustomReadProofs TextProps RigWriteProofs.
Import ListNotations.
Local Open Scope Z_scope.
Local Open Scope list_scope.

Lemma fold_app {A B} (f : A -> B -> option A) l m x : fold_option f (l ++ m) x = fold_option f m (fold_option f l x).
Proof. apply fold_left_app. Qed.
Lemma read_child name t : plain t -> ReadNodeContentFull (AddChild name t) = t.
Proof. intro H. apply CustomProofs.content_back, H. Qed.

(** *** Source data *)
Lemma address_back a s : file_address s -> exists u, parse a s = Some u /\ GetAbsoluteUri u = s.
Proof.
  intros (l & Hl & Ne & ->).
  assert (P := C61_uri_print_parse_partial a FILE [] 0 l [] [] ltac:(discriminate) ltac:(constructor) ltac:(lia) Hl Ne ltac:(constructor) ltac:(constructor)
    ltac:(intros []) ltac:(intros []) ltac:(intros []) ltac:(intros []) (or_introl eq_refl)).
  cbv zeta in P. match type of P with parse a ?g = Some ?u => assert (G : g = tx "file://" ++ path_of l) end.
  { unfold GetAbsoluteUri, GetAuthority. cbn [scheme delim host port path query fragment Z.eqb app]. rewrite !app_nil_r. reflexivity. }
  rewrite G in P. eexists. split; [exact P|exact G].
Qed.
Lemma encode_valid table s : forallb (valid table) s = true -> encode table s = s.
Proof.
  induction s as [|c s IH]; [reflexivity|]. cbn [forallb]. intro H. apply andb_true_iff in H as (H1 & H2). unfold encode in *. cbn [map concat].
  rewrite IH by exact H2. unfold encode_char. now rewrite H1.
Qed.
Lemma filename_content s : Forall (fun c => 1 <= c <= 255) s -> XmlToString (AddContent (ConvertFilename s)) = s.
Proof.
  intro H. destruct (C19_filename_round_trip s H) as (R & C). unfold AddContent. rewrite encode_valid; [exact R|].
  apply forallb_forall. intros d Hd. specialize (C d Hd). change (tx "-./:_%") with [45; 46; 47; 58; 95; 37] in C. cbn [In] in C.
  assert (V : forall d, 0 <= d < 128 -> valid xmlValidityTable d = forallb (fun e => negb (d =? e)) [0;1;2;3;4;5;6;7;8;9;11;12;14;15;16;17;18;19;20;21;22;23;24;25;26;27;28;29;30;31;34;39;60;62;64;92;94;96;126;127]).
  { clear. intros d Hd. assert (E : forallb (fun n => Bool.eqb (valid xmlValidityTable (Z.of_nat n)) (forallb (fun e => negb (Z.of_nat n =? e)) [0;1;2;3;4;5;6;7;8;9;11;12;14;15;16;17;18;19;20;21;22;23;24;25;26;27;28;29;30;31;34;39;60;62;64;92;94;96;126;127])) (seq 0 128) = true) by (vm_compute; reflexivity).
    rewrite forallb_forall in E. specialize (E (Z.to_nat d)). rewrite Z2Nat.id in E by lia. apply Bool.eqb_prop. apply E. apply in_seq. lia. }
  rewrite V by lia. apply forallb_forall. intros e He. apply negb_true_iff, Z.eqb_neq. intro X. subst e. cbn [In] in He. lia.
Qed.
Lemma read_source s : Forall (fun c => 1 <= c <= 255) s -> ReadNodeContentFull (AddChild "source_data" (ConvertFilename s)) = s.
Proof.
  intro H. pose proof (filename_content s H) as E. unfold ReadNodeContentFull, AddChild. cbn [all_text].
  destruct (AddContent (ConvertFilename s)) as [|c r] eqn:A; [exact E|]. cbn [content flat_map all_text]. rewrite app_nil_r. exact E.
Qed.

(** *** Contributors *)
Lemma nonempty_credits c : IsEmpty c = negb (with_credits c).
Proof. destruct c as [[|? ?] [|? ?] [|? ?] [|? ?] [|? ?]]; reflexivity. Qed.
Lemma clone_same c : CloneContributor c = c. Proof. destruct c; reflexivity. Qed.
Lemma optional_author t r c : plain t -> author c = [] -> fold_left LoadContributorChild (optional "author" t ++ r) c = fold_left LoadContributorChild r (Contributor t (authoringTool c) (comments c) (copyright c) (sourceData c)).
Proof.
  intros H E. destruct t as [|z t]; [cbn; rewrite <- E; now destruct c|]. cbn [optional app fold_left]. f_equal.
  unfold LoadContributorChild. cbn [is_element negb named AddChild]. rewrite (read_child "author" (z :: t) H). reflexivity.
Qed.
Lemma optional_tool t r c : plain t -> authoringTool c = [] -> fold_left LoadContributorChild (optional "authoring_tool" t ++ r) c = fold_left LoadContributorChild r (Contributor (author c) t (comments c) (copyright c) (sourceData c)).
Proof.
  intros H E. destruct t as [|z t]; [cbn; rewrite <- E; now destruct c|]. cbn [optional app fold_left]. f_equal.
  unfold LoadContributorChild. cbn [is_element negb named AddChild]. rewrite (read_child "authoring_tool" (z :: t) H). reflexivity.
Qed.
Lemma optional_comments t r c : plain t -> comments c = [] -> fold_left LoadContributorChild (optional "comments" t ++ r) c = fold_left LoadContributorChild r (Contributor (author c) (authoringTool c) t (copyright c) (sourceData c)).
Proof.
  intros H E. destruct t as [|z t]; [cbn; rewrite <- E; now destruct c|]. cbn [optional app fold_left]. f_equal.
  unfold LoadContributorChild. cbn [is_element negb named AddChild]. rewrite (read_child "comments" (z :: t) H). reflexivity.
Qed.
Lemma optional_copyright t r c : plain t -> copyright c = [] -> fold_left LoadContributorChild (optional "copyright" t ++ r) c = fold_left LoadContributorChild r (Contributor (author c) (authoringTool c) (comments c) t (sourceData c)).
Proof.
  intros H E. destruct t as [|z t]; [cbn; rewrite <- E; now destruct c|]. cbn [optional app fold_left]. f_equal.
  unfold LoadContributorChild. cbn [is_element negb named AddChild]. rewrite (read_child "copyright" (z :: t) H). reflexivity.
Qed.
Lemma contributor_back a b c : proper_contributor c -> exists l, WriteAssetContributor a c = Some l /\
  forall x, fold_option (LoadAssetChild b) l (Some x) = Some (if with_credits c then AddContributor c x else x).
Proof.
  intros (P & S). unfold WriteAssetContributor. rewrite nonempty_credits. destruct (with_credits c); cbn [negb]; [|exists []; split; [reflexivity|intro x; reflexivity]].
  assert (P1 := P Author). assert (P2 := P Tool). assert (P3 := P Comments). assert (P4 := P Copyright). assert (P5 := P Source). cbn [credit_of] in *.
  assert (E : forall l, LoadAssetContributor (Elem (tx "contributor") [] (optional "author" (author c) ++ optional "authoring_tool" (authoringTool c) ++ optional "comments" (comments c) ++ optional "copyright" (copyright c) ++ l)) new_contributor
    = fold_left LoadContributorChild l (Contributor (author c) (authoringTool c) (comments c) (copyright c) [])).
  { intro l. unfold LoadAssetContributor. cbn [children_of]. rewrite optional_author by auto. rewrite optional_tool by auto. rewrite optional_comments by auto. rewrite optional_copyright by auto. reflexivity. }
  assert (St : forall kids x, LoadAssetContributor (Elem (tx "contributor") [] kids) new_contributor = c -> fold_option (LoadAssetChild b) [Elem (tx "contributor") [] kids] (Some x) = Some (AddContributor c x)).
  { intros kids x H. unfold fold_option. cbn [fold_left]. unfold LoadAssetChild. cbn [negb is_element]. change (named (Elem (tx "contributor") [] kids) "contributor") with true. cbv iota. now rewrite H. }
  destruct (sourceData c) as [|z s] eqn:Es.
  - eexists. split; [reflexivity|]. intro x. apply St. specialize (E []). rewrite app_nil_r in E. rewrite E. cbn. rewrite <- Es. now destruct c.
  - destruct S as [S|S]; [discriminate|]. rewrite <- Es in *. destruct (address_back a (sourceData c) S) as (u & -> & G). cbn [option_map]. eexists. split; [reflexivity|]. intro x. apply St.
    rewrite <- !app_assoc. rewrite E. cbn [fold_left]. unfold LoadContributorChild. cbn [negb is_element AddChild]. rewrite G.
    change (Elem (tx "source_data") [] (content (AddContent (ConvertFilename (sourceData c))))) with (AddChild "source_data" (ConvertFilename (sourceData c))).
    rewrite (read_source (sourceData c)) by apply P5. now destruct c.
Qed.
Definition add_contributors (cs : list contributor) (x : asset) : asset :=
  Asset (contributors x ++ cs) (created x) (modified x) (keywords x) (revision x) (subject x) (title x) (upAxis x) (hasUpAxis x) (unitName x) (unitFactor x) (hasUnits x).
Lemma contributors_back a b : forall cs, Forall proper_contributor cs -> exists l, write_contributors a cs = Some l /\
  forall x, fold_option (LoadAssetChild b) l (Some x) = Some (add_contributors (filter with_credits cs) x).
Proof.
  induction 1 as [|c cs Hc _ (l & E & F)]; [exists []; split; [reflexivity|]; intros []; unfold add_contributors; cbn; now rewrite app_nil_r|].
  destruct (contributor_back a b c Hc) as (l0 & E0 & F0). exists (l0 ++ l). cbn [write_contributors]. rewrite E0, E. split; [reflexivity|]. intro x.
  rewrite fold_app, F0, F. cbn [filter]. destruct (with_credits c); unfold add_contributors, AddContributor; cbn; [now rewrite <- app_assoc|reflexivity].
Qed.

(** *** The other elements *)
Lemma step_created a d x r : ReadNodeContentFull (AddChild "created" d) = d -> fold_option (LoadAssetChild a) (AddChild "created" d :: r) (Some x) = fold_option (LoadAssetChild a) r (Some (SetCreated (ToDateTime d (created x)) x)).
Proof. intro H. rewrite fold_cons. f_equal. unfold LoadAssetChild. rewrite H. reflexivity. Qed.
Lemma step_modified a d x r : ReadNodeContentFull (AddChild "modified" d) = d -> fold_option (LoadAssetChild a) (AddChild "modified" d :: r) (Some x) = fold_option (LoadAssetChild a) r (Some (SetModified (ToDateTime d (modified x)) x)).
Proof. intro H. rewrite fold_cons. f_equal. unfold LoadAssetChild. rewrite H. reflexivity. Qed.
Lemma step_keywords a t x r : plain t -> keywords x = [] -> fold_option (LoadAssetChild a) (optional "keywords" t ++ r) (Some x) = fold_option (LoadAssetChild a) r (Some (SetKeywords t x)).
Proof. intros H E. destruct t as [|z t]; [cbn [optional app]; unfold SetKeywords; rewrite <- E; now destruct x|]. cbn [optional app]. rewrite fold_cons. f_equal. unfold LoadAssetChild. rewrite read_child by exact H. reflexivity. Qed.
Lemma step_revision a t x r : plain t -> revision x = [] -> fold_option (LoadAssetChild a) (optional "revision" t ++ r) (Some x) = fold_option (LoadAssetChild a) r (Some (SetRevision t x)).
Proof. intros H E. destruct t as [|z t]; [cbn [optional app]; unfold SetRevision; rewrite <- E; now destruct x|]. cbn [optional app]. rewrite fold_cons. f_equal. unfold LoadAssetChild. rewrite read_child by exact H. reflexivity. Qed.
Lemma step_subject a t x r : plain t -> subject x = [] -> fold_option (LoadAssetChild a) (optional "subject" t ++ r) (Some x) = fold_option (LoadAssetChild a) r (Some (SetSubject t x)).
Proof. intros H E. destruct t as [|z t]; [cbn [optional app]; unfold SetSubject; rewrite <- E; now destruct x|]. cbn [optional app]. rewrite fold_cons. f_equal. unfold LoadAssetChild. rewrite read_child by exact H. reflexivity. Qed.
Lemma step_title a t x r : plain t -> title x = [] -> fold_option (LoadAssetChild a) (optional "title" t ++ r) (Some x) = fold_option (LoadAssetChild a) r (Some (SetTitle t x)).
Proof. intros H E. destruct t as [|z t]; [cbn [optional app]; unfold SetTitle; rewrite <- E; now destruct x|]. cbn [optional app]. rewrite fold_cons. f_equal. unfold LoadAssetChild. rewrite read_child by exact H. reflexivity. Qed.
Lemma digit_bounds l : Forall (fun c => digit c = true) l -> Forall (fun c => 45 <= c <= 90) l.
Proof. apply Forall_impl. intros c H. unfold digit in H. apply andb_true_iff in H as (H1 & H2). apply Z.leb_le in H1. apply Z.leb_le in H2. lia. Qed.
Lemma date_plain d : proper_date d -> plain (ToString_date d).
Proof.
  intros (Hy & Hr). repeat match goal with H : Forall _ (_ :: _) |- _ => inversion H; subst; clear H end.
  assert (D : Forall (fun c => 45 <= c <= 90) (ToString_date d)).
  { unfold ToString_date. match goal with |- Forall _ (firstn 20 ?u) => assert (D : Forall (fun c => 45 <= c <= 90) u) end.
    - assert (P2 : forall n, 0 <= n < 100 -> Forall (fun c => 45 <= c <= 90) (pad 2 n)) by (intros n Hn; apply digit_bounds, (pad_spec 2); [exact Hn|lia]).
      assert (P4 : Forall (fun c => 45 <= c <= 90) (pad 4 (year d))) by (apply digit_bounds, (pad_spec 4); [exact Hy|lia]).
      assert (P1 : forall c l, 45 <= c <= 90 -> Forall (fun c => 45 <= c <= 90) l -> Forall (fun c => 45 <= c <= 90) ([c] ++ l)) by (intros; constructor; assumption).
      apply Forall_app; split; [exact P4|]. repeat first [apply P1; [lia|] | apply Forall_app; split; [apply P2; assumption|]]. constructor.
    - rewrite <- (firstn_skipn 20) in D. apply Forall_app in D. apply D. }
  split; [eapply Forall_impl; [|exact D]; cbn; intros; lia|]. intro X. rewrite Forall_forall in D. specialize (D _ X). lia.
Qed.
Lemma date_back d d0 : proper_date d -> ToDateTime (ToString_date d) d0 = d.
Proof.
  intros (Hy & Hr). repeat match goal with H : Forall _ (_ :: _) |- _ => inversion H; subst; clear H end. now apply TextProps.C21_date_round_trip.
Qed.
(** *** Unit and axis *)
Lemma equivalent_zero q : (1 # 10000 <= q)%Q -> equivalent q 0 || negb (Qle_bool 0 q) = false.
Proof.
  intro H. unfold equivalent. apply orb_false_iff. split.
  - apply andb_false_iff. left. apply negb_false_iff, Qle_bool_iff. lra.
  - apply negb_false_iff, Qle_bool_iff. lra.
Qed.
Lemma small_unit q : (q < 1 # 10000)%Q -> equivalent q 0 || negb (Qle_bool 0 q) = true.
Proof.
  intro H. unfold equivalent. destruct (Qle_bool 0 q) eqn:E; [|apply orb_true_r]. apply Qle_bool_iff in E. rewrite orb_false_r. apply andb_true_iff. split; apply negb_true_iff, not_true_iff_false; rewrite Qle_bool_iff; lra.
Qed.
Lemma load_unit a n m q x : has_attr n "meter" m -> plain m -> one_number m q -> exists r, (r == q)%Q /\
  LoadUnit a n x = Some (Asset (contributors x) (created x) (modified x) (keywords x) (revision x) (subject x) (title x) (upAxis x) (hasUpAxis x)
    (match ReadNodeProperty n "name" with [] => tx "UNKNOWN" | t => t end) (if Qle_bool (1 # 10000) q then r else 1%Q) true).
Proof.
  intros Hm Pm Hq. destruct (read_one a m q Hq) as (r & rest & E & Er). exists r. split; [exact Er|]. unfold LoadUnit. rewrite (has_attr_plain _ _ _ Hm Pm), E. cbv zeta.
  destruct (Qle_bool (1 # 10000) q) eqn:L.
  - apply Qle_bool_iff in L. assert (N : equivalent r 0 || negb (Qle_bool 0 r) = false) by (apply equivalent_zero; lra).
    cbn [unitName SetUnitConversionFactor SetUnitName]. destruct (ReadNodeProperty n "name"); cbn [unitFactor SetUnitConversionFactor SetUnitName]; rewrite N; reflexivity.
  - assert (N : equivalent r 0 || negb (Qle_bool 0 r) = true). { apply small_unit. apply not_true_iff_false in L. rewrite Qle_bool_iff in L. lra. }
    cbn [unitName SetUnitConversionFactor SetUnitName]. destruct (ReadNodeProperty n "name"); cbn [unitFactor SetUnitConversionFactor SetUnitName]; rewrite N; reflexivity.
Qed.
Lemma axis_written s v : axis_named s v -> axis_text v = s.
Proof. intros []; vm_compute; reflexivity. Qed.
Lemma axis_loaded s v x : axis_named s v -> LoadUpAxis (tx s) x = SetUpAxis v x.
Proof. intros []; reflexivity. Qed.
Lemma axis_plain s v : axis_named s v -> plain (tx s).
Proof. intros []; (split; [apply Forall_forall; intros c Hc; vm_compute in Hc; intuition (subst; lia)|intro X; vm_compute in X; intuition discriminate]). Qed.
Lemma meter_plain m q : float_text m q -> plain m.
Proof.
  intro H. apply RigWriteProofs.float_ok in H. split; [eapply Forall_impl; [|exact H]; intros c [X|X]; [lia|cbn in X; lia]|]. intro X. rewrite Forall_forall in H. destruct (H _ X) as [Y|Y]; [lia|cbn in Y; lia].
Qed.

(** *** The whole *)
Definition read_again (now : datetime) (r : Q) (x : asset) : asset :=
  Asset (filter with_credits (contributors x)) (created x) now (keywords x) (revision x) (subject x) (title x)
        (if hasUpAxis x then upAxis x else YAxis) (hasUpAxis x)
        (if hasUnits x then match unitName x with [] => tx "UNKNOWN" | t => t end else tx "meter") (if hasUnits x then r else 1%Q) (hasUnits x).
Lemma asset_back a b now now' meter q x : Forall proper_contributor (contributors x) -> proper_date (created x) -> proper_date now -> (forall k, plain (text_of k x)) ->
  (hasUnits x = true -> plain (unitName x)) -> (hasUpAxis x = true -> exists s, axis_named s (upAxis x)) -> float_text meter q -> one_number meter q ->
  exists n r, write_asset a now meter x = Some n /\ (r == q)%Q /\ LoadAsset b n (new_asset now') = Some (read_again now (if Qle_bool (1 # 10000) q then r else 1%Q) x).
Proof.
  intros Hc Hd Hn Ht Hu Hx Fm Om. destruct (contributors_back a b (contributors x) Hc) as (cs & Ec & Fc). unfold write_asset. rewrite Ec. cbn [option_map].
  assert (T1 := Ht Keywords). assert (T2 := Ht Revision). assert (T3 := Ht Subject). assert (T4 := Ht Title). cbn [text_of] in *.
  assert (A1 : has_attr (Elem (tx "unit") [(tx "meter", XmlModel.AddAttribute meter); (tx "name", XmlModel.AddAttribute (unitName x))] []) "meter" meter) by (eexists _, _, [], _; split; [reflexivity|constructor]).
  assert (A2 : has_attr (Elem (tx "unit") [(tx "meter", XmlModel.AddAttribute meter); (tx "name", XmlModel.AddAttribute (unitName x))] []) "name" (unitName x)).
  { eexists _, _, [(tx "meter", meter)], []. split; [reflexivity|]. constructor; [cbn; discriminate|constructor]. }
  destruct (load_unit b _ meter q (new_asset now') A1 (meter_plain _ _ Fm) Om) as (r0 & _).
  assert (U : exists r, (r == q)%Q /\ forall y l, unitName y = tx "meter" -> unitFactor y = 1%Q -> hasUnits y = false ->
     fold_option (LoadAssetChild b) ((if hasUnits x then [Elem (tx "unit") [(tx "meter", XmlModel.AddAttribute meter); (tx "name", XmlModel.AddAttribute (unitName x))] []] else []) ++ l) (Some y) =
     fold_option (LoadAssetChild b) l (Some (Asset (contributors y) (created y) (modified y) (keywords y) (revision y) (subject y) (title y) (upAxis y) (hasUpAxis y)
        (if hasUnits x then match unitName x with [] => tx "UNKNOWN" | t => t end else tx "meter") (if hasUnits x then (if Qle_bool (1 # 10000) q then r else 1%Q) else 1%Q) (hasUnits x)))).
  { destruct (read_one b meter q Om) as (r & rest & E & Er). exists r. split; [exact Er|]. intros y l Y1 Y2 Y3. destruct (hasUnits x) eqn:Hh; cbn [app].
    - rewrite fold_cons. f_equal. unfold LoadAssetChild. cbn [is_element negb]. change (LoadUnit b (Elem (tx "unit") [(tx "meter", XmlModel.AddAttribute meter); (tx "name", XmlModel.AddAttribute (unitName x))] []) y = Some (Asset (contributors y) (created y) (modified y) (keywords y) (revision y) (subject y) (title y) (upAxis y) (hasUpAxis y) match unitName x with [] => tx "UNKNOWN" | t => t end (if Qle_bool (1 # 10000) q then r else 1%Q) true)).
      unfold LoadUnit. rewrite (has_attr_plain _ _ _ A1 (meter_plain _ _ Fm)), (has_attr_plain _ _ _ A2 (Hu eq_refl)), E. cbv zeta. cbn [unitName SetUnitConversionFactor SetUnitName].
      destruct (Qle_bool (1 # 10000) q) eqn:L.
      + apply Qle_bool_iff in L. assert (N : equivalent r 0 || negb (Qle_bool 0 r) = false) by (apply equivalent_zero; lra).
        destruct (unitName x); cbn [unitFactor SetUnitConversionFactor SetUnitName]; rewrite N; reflexivity.
      + assert (N : equivalent r 0 || negb (Qle_bool 0 r) = true). { apply small_unit. apply not_true_iff_false in L. rewrite Qle_bool_iff in L. lra. }
        destruct (unitName x); cbn [unitFactor SetUnitConversionFactor SetUnitName]; rewrite N; reflexivity.
    - rewrite <- Y1, <- Y2, <- Y3. now destruct y. }
  destruct U as (r & Er & U). eexists _, r. split; [reflexivity|]. split; [exact Er|]. rewrite load_fold, fold_app, Fc.
  cbn [app]. rewrite step_created by (apply read_child, date_plain, Hd). rewrite step_keywords by auto. cbn [app]. rewrite step_modified by (apply read_child, date_plain, Hn).
  rewrite step_revision by auto. rewrite step_subject by auto. rewrite step_title by auto. rewrite U by reflexivity. rewrite !date_back by assumption.
  cbn [contributors created modified keywords revision subject title upAxis hasUpAxis unitName unitFactor hasUnits SetTitle SetSubject SetRevision SetModified SetKeywords SetCreated add_contributors new_asset app].
  unfold read_again. destruct (hasUpAxis x) eqn:Ha; [|reflexivity]. destruct (Hx eq_refl) as (s & Hs). rewrite (axis_written _ _ Hs). unfold fold_option. cbn [fold_left].
  unfold LoadAssetChild. rewrite (read_child "up_axis" (tx s) (axis_plain _ _ Hs)). rewrite (axis_loaded _ _ _ Hs). reflexivity.
Qed.
