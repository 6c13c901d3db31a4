(** Assets: loading and writing. *)
From Coq Require Import String List ZArith QArith Qabs Bool Lia Lqa.
From Verif Require Import TextModel TextProofs StringModel StringProofs XmlModel XmlProofs FloatModel FloatSpec FloatProps UriModel UriSpec UriProps DaeModel DaeSpec DaeProofs RigSpec RigProofs CustomModel CustomSpec LampModel LampSpec LampProofs LampWriteProofs LampSafeProofs AssetModel AssetSpec.
From Verif Require CustomProofs CustomReadProofs.
Import ListNotations.
Local Open Scope Z_scope.
Local Open Scope list_scope.

(** *** Texts *)
Fixpoint text_at_unique (n : xml) : forall t, text_at n t -> all_text n = t.
Proof.
  intros t H. destruct n as [k a c|u]; [|inversion H; reflexivity]. inversion H as [|? ? ? ts F E1 E2]; subst. clear H. cbn [all_text].
  revert ts F. induction c as [|m c IH]; intros ts F; inversion F as [|? t ? ts' Hm Hr]; subst; [reflexivity|]. cbn [flat_map concat].
  rewrite (text_at_unique m t Hm), (IH ts' Hr). reflexivity.
Qed.
Lemma holds_read n t : holds n t -> ReadNodeContentFull n = t.
Proof. intros (ts & H & ->). unfold ReadNodeContentFull. now rewrite (text_at_unique n ts H). Qed.
Lemma holds_own n : holds n (ReadNodeContentFull n).
Proof. exists (all_text n). split; [apply CustomReadProofs.text_at_all|reflexivity]. Qed.

(** *** Dates *)
Lemma digits_read w ds c rest : List.length ds = w -> (0 < w < 9)%nat -> Forall is_digit ds -> digit c = false -> fst (ToUInt32 (ds ++ c :: rest)) = number ds.
Proof.
  intros L Hw D Hc. assert (D' : Forall (fun c => digit c = true) ds).
  { eapply Forall_impl; [|exact D]. intros x Hx. unfold is_digit in Hx. unfold digit. apply andb_true_iff. split; apply Z.leb_le; lia. }
  pose proof (to_uint32_spec [] ds (c :: rest)) as H. cbn [app] in H. rewrite H; auto.
  - intro E. rewrite E in L. cbn in L. lia.
  - assert (G : forall l v, Forall is_digit l -> 0 <= v -> value_from v l < (v + 1) * 10 ^ Z.of_nat (List.length l)).
    { clear. induction l as [|x l IH]; intros v Hl Hv; [cbn; lia|]. inversion Hl as [|? ? X1 X2]; subst. unfold is_digit in X1.
      specialize (IH (v * 10 + (x - 48)) X2 ltac:(lia)). unfold value_from in *. cbn [fold_left List.length]. rewrite Nat2Z.inj_succ, Z.pow_succ_r by lia.
      eapply Z.lt_le_trans; [exact IH|]. assert (0 < 10 ^ Z.of_nat (List.length l)) by (apply Z.pow_pos_nonneg; lia). nia. }
    specialize (G ds 0 D ltac:(lia)). rewrite L in G. assert (10 ^ Z.of_nat w <= 10 ^ 9) by (apply Z.pow_le_mono_r; lia). change (10 ^ 9) with 1000000000 in *. lia.
Qed.
Lemma date_read t d d0 : date_text t d -> ToDateTime t d0 = d.
Proof.
  intros (y & mo & da & h & mi & s & -> & L4 & L2 & D & ->).
  repeat match goal with H : Forall _ (_ :: _) |- _ => inversion H; subst; clear H end.
  assert (Q4 := fun ds c r L => digits_read 4 ds c r L ltac:(lia)). assert (Q2 := fun ds c r L => digits_read 2 ds c r L ltac:(lia)).
  unfold ToDateTime.
  assert (S0 : List.length (y ++ [45] ++ mo ++ [45] ++ da ++ [84] ++ h ++ [58] ++ mi ++ [58] ++ s ++ [90]) = 20%nat).
  { rewrite !app_length. cbn [List.length]. repeat match goal with H : List.length _ = _ |- _ => rewrite H; clear H end. reflexivity. }
  rewrite S0. cbn [Nat.eqb].
  destruct (len4 y) as (y1 & y2 & y3 & y4 & ->); [assumption|].
  destruct (len2 mo) as (? & ? & ->); [assumption|]. destruct (len2 da) as (? & ? & ->); [assumption|]. destruct (len2 h) as (? & ? & ->); [assumption|].
  destruct (len2 mi) as (? & ? & ->); [assumption|]. destruct (len2 s) as (? & ? & ->); [assumption|].
  cbn [app skipn]. f_equal.
  - apply (Q4 [y1; y2; y3; y4] 45); auto.
  - apply (Q2 [_; _] 45); auto.
  - apply (Q2 [_; _] 84); auto.
  - apply (Q2 [_; _] 58); auto.
  - apply (Q2 [_; _] 58); auto.
  - apply (Q2 [_; _] 90); auto.
Qed.

(** *** Loading *)
Lemma load_fold a attrs ch x : LoadAsset a (Elem (tx "asset") attrs ch) x = fold_option (LoadAssetChild a) ch (Some x). Proof. reflexivity. Qed.
Ltac names := repeat match goal with
  | |- context [text_eq ?k (tx ?s)] => destruct (text_eq k (tx s)) eqn:?
  | H : context [text_eq ?k (tx ?s)] |- _ => destruct (text_eq k (tx s)) eqn:?
  end.
(** A child with another name than the one looked for changes nothing that the name stands for. *)
Lemma text_child a k x n y : LoadAssetChild a x n = Some y -> named n (label_word k) = true -> text_of k y = ReadNodeContentFull n.
Proof.
  intros E H. apply named_iff in H. destruct H as (at_ & ch & ->). unfold LoadAssetChild in E. destruct k; cbn in E; injection E as <-; reflexivity.
Qed.
Lemma unit_keeps a n x y : LoadUnit a n x = Some y -> (forall k, text_of k y = text_of k x) /\ contributors y = contributors x /\ created y = created x /\ modified y = modified x /\ upAxis y = upAxis x /\ hasUpAxis y = hasUpAxis x.
Proof.
  unfold LoadUnit. destruct (ToFloat a _) as [[q t]|]; [|discriminate]. intro E. injection E as <-.
  cbv zeta. match goal with |- context [match ?u with [] => _ | _ => _ end] => destruct u end; match goal with |- context [if ?b then _ else _] => destruct b end;
    (split; [intros []; reflexivity|repeat split]).
Qed.
Lemma axis_keeps t x : (forall k, text_of k (LoadUpAxis t x) = text_of k x) /\ contributors (LoadUpAxis t x) = contributors x /\ created (LoadUpAxis t x) = created x /\
  modified (LoadUpAxis t x) = modified x /\ (unitName (LoadUpAxis t x), unitFactor (LoadUpAxis t x), hasUnits (LoadUpAxis t x)) = (unitName x, unitFactor x, hasUnits x).
Proof.
  unfold LoadUpAxis. destruct (text_eq t (tx "X_UP")), (text_eq t (tx "Y_UP")), (text_eq t (tx "Z_UP")); (split; [intros []; reflexivity|repeat split]).
Qed.
Ltac cases E := match type of E with LoadAssetChild ?a ?x ?n = Some ?y => unfold LoadAssetChild in E;
  destruct (negb (is_element n)) eqn:?; [|destruct (named n "contributor") eqn:?; [|destruct (named n "created") eqn:?; [|destruct (named n "keywords") eqn:?; [|
  destruct (named n "modified") eqn:?; [|destruct (named n "revision") eqn:?; [|destruct (named n "subject") eqn:?; [|destruct (named n "title") eqn:?; [|
  destruct (named n "unit") eqn:?; [|destruct (named n "up_axis") eqn:?]]]]]]]]] end.
Ltac settle E := first [apply unit_keeps in E; destruct E as (?E1 & ?E2 & ?E3 & ?E4 & ?E5 & ?E6) | injection E as <-].
Lemma text_other a k x n y : LoadAssetChild a x n = Some y -> named n (label_word k) = false -> text_of k y = text_of k x.
Proof.
  intros E H. cases E; try (injection E as <-); try (destruct k; cbn [label_word] in H; try congruence; reflexivity).
  - apply unit_keeps in E. apply E.
  - apply axis_keeps.
Qed.
Lemma created_child a x n y : LoadAssetChild a x n = Some y -> named n "created" = true -> created y = ToDateTime (ReadNodeContentFull n) (created x).
Proof. intros E H. apply named_iff in H. destruct H as (at_ & ch & ->). unfold LoadAssetChild in E. cbn in E. injection E as <-. reflexivity. Qed.
Lemma created_other a x n y : LoadAssetChild a x n = Some y -> named n "created" = false -> created y = created x.
Proof. intros E H. cases E; try congruence; try (injection E as <-; reflexivity); [apply unit_keeps in E; apply E|injection E as <-; apply axis_keeps]. Qed.
Lemma modified_child a x n y : LoadAssetChild a x n = Some y -> named n "modified" = true -> modified y = ToDateTime (ReadNodeContentFull n) (modified x).
Proof. intros E H. apply named_iff in H. destruct H as (at_ & ch & ->). unfold LoadAssetChild in E. cbn in E. injection E as <-. reflexivity. Qed.
Lemma modified_other a x n y : LoadAssetChild a x n = Some y -> named n "modified" = false -> modified y = modified x.
Proof. intros E H. cases E; try congruence; try (injection E as <-; reflexivity); [apply unit_keeps in E; apply E|injection E as <-; apply axis_keeps]. Qed.
Definition unit_view (x : asset) := (unitName x, unitFactor x, hasUnits x).
Definition axis_view (x : asset) := (upAxis x, hasUpAxis x).
Lemma unit_child a x n y : LoadAssetChild a x n = Some y -> named n "unit" = true -> LoadUnit a n x = Some y.
Proof. intros E H. apply named_iff in H. destruct H as (at_ & ch & ->). unfold LoadAssetChild in E. exact E. Qed.
Lemma unit_other a x n y : LoadAssetChild a x n = Some y -> named n "unit" = false -> unit_view y = unit_view x.
Proof. intros E H. cases E; try congruence; try (injection E as <-; reflexivity). injection E as <-. apply axis_keeps. Qed.
Lemma axis_child a x n y : LoadAssetChild a x n = Some y -> named n "up_axis" = true -> y = LoadUpAxis (ReadNodeContentFull n) x.
Proof. intros E H. apply named_iff in H. destruct H as (at_ & ch & ->). unfold LoadAssetChild in E. cbn [negb is_element] in E. injection E as <-. reflexivity. Qed.
Lemma axis_other a x n y : LoadAssetChild a x n = Some y -> named n "up_axis" = false -> axis_view y = axis_view x.
Proof. intros E H. cases E; try congruence; try (injection E as <-; reflexivity). apply unit_keeps in E. unfold axis_view. destruct E as (_ & _ & _ & _ & -> & ->). reflexivity. Qed.
Lemma last_split ch k c : last_child ch k c -> exists before after, ch = before ++ c :: after /\ named c k = true /\ forall d, In d after -> named d k = false.
Proof. intros (b & e & -> & H & N). exists b, e. split; [reflexivity|]. split; [now apply named_iff|]. intros d Hd. apply named_not. auto. Qed.
Lemma none_named ch k : no_child ch k -> forall d, In d ch -> named d k = false.
Proof. intros H d Hd. apply named_not. auto. Qed.

(** The contributors. *)
Lemma credit_child k c n : named n (credit_word k) = true -> credit_of k (LoadContributorChild c n) = ReadNodeContentFull n.
Proof. intro H. apply named_iff in H. destruct H as (at_ & ch & ->). destruct k; reflexivity. Qed.
Lemma credit_other k c n : named n (credit_word k) = false -> credit_of k (LoadContributorChild c n) = credit_of k c.
Proof.
  intro H. unfold LoadContributorChild. destruct (negb (is_element n)); [reflexivity|].
  destruct (named n "author") eqn:E1; [destruct k; cbn in H; try congruence; reflexivity|].
  destruct (named n "authoring_tool") eqn:E2; [destruct k; cbn in H; try congruence; reflexivity|].
  destruct (named n "comments") eqn:E3; [destruct k; cbn in H; try congruence; reflexivity|].
  destruct (named n "copyright") eqn:E4; [destruct k; cbn in H; try congruence; reflexivity|].
  destruct (named n "source_data") eqn:E5; [destruct k; cbn in H; try congruence; reflexivity|]. reflexivity.
Qed.
Lemma contributor_read n : contributor_is n (LoadAssetContributor n new_contributor).
Proof.
  intro k. assert (F : fold_option (fun c n => Some (LoadContributorChild c n)) (children_of n) (Some new_contributor) = Some (LoadAssetContributor n new_contributor)).
  { unfold LoadAssetContributor, fold_option. generalize new_contributor as c. induction (children_of n) as [|m l IH]; intro c; [reflexivity|]. cbn. apply IH. }
  destruct (fold_last (fun c n => Some (LoadContributorChild c n)) (credit_of k) (fun n => named n (credit_word k)) (fun n t => t = ReadNodeContentFull n)) with (l := children_of n) (x := new_contributor) (y := LoadAssetContributor n new_contributor) as (A & B).
  - intros x b y E H. injection E as <-. now apply credit_child.
  - intros x b y E H. injection E as <-. now apply credit_other.
  - exact F.
  - split.
    + intros d t Hd Ht. destruct (last_split _ _ _ Hd) as (u & v & E & N & V). rewrite (A u d v E N V). now apply holds_read.
    + intro Hn. rewrite (B (none_named _ _ Hn)). destruct k; reflexivity.
Qed.
Lemma contributors_read a ch : forall x y, fold_option (LoadAssetChild a) ch (Some x) = Some y -> exists cs, contributors y = contributors x ++ cs /\ contributors_are ch cs.
Proof.
  induction ch as [|n ch IH]; intros x y E; [cbn in E; injection E as <-; exists []; rewrite app_nil_r; split; [reflexivity|constructor]|].
  rewrite fold_cons in E. destruct (LoadAssetChild a x n) as [z|] eqn:Ez; [|rewrite fold_none in E; discriminate]. destruct (IH z y E) as (cs & C1 & C2).
  destruct (named n "contributor") eqn:Hn.
  - apply named_iff in Hn. pose proof Hn as Hn'. destruct Hn as (at_ & kids & ->). unfold LoadAssetChild in Ez. cbn [negb is_element] in Ez. injection Ez as <-.
    exists (LoadAssetContributor (Elem (tx "contributor") at_ kids) new_contributor :: cs). split; [rewrite C1; cbn [contributors AddContributor]; now rewrite <- app_assoc|].
    apply C_cons; [exact Hn'|apply contributor_read|exact C2].
  - exists cs. split; [|apply C_skip; [now apply named_not|exact C2]]. rewrite C1. f_equal.
    cases Ez; try congruence; try (injection Ez as <-; reflexivity); [apply unit_keeps in Ez; apply Ez|injection Ez as <-; apply axis_keeps].
Qed.
