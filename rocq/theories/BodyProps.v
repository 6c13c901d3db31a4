(** C127 (mass and density in documents) and C128 (copies of shapes). *)
From Coq Require Import String List ZArith QArith Bool Lia.
From Verif Require Import TextModel TextSpec StringModel StringProofs XmlModel FloatModel FloatSpec FloatProofs FloatWrite FloatProps DaeModel DaeSpec DaeProofs DaeProps RigModel RigSpec RigTextProofs RigProofs RigWriteProofs NodeSpec NodeSafeProofs LampModel LampSpec LampProofs LampSafeProofs LampWriteProofs LampProps WireProps ShadeSpec ShadeProofs BodyModel.
Import ListNotations.
Local Open Scope list_scope.

Lemma words c k k' : is_elem k c -> tx k <> tx k' -> named c k' = false.
Proof. intros (u & v & ->) H. apply named_not. intros (u' & v' & E). apply H. exact (f_equal (fun x => match x with Elem n _ _ => n | Text _ => [] end) E). Qed.
Lemma fold_named {O} (a : arith) (obs : body -> O) (k : string) (R : xml -> O -> Prop) l x y : fold_option (LoadChild a) l (Some x) = Some y ->
  (forall x c y, LoadChild a x c = Some y -> is_elem k c -> R c (obs y)) -> (forall x c y, LoadChild a x c = Some y -> named c k = false -> obs y = obs x) ->
  (forall c, last_of l k c -> R c (obs y)) /\ (none_of l k -> obs y = obs x).
Proof.
  intros E H1 H2. destruct (fold_last (LoadChild a) obs (fun c => named c k) R) with (l := l) (x := x) (y := y) as (L1 & L2); [intros u c v X Y; apply (H1 u c v X); now apply named_iff|exact H2|exact E|]. split.
  - intros c (b & r & Es & Hc & Hr). apply (L1 b c r Es); [now apply named_iff|]. intros d Hd. apply named_not. rewrite Forall_forall in Hr. now apply Hr.
  - intro H. apply L2. intros d Hd. apply named_not. unfold none_of in H. rewrite Forall_forall in H. now apply H.
Qed.
Ltac step E := unfold LoadChild in E; repeat match type of E with
  | (if ?b then _ else _) = _ => destruct b eqn:?
  | match ToFloat ?a ?t with _ => _ end = _ => let X := fresh "F" in destruct (ToFloat a t) as [[? ?]|] eqn:X; [|discriminate E] end; try discriminate E; injection E as <-.
(** If there is a mass, then the density is not more accurate, and if there is only a density, then it is. *)
Definition settled (b : body) : Prop := match mass b, density b with Some _, _ => accurate b = false | None, Some _ => accurate b = true | None, None => True end.
Lemma fold_settled a l : forall x y, fold_option (LoadChild a) l (Some x) = Some y -> settled x -> settled y.
Proof.
  induction l as [|c l IH]; intros x y E H; [cbn in E; now injection E as <-|]. rewrite fold_cons in E. destruct (LoadChild a x c) as [z|] eqn:Ez; [|rewrite fold_none in E; discriminate]. apply (IH z y E). clear E. step Ez; unfold settled in *; cbn; try exact H; try reflexivity. destruct (mass x); reflexivity.
Qed.
Lemma read_body a l y : fold_option (LoadChild a) l (Some new_body) = Some y ->
  ((forall c, last_of l "hollow" c -> hollow y = ToBoolean (ReadNodeContentDirect c)) /\ (none_of l "hollow" -> hollow y = true)) /\
  ((forall c, last_of l "mass" c -> exists q r, ToFloat a (ReadNodeContentDirect c) = Some (q, r) /\ mass y = Some q) /\ (none_of l "mass" -> mass y = None)) /\
  ((forall c, last_of l "density" c -> exists q r, ToFloat a (ReadNodeContentDirect c) = Some (q, r) /\ density y = Some q) /\ (none_of l "density" -> density y = None)) /\ settled y.
Proof.
  intro E. split; [|split; [|split; [|now apply (fold_settled a l _ _ E)]]].
  - apply (fold_named a hollow "hollow" (fun c o => o = ToBoolean (ReadNodeContentDirect c)) l new_body y E).
    + intros x c z X Hc. apply named_iff in Hc. unfold LoadChild in X. rewrite Hc in X. now injection X as <-.
    + intros x c z X Hc. unfold LoadChild in X. rewrite Hc in X. step X; reflexivity.
  - apply (fold_named a mass "mass" (fun c o => exists q r, ToFloat a (ReadNodeContentDirect c) = Some (q, r) /\ o = Some q) l new_body y E).
    + intros x c z X Hc. pose proof (words c "mass" "hollow" Hc ltac:(discriminate)) as W. apply named_iff in Hc. unfold LoadChild in X. rewrite W, Hc in X. destruct (ToFloat a _) as [[q r]|]; [|discriminate]. injection X as <-. eauto.
    + intros x c z X Hc. unfold LoadChild in X. rewrite Hc in X. step X; reflexivity.
  - apply (fold_named a density "density" (fun c o => exists q r, ToFloat a (ReadNodeContentDirect c) = Some (q, r) /\ o = Some q) l new_body y E).
    + intros x c z X Hc. pose proof (words c "density" "hollow" Hc ltac:(discriminate)) as W. pose proof (words c "density" "mass" Hc ltac:(discriminate)) as W'. apply named_iff in Hc. unfold LoadChild in X. rewrite W, W', Hc in X. destruct (ToFloat a _) as [[q r]|]; [|discriminate]. injection X as <-. cbn. eauto.
    + intros x c z X Hc. unfold LoadChild in X. rewrite Hc in X. step X; reflexivity.
Qed.
Lemma last_or_none l k : (exists c, last_of l k c) \/ none_of l k.
Proof.
  induction l as [|d l [(c & b & r & -> & H)|H]]; [right; constructor|left; exists c, (d :: b), r; auto|]. destruct (named d k) eqn:E; [left; exists d, [], l; split; [reflexivity|]; split; [now apply named_iff|exact H]|].
  right. constructor; [now apply named_not|exact H].
Qed.
(** What a new shape has after it was loaded from an element: the last element of each name counts, and what is not given is calculated. *)
Theorem C127_import : forall a volume n b', is_elem "shape" n -> LoadPhysicsShape a volume new_body n = Some b' ->
  let l := children_of n in
  (forall c, last_of l "hollow" c -> (ReadNodeContentDirect c = tx "true" -> hollow b' = true) /\ (ReadNodeContentDirect c = tx "false" -> hollow b' = false)) /\
  (none_of l "hollow" -> hollow b' = true) /\
  exists m d, mass b' = Some m /\ density b' = Some d /\
  (forall c q, last_of l "mass" c -> one_number (ReadNodeContentDirect c) q -> m == q)%Q /\
  (forall c q, last_of l "density" c -> one_number (ReadNodeContentDirect c) q -> d == q)%Q /\
  (none_of l "mass" -> m == d * volume)%Q /\ (none_of l "mass" -> none_of l "density" -> d == 1)%Q /\
  (none_of l "density" -> (exists c, last_of l "mass" c) -> d == m / volume)%Q /\ (accurate b' = true <-> none_of l "mass").
Proof.
  intros a volume n b' Hn E l. unfold LoadPhysicsShape in E. apply named_iff in Hn. rewrite Hn in E. fold l in E. destruct (fold_option _ _ _) as [y|] eqn:Ey; [|discriminate]. injection E as <-.
  destruct (read_body a l y Ey) as ((H1 & H2) & (M1 & M2) & (D1 & D2) & Z). assert (HH : hollow (finish volume y) = hollow y) by (unfold finish; destruct y as [h [m|] [d|] ac]; reflexivity). rewrite HH.
  split; [intros c Hc; rewrite (H1 c Hc); split; intros ->; reflexivity|]. split; [exact H2|]. clear HH H1 H2.
  assert (NM : forall c, last_of l "mass" c -> ~ none_of l "mass") by (intros c (b & r & Es & Hc & _) X; unfold none_of in X; rewrite Es in X; apply Forall_app in X; destruct X as (_ & X); inversion X; contradiction).
  assert (ND : forall c, last_of l "density" c -> ~ none_of l "density") by (intros c (b & r & Es & Hc & _) X; unfold none_of in X; rewrite Es in X; apply Forall_app in X; destruct X as (_ & X); inversion X; contradiction).
  assert (RD : forall c q v, one_number (ReadNodeContentDirect c) q -> (exists q' r, ToFloat a (ReadNodeContentDirect c) = Some (q', r) /\ Some v = Some q') -> (v == q)%Q).
  { intros c q v Hq (q' & r & E' & Ev). destruct (read_one a _ _ Hq) as (q2 & r2 & E2 & K). rewrite E2 in E'. injection E' as <- _. injection Ev as ->. exact K. }
  destruct (last_or_none l "mass") as [(cm & Lm)|Nm], (last_or_none l "density") as [(cd & Ld)|Nd].
  - destruct (M1 cm Lm) as (m & rm & Em & Hm), (D1 cd Ld) as (d & rd & Edd & Hd). unfold settled in Z. destruct y as [h mm dd ac]. cbn in Hm, Hd, Z, M1, D1. subst mm dd. unfold finish. cbn. exists m, d.
    repeat (split; [reflexivity|]). split; [intros c q Hc Hq; apply (RD c q m Hq); auto|]. split; [intros c q Hc Hq; apply (RD c q d Hq); auto|]. split; [intro X; now apply NM in Lm|]. split; [intro X; now apply NM in Lm|]. split; [intro X; now apply ND in Ld|].
    rewrite Z. split; [discriminate|intro X; now apply NM in Lm].
  - destruct (M1 cm Lm) as (m & rm & Em & Hm). pose proof (D2 Nd) as Hd. unfold settled in Z. destruct y as [h mm dd ac]. cbn in Hm, Hd, Z, M1, D1. subst mm dd. unfold finish. cbn. exists m, (m / volume)%Q.
    repeat (split; [reflexivity|]). split; [intros c q Hc Hq; apply (RD c q m Hq); auto|]. split; [intros c q Hc; now apply ND in Hc|]. split; [intro X; now apply NM in Lm|]. split; [intro X; now apply NM in Lm|]. split; [intros; reflexivity|].
    rewrite Z. split; [discriminate|intro X; now apply NM in Lm].
  - pose proof (M2 Nm) as Hm. destruct (D1 cd Ld) as (d & rd & Edd & Hd). unfold settled in Z. destruct y as [h mm dd ac]. cbn in Hm, Hd, Z, M1, D1. subst mm dd. unfold finish. cbn. exists (d * volume)%Q, d.
    repeat (split; [reflexivity|]). split; [intros c q Hc; now apply NM in Hc|]. split; [intros c q Hc Hq; apply (RD c q d Hq); auto|]. split; [intros; reflexivity|]. split; [intros _ X; now apply ND in Ld|]. split; [intro X; now apply ND in Ld|].
    rewrite Z. split; auto.
  - pose proof (M2 Nm) as Hm. pose proof (D2 Nd) as Hd. destruct y as [h mm dd ac]. cbn in Hm, Hd. subst mm dd. unfold finish. cbn. exists (1 * volume)%Q, 1%Q.
    repeat (split; [reflexivity|]). split; [intros c q Hc; now apply NM in Hc|]. split; [intros c q Hc; now apply ND in Hc|]. split; [intros; reflexivity|]. split; [intros; reflexivity|]. split; [intros _ (c & Hc); now apply NM in Hc|]. split; auto.
Qed.
Print Assumptions C127_import.
Theorem C127_safe : forall volume b n, calm n -> exists b', LoadPhysicsShape Wrapping volume b n = Some b'.
Proof.
  intros volume b n H. unfold LoadPhysicsShape. destruct (named n _); [|eauto]. destruct (fold_total (LoadChild Wrapping) (children_of n)) with (x := b) as (y & ->); [|cbn; eauto].
  intros x c Hc. destruct (float_safe (ReadNodeContentDirect c)) as (q & s & E); [apply calm_content; now apply (calm_children n)|]. unfold LoadChild. rewrite E. destruct (named c "hollow"), (named c "mass"), (named c "density"); eauto.
Qed.
Print Assumptions C127_safe.

(** *** Written and loaded *)
(** The elements after those of hollowness, mass and density. *)
Definition quiet (rest : list xml) : Prop := none_of rest "hollow" /\ none_of rest "mass" /\ none_of rest "density".
Lemma printed_child eps q t name : machine_eps eps -> finite q -> appends eps (Fin q) t -> exists r, one_number (ReadNodeContentDirect (text_child name t)) r /\ remains eps q r.
Proof.
  intros He Hq Ht. destruct (floats_written eps [q] He) with (t := t) as (rs & Hn & Hr & Hok); [constructor; [exact Hq|constructor]| |].
  - replace t with ([] ++ t ++ []) by now rewrite app_nil_r. apply (TS_cons eps []); [exact Ht|apply AR_nil].
  - inversion Hr as [|? r ? l A B]; subst. inversion B; subst. exists r. split; [|exact A]. unfold text_child. rewrite content_direct, (content_same t Hok). exact Hn.
Qed.
Lemma text_not k k' t : tx k <> tx k' -> ~ is_elem k (text_child k' t).
Proof. intros H (u & v & E). apply H. symmetry. exact (f_equal (fun x => match x with Elem n _ _ => n | Text _ => [] end) E). Qed.
Lemma text_is k t : is_elem k (text_child k t). Proof. do 2 eexists; reflexivity. Qed.
(** The full claim, false of some shapes: hollowness, mass, density and the flag all come back.  Without mass and density they do not; and
    the mass of a shape whose density is more accurate is calculated. *)
Theorem C127_saved_partial : forall a eps volume b rest n b', machine_eps eps -> finite (GetMass b) -> finite (GetDensity b) -> quiet rest ->
  WritePhysicsShape eps b rest n -> LoadPhysicsShape a volume new_body n = Some b' ->
  hollow b' = hollow b /\
  (~ GetDensity b == 0 -> remains eps (GetDensity b) (GetDensity b'))%Q /\
  (accurate b = false -> ~ GetMass b == 0 -> remains eps (GetMass b) (GetMass b') /\ accurate b' = false)%Q /\
  (accurate b = true -> GetMass b' == GetDensity b' * volume /\ accurate b' = true)%Q.
Proof.
  intros a eps volume b rest n b' He Fm Fd (Q1 & Q2 & Q3) (tm & td & Wm & Wd & ->) E.
  destruct (C127_import a volume _ b' (ex_intro _ [] (ex_intro _ _ eq_refl)) E) as (H1 & _ & m & d & Em & Ed & IM & ID & IN & _ & _ & IA). cbn [children_of shape_element] in *.
  assert (NZ : forall q, nonzero q = true <-> ~ (q == 0)%Q).
  { intro q. unfold nonzero. rewrite negb_true_iff. split; [intros X Y; apply Qeq_bool_iff in Y; congruence|]. intro X. destruct (Qeq_bool q 0) eqn:Y; [apply Qeq_bool_iff in Y; contradiction|reflexivity]. }
  assert (GM : GetMass b' = m) by (unfold GetMass; now rewrite Em). assert (GD : GetDensity b' = d) by (unfold GetDensity; now rewrite Ed). rewrite GM, GD.
  set (lm := if nonzero (GetMass b) && negb (accurate b) then [text_child "mass" tm] else []) in *. set (ld := if nonzero (GetDensity b) then [text_child "density" td] else []) in *.
  assert (Lm : forall k, tx k <> tx "mass" -> none_of lm k) by (intros k X; unfold lm; destruct (nonzero (GetMass b) && negb (accurate b)); [constructor; [now apply text_not|]; constructor|constructor]).
  assert (Ld : forall k, tx k <> tx "density" -> none_of ld k) by (intros k X; unfold ld; destruct (nonzero (GetDensity b)); [constructor; [now apply text_not|]; constructor|constructor]).
  split; [|split; [|split]].
  - destruct (H1 (text_child "hollow" (if hollow b then tx "true" else tx "false"))) as (T1 & T2).
    { exists [], (lm ++ ld ++ rest). split; [reflexivity|]. split; [apply text_is|]. repeat (apply Forall_app; split); [apply Lm; discriminate|apply Ld; discriminate|exact Q1]. }
    destruct (hollow b); [apply T1|apply T2]; unfold text_child; rewrite content_direct; reflexivity.
  - intro X. apply NZ in X. destruct (printed_child eps _ td "density" He Fd Wd) as (r & Hr & K). eapply remains_eq; [exact K|]. apply (ID (text_child "density" td) r); [|exact Hr].
    exists (text_child "hollow" (if hollow b then tx "true" else tx "false") :: lm), rest. split; [unfold ld; rewrite X; now rewrite <- app_comm_cons|]. split; [apply text_is|exact Q3].
  - intros Ha X. apply NZ in X. destruct (printed_child eps _ tm "mass" He Fm Wm) as (r & Hr & K).
    assert (LL : last_of (text_child "hollow" (if hollow b then tx "true" else tx "false") :: lm ++ ld ++ rest) "mass" (text_child "mass" tm)).
    { exists [text_child "hollow" (if hollow b then tx "true" else tx "false")], (ld ++ rest). split; [unfold lm; rewrite X, Ha; reflexivity|]. split; [apply text_is|]. apply Forall_app. split; [apply Ld; discriminate|exact Q2]. }
    split; [eapply remains_eq; [exact K|]; exact (IM (text_child "mass" tm) r LL Hr)|]. destruct (accurate b') eqn:Y; [|reflexivity]. exfalso. destruct IA as (IA & _). specialize (IA eq_refl). destruct LL as (u & v & Es & Hc & _). unfold none_of in IA. rewrite Es in IA. apply Forall_app in IA. destruct IA as (_ & IA). inversion IA; contradiction.
  - intro Ha. assert (NM : none_of (text_child "hollow" (if hollow b then tx "true" else tx "false") :: lm ++ ld ++ rest) "mass").
    { constructor; [apply text_not; discriminate|]. repeat (apply Forall_app; split); [|apply Ld; discriminate|exact Q2]. unfold lm. rewrite Ha, andb_false_r. constructor. }
    split; [exact (IN NM)|now apply IA].
Qed.
Print Assumptions C127_saved_partial.
(** What is written for a shape can always be loaded. *)
Theorem C127_loads : forall a eps volume b rest n x, machine_eps eps -> finite (GetMass b) -> finite (GetDensity b) -> quiet rest ->
  WritePhysicsShape eps b rest n -> exists b', LoadPhysicsShape a volume x n = Some b'.
Proof.
  intros a eps volume b rest n x He Fm Fd (Q1 & Q2 & Q3) (tm & td & Wm & Wd & ->). unfold LoadPhysicsShape. assert (X : named (shape_element b tm td rest) "shape" = true) by (apply named_iff; do 2 eexists; reflexivity). rewrite X.
  destruct (fold_total (LoadChild a) (children_of (shape_element b tm td rest))) with (x := x) as (y & ->); [|cbn; eauto]. clear x. intros x c Hc.
  assert (G : named c "mass" = true \/ named c "density" = true -> exists q r, ToFloat a (ReadNodeContentDirect c) = Some (q, r)).
  { intro G. destruct (printed_child eps _ tm "mass" He Fm Wm) as (r1 & K1 & _), (printed_child eps _ td "density" He Fd Wd) as (r2 & K2 & _). destruct (read_one a _ _ K1) as (p1 & s1 & E1 & _), (read_one a _ _ K2) as (p2 & s2 & E2 & _).
    cbn [children_of shape_element] in Hc. destruct Hc as [<-|Hc]; [destruct G as [G|G]; discriminate G|]. apply in_app_iff in Hc. destruct Hc as [Hc|Hc]; [destruct (nonzero (GetMass b) && negb (accurate b)); [|destruct Hc]; destruct Hc as [<-|[]]; eauto|].
    apply in_app_iff in Hc. destruct Hc as [Hc|Hc]; [destruct (nonzero (GetDensity b)); [|destruct Hc]; destruct Hc as [<-|[]]; eauto|]. exfalso. unfold none_of in *. rewrite Forall_forall in Q2, Q3. destruct G as [G|G]; apply named_iff in G; [now apply (Q2 c Hc)|now apply (Q3 c Hc)]. }
  unfold LoadChild. destruct (named c "hollow"); [eauto|]. destruct (named c "mass"); [destruct G as (q & r & ->); eauto|]. destruct (named c "density"); [destruct G as (q & r & ->); eauto|eauto].
Qed.
Print Assumptions C127_loads.
Theorem C127_writable : forall eps b rest, machine_eps eps -> exists n, WritePhysicsShape eps b rest n.
Proof. intros eps b rest He. destruct (C78_writable eps (Fin (GetMass b)) He) as (tm & Hm), (C78_writable eps (Fin (GetDensity b)) He) as (td & Hd). eexists. exists tm, td. auto. Qed.
Print Assumptions C127_writable.
(** A shape without mass and density, or whose mass and density are 0, gets the density 1 and the mass of its volume. *)
Definition none_or_zero (o : option Q) : Prop := match o with Some q => (q == 0)%Q | None => True end.
Theorem C127_saved_refuted : forall a eps volume b rest n, machine_eps eps -> quiet rest -> none_or_zero (mass b) -> none_or_zero (density b) ->
  WritePhysicsShape eps b rest n ->
  exists b', LoadPhysicsShape a volume new_body n = Some b' /\ (GetMass b' == volume)%Q /\ (GetDensity b' == 1)%Q /\ accurate b' = true.
Proof.
  intros a eps volume b rest n He HQ Z1 Z2 W.
  assert (Z : forall q, (q == 0)%Q -> finite q /\ nonzero q = false).
  { intros q Hq. split; [|unfold nonzero; rewrite negb_false_iff; now apply Qeq_bool_iff]. apply small_finite. rewrite Hq. vm_compute. discriminate. }
  destruct (Z (GetMass b)) as (F1 & X1); [unfold GetMass; destruct (mass b); [exact Z1|reflexivity]|]. destruct (Z (GetDensity b)) as (F2 & X2); [unfold GetDensity; destruct (density b); [exact Z2|reflexivity]|].
  destruct (C127_loads a eps volume b rest n new_body He F1 F2 HQ W) as (b' & E). exists b'. split; [exact E|]. destruct W as (tm & td & _ & _ & ->). destruct HQ as (Q1 & Q2 & Q3).
  destruct (C127_import a volume _ b' (ex_intro _ [] (ex_intro _ _ eq_refl)) E) as (_ & _ & m & d & Em & Ed & _ & _ & I1 & I2 & _ & I3). unfold GetMass at 1, GetDensity at 1. rewrite Em, Ed. cbn [children_of shape_element] in I1, I2, I3. rewrite X1, X2 in I1, I2, I3.
  assert (N1 : forall k, tx k <> tx "hollow" -> none_of rest k -> none_of (text_child "hollow" (if hollow b then tx "true" else tx "false") :: [] ++ [] ++ rest) k) by (intros k X Y; constructor; [now apply text_not|exact Y]).
  specialize (I2 (N1 "mass"%string ltac:(discriminate) Q2) (N1 "density"%string ltac:(discriminate) Q3)). specialize (I1 (N1 "mass"%string ltac:(discriminate) Q2)). split; [rewrite I1, I2; ring|]. split; [exact I2|]. apply I3. exact (N1 "mass"%string ltac:(discriminate) Q2).
Qed.
Print Assumptions C127_saved_refuted.
(** A shape of mass 5 that is not hollow, with the number printed as "5", and volume 2. *)
Example C127_demo : exists n, WritePhysicsShape eps_float (SetHollow (SetMass new_body 5) false) [] n /\
  option_map (fun b => (hollow b, Qeq_bool (GetMass b) 5, Qeq_bool (GetDensity b) (5 # 2), accurate b)) (LoadPhysicsShape Wrapping 2 new_body n) = Some (false, true, true, false).
Proof.
  eexists. split; [exists (tx "5"), (tx "0"); split; [exact print_5|split; [exact print_0|reflexivity]]|]. vm_compute. reflexivity.
Qed.

(** *** Copies (C128) *)
(** The full claim, false of some shapes: also the flag is the same. *)
Theorem C128_copy_partial : forall b c, let b' := CloneInto b c in
  hollow b' = hollow b /\
  (forall q, mass b = Some q -> GetMass b' = q) /\ (mass b = None -> GetMass b' = GetMass c) /\
  (forall q, density b = Some q -> GetDensity b' = q) /\ (density b = None -> GetDensity b' = GetDensity c) /\
  (mass c = None -> density c = None -> mass b' = mass b /\ density b' = density b).
Proof.
  intros [h m d ac] [h' m' d' ac']. cbn. destruct m as [m|], d as [d|]; cbn; repeat split; intros; subst; try discriminate; try congruence; auto.
Qed.
Print Assumptions C128_copy_partial.
(** The same shape and its copy in a new shape are not written alike: only the copy has the element of the mass. *)
Theorem C128_copy_refuted : forall eps volume b rest n n', machine_eps eps -> accurate b = true -> ~ (GetMass b == 0)%Q -> quiet rest ->
  WritePhysicsShape eps b rest n -> WritePhysicsShape eps (CloneInto b new_body) rest n' ->
  accurate (CloneInto b new_body) = false /\ none_of (children_of n) "mass" /\ (exists c, last_of (children_of n') "mass" c) /\
  forall a b1 b2, LoadPhysicsShape a volume new_body n = Some b1 -> LoadPhysicsShape a volume new_body n' = Some b2 -> accurate b1 = true /\ accurate b2 = false.
Proof.
  intros eps volume b rest n n' He Ha Hm (Q1 & Q2 & Q3) (tm & td & _ & _ & ->) (tm' & td' & _ & _ & ->).
  assert (A : accurate (CloneInto b new_body) = false) by (destruct b as [h [m|] [d|] ac]; reflexivity).
  assert (M : GetMass (CloneInto b new_body) = GetMass b) by (destruct b as [h [m|] [d|] ac]; reflexivity).
  assert (Z : nonzero (GetMass b) = true) by (unfold nonzero; destruct (Qeq_bool (GetMass b) 0) eqn:Y; [apply Qeq_bool_iff in Y; contradiction|reflexivity]).
  assert (Ld : forall (u : bool) t, none_of (if u then [text_child "density" t] else []) "mass") by (intros [|] t; [constructor; [apply text_not; discriminate|]; constructor|constructor]).
  assert (N : none_of (children_of (shape_element b tm td rest)) "mass").
  { cbn [children_of shape_element]. rewrite Ha, andb_false_r. constructor; [apply text_not; discriminate|]. cbn [app]. apply Forall_app. split; [apply Ld|exact Q2]. }
  assert (L : last_of (children_of (shape_element (CloneInto b new_body) tm' td' rest)) "mass" (text_child "mass" tm')).
  { cbn [children_of shape_element]. rewrite A, M, Z. eexists [_], _. split; [reflexivity|]. split; [apply text_is|]. apply Forall_app. split; [apply Ld|exact Q2]. }
  split; [exact A|]. split; [exact N|]. split; [eauto|]. intros a b1 b2 E1 E2.
  destruct (C127_import a volume _ b1 (ex_intro _ [] (ex_intro _ _ eq_refl)) E1) as (_ & _ & m1 & d1 & _ & _ & _ & _ & _ & _ & _ & I1). destruct (C127_import a volume _ b2 (ex_intro _ [] (ex_intro _ _ eq_refl)) E2) as (_ & _ & m2 & d2 & _ & _ & _ & _ & _ & _ & _ & I2).
  split; [now apply I1|]. destruct (accurate b2); [|reflexivity]. exfalso. destruct I2 as (I2 & _). specialize (I2 eq_refl). change (none_of (children_of (shape_element (CloneInto b new_body) tm' td' rest)) "mass") in I2. destruct L as (u & v & Es & Hc & _). unfold none_of in I2. rewrite Es in I2. apply Forall_app in I2. destruct I2 as (_ & I2). inversion I2; contradiction.
Qed.
Print Assumptions C128_copy_refuted.
(** A shape of density 5 and mass 10 whose density is more accurate, copied. *)
Example C128_demo : let b := SetDensityMoreAccurate (SetMass (SetDensity (SetHollow new_body false) 5) 10) true in
  CloneInto b new_body = Body false (Some 10%Q) (Some 5%Q) false /\ accurate b = true /\ ~ (GetMass b == 0)%Q.
Proof. repeat split. discriminate. Qed.
