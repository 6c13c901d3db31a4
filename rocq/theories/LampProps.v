(** C106 (lights written and loaded), C107 (what is loaded from a <light>), C108 (cameras). *)
From Coq Require Import String List ZArith QArith Bool Lia.
From Verif Require Import TextModel TextSpec StringModel StringProofs XmlModel UniqueSpec IdModel IdProps FloatModel FloatSpec FloatProofs FloatWrite FloatProps DaeModel DaeSpec DaeProofs ExtraModel ExtraProps RigSpec RigProofs RigWriteProofs CustomModel CustomSpec CustomProofs CustomNoteProofs CustomProps LampModel LampSpec LampProofs LampWriteProofs NodeSpec LampSafeProofs.
Import ListNotations.
Local Open Scope list_scope.
Local Notation FC := (tx "FCOLLADA").

(** *** C106 *)
Definition target_text (target : option str) : str := match target with Some id => 35%Z :: id | None => [] end.
Lemma tech_same us r loaded : In FC (map fst us) -> with_technique FC (([], us) :: r) loaded -> loaded = ([], us) :: r.
Proof. intros H W. remember (([], us) :: r) as e eqn:E. destruct W as [vs r0 Hin|vs r0 Hin]; [reflexivity|]. injection E as -> ->. contradiction. Qed.
(** The extra tree, the note and the target while the light is written. *)
Lemma light_tree (ps : list (string * str)) ts r note target k attrs before :
  ps <> [] -> (forall q, In q ps -> exists f, fst q = field_name f) -> (forall q, In q ps -> plain (snd q)) ->
  sound_extra (([], ts) :: r) -> plain note -> (forall id, target = Some id -> plain id) -> no_notes (([], ts) :: r) -> no_targets (([], ts) :: r) ->
  (forall n, In n before -> named n "extra" = false /\ named n "technique" = false) ->
  let e1 := ([], with_all (map made ps) ts) :: r in
  exists l e2, WriteTargetedEntityExtra e1 note target = Some (l, e2) /\
    (~ empty_technique FC (([], ts) :: r) -> e2 = e1) /\
    LoadTargetedEntity (Elem k attrs (before ++ l)) = Some (e1, note, target_text target).
Proof.
  intros Hne Hn Hp Se Pn Pt NN NT F e1.
  assert (ND : ~ In [] (map fst r)) by (destruct Se as (_ & ND & _); inversion ND; assumption).
  assert (Hs : forall x, In x (map made ps) -> sound_node x).
  { intros x Hx. apply in_map_iff in Hx. destruct Hx as (q & <- & Hq). destruct (Hn q Hq) as (f & Ef). unfold made. rewrite Ef. apply sound_parameter; [apply plain_field|apply plain_field|now apply Hp]. }
  assert (Hnames : forall x, In x (map made ps) -> exists f t, x = ENode (word f) t [] []).
  { intros x Hx. apply in_map_iff in Hx. destruct Hx as (q & <- & Hq). destruct (Hn q Hq) as (f & Ef). exists f, (snd q). unfold made. now rewrite Ef, clean_field. }
  destruct (C105_entity_partial e1 note target k attrs before []) as (l & e2 & loaded & W & A & L & L1 & L2).
  - destruct Se as (H1 & H2 & H3). split; [reflexivity|]. split; [exact H2|]. intros t [<-|Ht]; [|apply H3; right; exact Ht]. apply sound_with_all; [exact Hs|]. apply H3. left. reflexivity.
  - left. destruct ps as [|p ps]; [congruence|]. cbn [map]. apply data_with_all.
  - exact Pn.
  - exact Pt.
  - intros us q n t a kids x [E|E] H2 Hq Hx.
    + injection E as <-. destruct (kids_with_all _ _ _ _ _ _ _ _ H2 Hx) as [[Hin _]|(n' & t' & a' & kids' & H3 & H4)].
      * destruct (Hnames x Hin) as (f & u & ->). intros (n0 & t0 & a0 & E0 & [E1|E1]); injection E0 as E0 _ _; subst n0; destruct f; vm_compute in E1; discriminate E1.
      * exact (NN ts q n' t' a' kids' x (or_introl eq_refl) H3 Hq H4).
    + exact (NN us q n t a kids x (or_intror E) H2 Hq Hx).
  - intros us q n t a kids m t' a' kids' [E|E] H2 Hx.
    + injection E as <-. destruct (kids_with_all _ _ _ _ _ _ _ _ H2 Hx) as [[Hin _]|(n1 & t1 & a1 & kids1 & H3 & H4)].
      * destruct (Hnames _ Hin) as (f & u & E). injection E as -> _ _ _. destruct f; intro X; vm_compute in X; discriminate X.
      * exact (NT ts q n1 t1 a1 kids1 m t' a' kids' (or_introl eq_refl) H3 H4).
    + exact (NT us q n t a kids m t' a' kids' (or_intror E) H2 Hx).
  - intros n [H|[]]. now apply F.
  - exists l, e2. split; [exact W|]. rewrite app_nil_r in L. split.
    + intro H. apply A. destruct ps as [|p ps]; [congruence|]. cbn [map]. now apply filled_with_all.
    + assert (E : loaded = e1); [|rewrite L, E; reflexivity]. destruct note as [|c note]; [destruct target as [id|]; [|now apply L1]|].
      * apply (tech_same _ _ _ (with_all_has _ _)), L2. right. discriminate.
      * apply (tech_same _ _ _ (with_all_has _ _)), L2. left. discriminate.
Qed.
Lemma extra_fields_some k : exists f l, extra_fields k = f :: l.
Proof. destruct k; cbn; eauto. Qed.
Lemma texts_plain eps l (text : field -> str) : machine_eps eps -> (forall f, finite (value l f)) -> (forall f, appends eps (Fin (value l f)) (text f)) -> forall f, text f <> [] /\ plain (text f).
Proof. intros He Hf Ht f. destruct (printed_text eps _ _ He (Hf f) (Ht f)) as (A & B & _). auto. Qed.
Lemma common_not ch n : In n [Elem (tx "technique_common") [] ch] -> named n "extra" = false /\ named n "technique" = false.
Proof. intros [<-|[]]. split; vm_compute; reflexivity. Qed.
(** The full statement: every light is written and loaded unchanged, with its extra tree, note and target, and writing leaves it as it
    is.  False: see below.  Proved: the values that matter for the kind of light survive, the others become those of a new light. *)
Theorem C106_round_trip_partial : forall a eps attrs l e note target n e',
  machine_eps eps -> proper_light l -> sound_extra e -> plain note -> (forall id, target = Some id -> plain id) ->
  no_notes e -> no_targets e -> no_light_words e ->
  WriteLight eps attrs l e note target n e' ->
  (~ empty_technique (tx "FCOLLADA") e -> e' = e) /\
  exists l' loaded,
    LoadLight a n = Some (l', loaded, note, match target with Some id => 35%Z :: id | None => [] end) /\
    kind l' = kind l /\ color_rel (remains eps) (color l) (color l') /\
    (forall f, matters (kind l) f -> remains eps (value l f) (value l' f)) /\
    (forall f, ~ matters (kind l) f -> value l' f = initial f) /\
    with_technique (tx "FCOLLADA") e loaded.
Proof.
  intros a eps attrs l e note target n e' He (Hc & Hf) Se Pn Pt NN NT (NP & NW) (x & y & z & ct & text & Ec & Hct & Htext & W).
  destruct Hc as (x0 & y0 & z0 & E0 & Fx & Fy & Fz). rewrite E0 in Ec. injection Ec as -> -> ->.
  destruct (first_type e) as (ts & r & Ee); [apply Se|]. subst e.
  assert (TP := texts_plain eps l text He Hf Htext).
  destruct (extra_fields_some (kind l)) as (f0 & fl & Ef). set (ps := map (fun f => (field_name f, text f)) (extra_fields (kind l))) in *.
  assert (Eps : ps = (field_name f0, text f0) :: map (fun f => (field_name f, text f)) fl) by (unfold ps; now rewrite Ef).
  assert (Hps : forall q, In q ps -> exists f, q = (field_name f, text f)) by (intros q Hq; apply in_map_iff in Hq; destruct Hq as (f & <- & _); eauto).
  unfold write_light in W. fold ps in W. rewrite add_parameters_form in W.
  set (common := Elem (tx "technique_common") [] _) in W.
  destruct (light_tree ps ts r note target (tx "light") attrs [common]) as (lx & e2 & Wt & A & L); auto.
  { rewrite Eps. discriminate. }
  { intros q Hq. destruct (Hps q Hq) as (f & ->). exists f. reflexivity. }
  { intros q Hq. destruct (Hps q Hq) as (f & ->). apply TP. }
  { apply common_not. }
  lazymatch type of W with context [WriteTargetedEntityExtra ?x ?y ?z] => replace (WriteTargetedEntityExtra x y z) with (Some (lx, e2)) in W by (symmetry; exact Wt) end.
  destruct (default_then _ e2) as [e3|] eqn:E3 in W; [|discriminate]. cbn [option_map] in W. injection W as <- <-.
  split.
  - intro HE. rewrite (A HE) in E3. rewrite default_first in E3. cbn [fst snd] in E3. injection E3 as <-. do 2 f_equal.
    replace (List.length (extra_fields (kind l))) with (List.length (map made ps)) by (unfold ps; now rewrite !map_length).
    apply released_all. intros n t b Hin. apply HE. exists ts, n, t, b. split; [left; reflexivity|exact Hin].
  - destruct (printed_color eps x y z ct He Fx Fy Fz Hct) as (Cne & Cc & x' & y' & z' & Hn & Rx & Ry & Rz).
    set (s := (tx "color", ct) :: map (fun f => (word f, text f)) (common_fields (kind l))).
    set (tree := tree_parameters (with_all (map made ps) ts)).
    assert (HT : forall f t, In (word f, t) tree <-> In f (extra_fields (kind l)) /\ t = text f).
    { intros f t. unfold tree. rewrite parameters_with_all. unfold ps. rewrite leaves, words_of_fields. split; [|tauto]. intros [H|H]; [|exact H].
      exfalso. apply (NW f). rewrite (tree_of (([], ts) :: r) ts eq_refl). apply in_map_iff. exists (word f, t). auto. }
    assert (HS : forall f t, In (word f, t) s <-> In f (common_fields (kind l)) /\ t = text f).
    { intros f t. unfold s. cbn [In]. rewrite words_of_fields. split; [|tauto]. intros [H|H]; [|exact H]. injection H as H _. exfalso. exact (color_not_word f H). }
    assert (Hset : settings (children_of (Elem (tx (kind_name (kind l))) [] (Elem (tx "color") [] (content (AddContent ct)) :: map (fun f => Elem (tx (field_name f)) [] (content (text f))) (common_fields (kind l))))) s).
    { cbn [children_of]. unfold s. rewrite Cc. apply S_elem.
      - intro X; vm_compute in X; discriminate X.
      - intro X; vm_compute in X; discriminate X.
      - do 3 eexists. split; [reflexivity|]. right. exists []. destruct ct; [congruence|reflexivity].
      - clear -TP. induction (common_fields (kind l)) as [|f fs IH]; cbn [map]; [constructor|]. rewrite word_name. apply S_elem.
        + destruct f; intro X; vm_compute in X; discriminate X.
        + destruct f; intro X; vm_compute in X; discriminate X.
        + do 3 eexists. split; [reflexivity|]. right. exists []. destruct (TP f) as (H & _). destruct (text f); [congruence|reflexivity].
        + exact IH. }
    assert (FD : find default_type (([], with_all (map made ps) ts) :: r) = Some ([], with_all (map made ps) ts)) by reflexivity.
    assert (LF := load_light_form a attrs ([common] ++ lx) _ note (target_text target) common (kind l)
      (Elem (tx (kind_name (kind l))) [] (Elem (tx "color") [] (content (AddContent ct)) :: map (fun f => Elem (tx (field_name f)) [] (content (text f))) (common_fields (kind l)))) s (with_all (map made ps) ts) L).
    specialize (fun A B C => LF A B C Hset FD). specialize (LF ltac:(exists [], lx; split; [reflexivity|split; [do 2 eexists; reflexivity|constructor]])).
    specialize (LF ltac:(exists [], []; split; [reflexivity|split; [exists (kind l); rewrite <- kind_words; do 2 eexists; reflexivity|constructor]])).
    specialize (LF ltac:(rewrite <- kind_words; do 2 eexists; reflexivity)).
    destruct (fold_total (common_step a) s) with (x := start_light (kind l)) as (l1 & E1).
    { apply common_total.
      - intros f t Hin _. apply HS in Hin. destruct Hin as (_ & ->). destruct (printed_number eps _ _ He (Hf f) (Htext f)) as (q & Hq & _). eauto.
      - intros t [Ht|Ht]; [injection Ht as <-; eauto|]. exfalso. apply in_map_iff in Ht. destruct Ht as (f & E & _). injection E as E _. exact (color_not_word f (eq_sym E)). }
    rewrite E1 in LF. fold tree in LF. destruct (fold_total (LoadParameter a) tree) with (x := (l1, @None str)) as ([l2 pen] & E2).
    { apply parameter_total. intros f t Hin. apply HT in Hin. destruct Hin as (_ & ->). destruct (printed_number eps _ _ He (Hf f) (Htext f)) as (q & Hq & _). eauto. }
    rewrite E2 in LF. destruct (penumbra_read a tree l1 l2 pen E2) as (P1 & _).
    assert (pen = None).
    { apply P1. intro H. apply in_map_iff in H. destruct H as ([n t] & E & H). cbn in E. subst n. unfold tree in H. apply parameters_with_all in H. destruct H as [H|H].
      - apply NP. rewrite (tree_of (([], ts) :: r) ts eq_refl). apply in_map_iff. exists (tx "penumbra_angle", t). auto.
      - unfold ps in H. rewrite leaves in H. apply in_map_iff in H. destruct H as (f & E & _). injection E as E _. exact (penumbra_not_word f (eq_sym E)). }
    subst pen. rewrite default_first in LF. cbn [fst option_map] in LF. exists l2. eexists. split; [exact LF|].
    destruct (color_read a s tree _ l1 l2 None E1 E2) as (K & C & _). split; [exact K|]. split.
    + rewrite E0. destruct (C ct x' y' z') as (u1 & u2 & u3 & v1 & v2 & v3 & X1 & X2 & Q1 & Q2 & Q3).
      * apply last_unique; [left; reflexivity|]. intros t [Ht|Ht]; [now injection Ht as <-|]. exfalso. apply in_map_iff in Ht. destruct Ht as (f & E & _). injection E as E _. exact (color_not_word f (eq_sym E)).
      * exact Hn.
      * injection X1 as <- <- <-. exists x, y, z, v1, v2, v3. split; [reflexivity|]. split; [exact X2|]. split; [|split]; eapply remains_eq; eauto.
    + assert (V := fun f => values_read a s tree _ l1 l2 None f E1 E2). split; [|split].
      * intros f M. apply matters_fields in M. destruct (printed_number eps _ _ He (Hf f) (Htext f)) as (q & Hq & Rq). destruct (V f) as (V1 & _).
        apply remains_eq with (r := q); [exact Rq|]. apply V1. destruct M as [M|M].
        -- apply SetByElement with (t := text f); [|now apply (common_standard (kind l))| |exact Hq].
           ++ intro H. apply in_map_iff in H. destruct H as ([n t] & E & H). cbn in E. subst n. apply HT in H. destruct H as (H & _). exact (fields_apart _ _ M H).
           ++ apply last_unique; [now apply HS|]. intros t' Ht'. now apply HS in Ht'.
        -- apply SetInTree with (t := text f); [|exact Hq]. apply last_unique; [now apply HT|]. intros t' Ht'. now apply HT in Ht'.
      * intros f M. destruct (V f) as (_ & V2). rewrite V2; [destruct f; reflexivity|]. split.
        -- intro H. apply in_map_iff in H. destruct H as ([n t] & E & H). cbn in E. subst n. apply HT in H. apply M, matters_fields. tauto.
        -- intros _ H. apply in_map_iff in H. destruct H as ([n t] & E & H). cbn in E. subst n. apply HS in H. apply M, matters_fields. tauto.
      * rewrite drop_with_all; [apply add_technique_with| |].
        -- intros k Hk. apply in_map_iff in Hk. destruct Hk as (q & <- & Hq). destruct (Hps q Hq) as (f & ->). unfold made, is_value. cbn [fst snd leaf]. rewrite clean_field.
           now rewrite (proj2 (field_of_iff (word f) f) eq_refl).
        -- intros f H. apply (NW f). now rewrite (tree_of (([], ts) :: r) ts eq_refl).
Qed.
Print Assumptions C106_round_trip_partial.
(** Every light with a colour can be written. *)
Lemma entity_default e note l e' ts : WriteEntityExtra e note = Some (l, e') -> find default_type e = Some ([], ts) -> exists us, find default_type e' = Some ([], us).
Proof.
  unfold WriteEntityExtra. destruct note; [intro H; injection H as _ <-; eauto|]. destruct (with_parameter _ _ e) as [e1|]; [|discriminate].
  destruct (without_parameter e1) as [e2|] eqn:E; [|discriminate]. cbn. intro H. injection H as _ <-. intros _. eapply then_default; [|exact E]. reflexivity.
Qed.
Lemma written_default e note target l e' ts : WriteTargetedEntityExtra e note target = Some (l, e') -> find default_type e = Some ([], ts) -> exists us, find default_type e' = Some ([], us).
Proof.
  unfold WriteTargetedEntityExtra. destruct target as [id|]; [|apply entity_default]. destruct (with_parameter _ _ e) as [e1|]; [|discriminate].
  destruct (WriteEntityExtra e1 note) as [[l0 e2]|]; [|discriminate]. destruct (without_parameter e2) as [e3|] eqn:E; [|discriminate]. cbn. intro H. injection H as _ <-.
  intros _. eapply then_default; [|exact E]. reflexivity.
Qed.
Theorem C106_writable : forall eps attrs l e note target,
  machine_eps eps -> proper_light l -> sound_extra e -> plain note -> (forall id, target = Some id -> plain id) -> no_notes e -> no_targets e ->
  exists n e', WriteLight eps attrs l e note target n e'.
Proof.
  intros eps attrs l e note target He (Hc & Hf) Se Pn Pt NN NT. destruct Hc as (x & y & z & E0 & Fx & Fy & Fz).
  destruct (floats_writable eps [x; y; z] He) as (ct & Hct).
  assert (X : exists text, forall f, appends eps (Fin (value l f)) (text f)).
  { destruct (C78_writable eps (Fin (value l Constant)) He) as (t1 & H1). destruct (C78_writable eps (Fin (value l Linear)) He) as (t2 & H2).
    destruct (C78_writable eps (Fin (value l Quadratic)) He) as (t3 & H3). destruct (C78_writable eps (Fin (value l FallOffAngle)) He) as (t4 & H4).
    destruct (C78_writable eps (Fin (value l FallOffExponent)) He) as (t5 & H5). destruct (C78_writable eps (Fin (value l Intensity)) He) as (t6 & H6).
    destruct (C78_writable eps (Fin (value l Outer)) He) as (t7 & H7). destruct (C78_writable eps (Fin (value l Dropoff)) He) as (t8 & H8).
    exists (fun f => match f with Constant => t1 | Linear => t2 | Quadratic => t3 | FallOffAngle => t4 | FallOffExponent => t5 | Intensity => t6 | Outer => t7 | Dropoff => t8 end).
    intros []; assumption. }
  destruct X as (text & Htext). assert (TP := texts_plain eps l text He Hf Htext).
  destruct (first_type e) as (ts & r & Ee); [apply Se|]. subst e.
  destruct (extra_fields_some (kind l)) as (f0 & fl & Ef). set (ps := map (fun f => (field_name f, text f)) (extra_fields (kind l))).
  assert (Hps : forall q, In q ps -> exists f, q = (field_name f, text f)) by (intros q Hq; apply in_map_iff in Hq; destruct Hq as (f & <- & _); eauto).
  destruct (light_tree ps ts r note target (tx "light") attrs []) as (lx & e2 & Wt & A & L); auto.
  { unfold ps. rewrite Ef. discriminate. }
  { intros q Hq. destruct (Hps q Hq) as (f & ->). exists f. reflexivity. }
  { intros q Hq. destruct (Hps q Hq) as (f & ->). apply TP. }
  { intros n []. }
  assert (Y : exists e3, default_then (fun t => (fst t, release_parameters (List.length (extra_fields (kind l))) (snd t))) e2 = Some e3).
  { cut (exists us, find default_type e2 = Some ([], us)); [intros (us & F); exact (find_then _ _ _ F)|].
    eapply written_default; [exact Wt|reflexivity]. }
  destruct Y as (e3 & E3). eexists _, e3. exists x, y, z, ct, text. split; [exact E0|]. split; [exact Hct|]. split; [exact Htext|].
  unfold write_light. fold ps. rewrite add_parameters_form.
  lazymatch goal with |- context [WriteTargetedEntityExtra ?x ?y ?z] => replace (WriteTargetedEntityExtra x y z) with (Some (lx, e2)) by (symmetry; exact Wt) end.
  rewrite E3. cbn [option_map]. reflexivity.
Qed.
Print Assumptions C106_writable.
(** A desk lamp. *)
Ltac digits_are ds x := exists (tx ds), x; split; [apply exact_nearest; try reflexivity; try (repeat constructor); vm_compute; discriminate|reflexivity].
Lemma print_0 : appends eps_float (Fin 0) (tx "0"). Proof. reflexivity. Qed.
Lemma print_1 : appends eps_float (Fin 1) (tx "1"). Proof. exists (tx "1"). split; [|reflexivity]. digits_are "100000"%string 0%Z. Qed.
Lemma print_half : appends eps_float (Fin (1 # 2)) (tx "0.5"). Proof. exists (tx "0.5"). split; [|reflexivity]. digits_are "500000"%string (-1)%Z. Qed.
Lemma print_5 : appends eps_float (Fin 5) (tx "5"). Proof. exists (tx "5"). split; [|reflexivity]. digits_are "500000"%string 0%Z. Qed.
Lemma print_45 : appends eps_float (Fin 45) (tx "45"). Proof. exists (tx "45"). split; [|reflexivity]. digits_are "450000"%string 1%Z. Qed.
Lemma print_60 : appends eps_float (Fin 60) (tx "60"). Proof. exists (tx "60"). split; [|reflexivity]. digits_are "600000"%string 1%Z. Qed.
Definition lamp_value (f : field) : Q :=
  match f with Constant | Linear => 1 # 2 | Quadratic => 0 | FallOffAngle => 45 | FallOffExponent => 1 | Intensity => 5 | Outer => 60 | Dropoff => 1 # 2 end.
Definition lamp_text (f : field) : str :=
  match f with Constant | Linear => tx "0.5" | Quadratic => tx "0" | FallOffAngle => tx "45" | FallOffExponent => tx "1" | Intensity => tx "5" | Outer => tx "60" | Dropoff => tx "0.5" end.
Definition lamp (k : lkind) : light := Light k (Some (1, 1 # 2, 0)%Q) lamp_value.
Lemma lamp_written k attrs e note target n e' : write_light attrs k (tx "1 0.5 0") lamp_text e note target = Some (n, e') -> WriteLight eps_float attrs (lamp k) e note target n e'.
Proof.
  intro H. exists 1%Q, (1 # 2)%Q, 0%Q, (tx "1 0.5 0"), lamp_text. split; [reflexivity|]. split; [|split; [|exact H]].
  - change (tx "1 0.5 0") with ([] ++ tx "1" ++ 32%Z :: tx "0.5" ++ 32%Z :: tx "0" ++ []). apply (TS_cons eps_float []); [apply print_1|].
    apply AR_cons; [apply print_half|]. apply AR_cons; [apply print_0|apply AR_nil].
  - intros []; [apply print_half|apply print_half|apply print_0|apply print_45|apply print_1|apply print_5|apply print_60|apply print_half].
Qed.
Lemma lamp_proper k : proper_light (lamp k).
Proof.
  assert (S : forall q, (Qabs.Qabs q <= Qpower 10 3)%Q -> finite q) by (intros q H; apply Qle_trans with (1 := H); apply p10_le; lia).
  split; [exists 1%Q, (1 # 2)%Q, 0%Q; repeat split; try reflexivity; apply S; vm_compute; discriminate|]. intros []; apply S; vm_compute; discriminate.
Qed.
Definition saved_lamp (k : lkind) (e : extra) (note : str) (target : option str) :=
  match write_light [] k (tx "1 0.5 0") lamp_text e note target with
  | Some (n, e') => match LoadLight Strict n with Some (l, loaded, note', target') => Some (e', kind l, color l, map (value l) [Constant; Linear; Quadratic; FallOffAngle; FallOffExponent; Intensity; Outer; Dropoff], loaded, note', target') | None => None end
  | None => None
  end.
Example C106_demo :
  saved_lamp SPOT lamp_data (tx "a lamp") (Some (tx "node-1")) =
    Some (lamp_data, SPOT, Some (1, 5 # 10, 0)%Q, [5 # 10; 5 # 10; 0; 45; 1; 5; 60; 5 # 10]%Q,
          [([], [(tx "MY_TOOL", ENode [] [] [] [ENode (tx "a") (tx "1") [] []]); (tx "FCOLLADA", ENode [] [] [] [])]); (tx "x", [])], tx "a lamp", tx "#node-1") /\
  (exists n e', WriteLight eps_float [] (lamp SPOT) lamp_data (tx "a lamp") (Some (tx "node-1")) n e') /\
  machine_eps eps_float /\ proper_light (lamp SPOT) /\ sound_extra lamp_data /\ no_notes lamp_data /\ no_targets lamp_data /\ no_light_words lamp_data.
Proof.
  destruct C105_demo as (_ & _ & _ & S & _ & N & T & _).
  split; [vm_compute; reflexivity|]. split; [do 2 eexists; apply lamp_written; vm_compute; reflexivity|].
  split; [now left|]. split; [apply lamp_proper|]. repeat (split; [assumption|]). split.
  - intros [H|[]]. vm_compute in H. discriminate H.
  - intros f [H|[]]. destruct f; vm_compute in H; discriminate H.
Qed.
(** Refuted: all the values of a light survive.  The values that the kind of light has no use for are not written (FAXLightExport.cpp:44-99):
    changing a spot light to a point light, saving and loading loses its cone. *)
Theorem C106_fields_refuted : exists n, WriteLight eps_float [] (lamp POINT) new_extra [] None n new_extra /\
  exists l e note target, LoadLight Strict n = Some (l, e, note, target) /\
    map (value (lamp POINT)) [FallOffAngle; Outer; Dropoff] = [45; 60; 1 # 2]%Q /\ map (value l) [FallOffAngle; Outer; Dropoff] = [5; 5; 0]%Q.
Proof.
  eexists. split; [apply lamp_written; vm_compute; reflexivity|]. do 4 eexists. split; [vm_compute; reflexivity|]. split; vm_compute; reflexivity.
Qed.
(** Refuted: the user's own parameters and the values of the light do not meet.  LoadLight looks for "intensity" etc. in the techniques of
    all profiles and releases the nodes (FAXLightImport.cpp:101-173): here the user's intensity of 7 becomes the light's and their
    parameter is gone. *)
Definition rival_data : extra :=
  [([], [(tx "FCOLLADA", ENode [] [] [] [ENode (tx "keep") (tx "1") [] []]); (tx "MY_TOOL", ENode [] [] [] [ENode (tx "intensity") (tx "7") [] []])])].
Theorem C106_words_refuted : exists n, WriteLight eps_float [] (lamp SPOT) rival_data [] None n rival_data /\
  exists l note target, LoadLight Strict n =
    Some (l, [([], [(tx "FCOLLADA", ENode [] [] [] [ENode (tx "keep") (tx "1") [] []]); (tx "MY_TOOL", ENode [] [] [] [])])], note, target) /\
    value (lamp SPOT) Intensity = 5%Q /\ value l Intensity = 7%Q.
Proof.
  eexists. split; [apply lamp_written; vm_compute; reflexivity|]. do 3 eexists. split; [vm_compute; reflexivity|]. split; vm_compute; reflexivity.
Qed.
(** Refuted: writing leaves the light as it is.  An FCOLLADA technique without nodes is released (FAXLightExport.cpp:103-104); loading a
    light leaves such a technique behind. *)
Theorem C106_release_refuted : exists n, WriteLight eps_float [] (lamp SPOT) [([], [(tx "FCOLLADA", ENode [] [] [] [])])] [] None n [([], [])].
Proof. eexists. apply lamp_written. vm_compute. reflexivity. Qed.
Print Assumptions C106_fields_refuted.
Print Assumptions C106_words_refuted.
Print Assumptions C106_release_refuted.

(** *** C107 *)
(** What is loaded from a document of any tool: the last element of each name counts, the extra parameters of all techniques go before the
    elements, everything that is not given is as in a new light. *)
Theorem C107_import : forall a attrs ch e note target c k p s,
  LoadTargetedEntity (Elem (tx "light") attrs ch) = Some (e, note, target) ->
  first_child ch (is_elem "technique_common") c ->
  first_child (children_of c) (fun d => exists k, is_elem (kind_word k) d) p -> is_elem (kind_word k) p ->
  settings (children_of p) s -> readable s (tree_settings e) -> ~ In (tx "penumbra_angle") (map fst (tree_settings e)) ->
  exists l e', LoadLight a (Elem (tx "light") attrs ch) = Some (l, e', note, target) /\
    kind l = k /\
    (forall f q, is_set s (tree_settings e) f q -> (value l f == q)%Q) /\
    (forall f, not_set s (tree_settings e) f -> value l f = initial f) /\
    (forall t x y z, last_setting s (tx "color") t -> three_numbers t x y z -> color_rel (fun u v => v == u)%Q (Some (x, y, z)) (color l)) /\
    (~ In (tx "color") (map fst s) -> color l = Some (1, 1, 1)%Q) /\
    without_values e e'.
Proof.
  intros a attrs ch e note target c k p s HL Hc Hp Hk Hs (R1 & R2 & R3 & R4) NP. destruct (loaded_default _ _ _ _ HL) as (ts & Hf).
  rewrite (tree_of e ts Hf) in *. assert (LF := load_light_form a attrs ch e note target c k p s ts HL Hc Hp Hk Hs Hf).
  destruct (fold_total (common_step a) s) with (x := start_light k) as (l1 & E1); [now apply common_total|]. rewrite E1 in LF.
  destruct (fold_total (LoadParameter a) (tree_parameters ts)) with (x := (l1, @None str)) as ([l2 pen] & E2); [now apply parameter_total|]. rewrite E2 in LF.
  destruct (penumbra_read _ _ _ _ _ E2) as (P & _). rewrite (P NP) in *. destruct (dropped e ts Hf) as (e' & Ed & We). rewrite Ed in LF. cbn [option_map] in LF.
  exists l2, e'. split; [exact LF|]. destruct (color_read _ _ _ _ _ _ _ E1 E2) as (K & C1 & C2). split; [exact K|].
  split; [intros f q Hq; now apply (values_read _ _ _ _ _ _ _ f E1 E2)|]. split.
  - intros f Hn. destruct (values_read _ _ _ _ _ _ _ f E1 E2) as (_ & V). rewrite (V Hn). destruct f; reflexivity.
  - split; [exact C1|]. split; [exact C2|exact We].
Qed.
Print Assumptions C107_import.
(** The penumbra of ColladaMax and Maya documents: the outer cone is the angle and twice the penumbra; with a negative penumbra the angle of
    the document is the outer one. *)
Theorem C107_penumbra : forall a attrs ch e note target c k p s t q,
  LoadTargetedEntity (Elem (tx "light") attrs ch) = Some (e, note, target) ->
  first_child ch (is_elem "technique_common") c ->
  first_child (children_of c) (fun d => exists k, is_elem (kind_word k) d) p -> is_elem (kind_word k) p ->
  settings (children_of p) s -> readable s (tree_settings e) ->
  last_setting (tree_settings e) (tx "penumbra_angle") t -> one_number t q ->
  exists l e', LoadLight a (Elem (tx "light") attrs ch) = Some (l, e', note, target) /\
    kind l = k /\
    (forall angle, is_set s (tree_settings e) FallOffAngle angle \/ not_set s (tree_settings e) FallOffAngle /\ angle = initial FallOffAngle ->
       ((0 <= q)%Q -> (value l FallOffAngle == angle)%Q /\ (value l Outer == angle + 2 * q)%Q) /\
       ((q < 0)%Q -> (value l FallOffAngle == angle + 2 * q)%Q /\ (value l Outer == angle)%Q)) /\
    (forall f, f <> FallOffAngle -> f <> Outer ->
       (forall v, is_set s (tree_settings e) f v -> (value l f == v)%Q) /\ (not_set s (tree_settings e) f -> value l f = initial f)).
Proof.
  intros a attrs ch e note target c k p s t q HL Hc Hp Hk Hs (R1 & R2 & R3 & R4) HP Hq. destruct (loaded_default _ _ _ _ HL) as (ts & Hf).
  rewrite (tree_of e ts Hf) in *. assert (LF := load_light_form a attrs ch e note target c k p s ts HL Hc Hp Hk Hs Hf).
  destruct (fold_total (common_step a) s) with (x := start_light k) as (l1 & E1); [now apply common_total|]. rewrite E1 in LF.
  destruct (fold_total (LoadParameter a) (tree_parameters ts)) with (x := (l1, @None str)) as ([l2 pen] & E2); [now apply parameter_total|]. rewrite E2 in LF.
  destruct (penumbra_read _ _ _ _ _ E2) as (_ & P). rewrite (P t HP) in *. destruct (read_one a t q Hq) as (v & rest & Ev & Hv). rewrite Ev in LF.
  match type of LF with context [default_then ?g e] => destruct (find_then g e ts Hf) as (e' & Ed) end. rewrite Ed in LF. cbn [option_map] in LF.
  exists (LoadPenumbra l2 v), e'. split; [exact LF|]. destruct (color_read _ _ _ _ _ _ _ E1 E2) as (K & _).
  assert (V := fun f => values_read _ _ _ _ _ _ _ f E1 E2).
  assert (I : forall f, value (start_light k) f = initial f) by (intros []; reflexivity).
  unfold LoadPenumbra. destruct (Qle_bool 0 v) eqn:Eb.
  - apply Qle_bool_iff in Eb. split; [exact K|]. split.
    + intros angle Ha. assert (A : (value l2 FallOffAngle == angle)%Q).
      { destruct (V FallOffAngle) as (V1 & V2). destruct Ha as [Ha|(Ha & ->)]; [now apply V1|]. rewrite (V2 Ha), I. reflexivity. }
      cbn [value set_value field_eq]. split; [|intro X; rewrite Hv in Eb; exfalso; exact (Qlt_not_le _ _ X Eb)]. intros _. split; [exact A|]. rewrite A, Hv. reflexivity.
    + intros f N1 N2. destruct (V f) as (V1 & V2). rewrite I in V2. destruct f; try congruence; cbn [value set_value field_eq]; auto.
  - assert (Hneg : (v < 0)%Q) by (apply Qnot_le_lt; intro X; apply Qle_bool_iff in X; congruence). split; [exact K|]. split.
    + intros angle Ha. assert (A : (value l2 FallOffAngle == angle)%Q).
      { destruct (V FallOffAngle) as (V1 & V2). destruct Ha as [Ha|(Ha & ->)]; [now apply V1|]. rewrite (V2 Ha), I. reflexivity. }
      cbn [value set_value field_eq]. split; [intro X; rewrite <- Hv in X; exfalso; exact (Qlt_not_le _ _ Hneg X)|]. intros _. split; rewrite A, Hv; ring.
    + intros f N1 N2. destruct (V f) as (V1 & V2). rewrite I in V2. destruct f; try congruence; cbn [value set_value field_eq]; auto.
Qed.
Print Assumptions C107_penumbra.
(** No document with a <technique_common> and without the letter I (for the spellings of infinity) in its texts makes the import fail. *)
Theorem C107_safe : forall n c, calm n -> first_child (children_of n) (is_elem "technique_common") c ->
  (forall e note target, LoadTargetedEntity n = Some (e, note, target) -> forall k t, In (k, t) (tree_settings e) -> ~ In 73%Z t) ->
  exists r, LoadLight Wrapping n = Some r.
Proof.
  intros n c Cn Hc Ht. unfold LoadLight. destruct (entity_total n) as (e & note & target & HL). rewrite HL. destruct (loaded_default _ _ _ _ HL) as (ts & Hf).
  specialize (Ht _ _ _ HL). rewrite (tree_of e ts Hf) in Ht. destruct (named n "light"); cbn [negb]; [|eauto].
  unfold FindChildByType. rewrite (find_elem_named _ _ _ Hc).
  assert (Cc : calm c) by (destruct Hc as (pre & post & E & _); apply (calm_children n); [exact Cn|rewrite E; apply in_elt]).
  assert (X : exists l0 ps, match find_kind (children_of c) with Some (k, p) => (Light k (color new_light) (value new_light), FindParameters p) | None => (new_light, []) end = (l0, ps) /\ forall d, In d ps -> calm d).
  { destruct (find_kind (children_of c)) as [[k p]|] eqn:Ek; do 2 eexists; (split; [reflexivity|]); [|intros d []]. intros d Hd. apply (parameters_calm p); [|exact Hd].
    apply (calm_children c); [exact Cc|]. exact (find_kind_in _ _ _ Ek). }
  destruct X as (l0 & ps & -> & Hps). destruct (fold_total (LoadCommon Wrapping) ps) with (x := l0) as (l1 & E1); [intros x b Hb; apply common_safe, Hps, Hb|]. rewrite E1.
  match goal with |- context [find ?g e] => change (find g e) with (find default_type e) end. rewrite Hf.
  destruct (fold_total (LoadParameter Wrapping) (tree_parameters ts)) with (x := (l1, @None str)) as ([l2 pen] & E2).
  { intros x [k t] Hp. apply parameter_safe. exact (Ht k t Hp). }
  rewrite E2. destruct pen as [t|].
  - destruct (penumbra_text _ _ _ _ _ E2) as (k & Hk). destruct (float_safe t (Ht k t Hk)) as (q & u & ->).
    match goal with |- context [default_then ?g e] => destruct (find_then g e ts Hf) as (e' & ->) end. cbn. eauto.
  - match goal with |- context [default_then ?g e] => destruct (find_then g e ts Hf) as (e' & ->) end. cbn. eauto.
Qed.
Print Assumptions C107_safe.
(** Refuted without the <technique_common>: the missing element is dereferenced (FAXLightImport.cpp:28-31). *)
Theorem C107_common_refuted : forall a attrs, LoadLight a (Elem (tx "light") attrs []) = None.
Proof. intros a attrs. vm_compute. reflexivity. Qed.
(** Refuted: after the import the light has a colour.  For an empty <color> the vector is not initialised (FUStringConversion.hpp:222-236). *)
Definition element (k t : string) : xml := Elem (tx k) [] (content (tx t)).
Definition with_common (k : string) (l more : list xml) : xml := Elem (tx "light") [] (Elem (tx "technique_common") [] [Elem (tx k) [] l] :: more).
Theorem C107_color_refuted : forall a, exists l e note target,
  LoadLight a (with_common "point" [Elem (tx "color") [] []] []) = Some (l, e, note, target) /\ color l = None.
Proof. intro a. do 4 eexists. split; vm_compute; reflexivity. Qed.
(** Refuted: an outer cone that the document gives is the light's, and the parameters that are used are removed from the tree.  Next to a
    penumbra the outer cone is ignored, and of two penumbras the first one stays in the tree. *)
Definition old_technique (p : string) (l : list xml) : xml := Elem (tx "extra") [] [Elem (tx "technique") [(tx "profile", tx p)] l].
Theorem C107_penumbra_refuted : exists l e note target,
  LoadLight Strict (with_common "spot" [element "falloff_angle" "45"]
     [old_technique "MAX3D" [element "outer_cone" "80"; element "penumbra_angle" "3"]; old_technique "MAYA" [element "penumbra_angle" "5"]]) = Some (l, e, note, target) /\
  (value l Outer == 55)%Q /\ tree_settings e = [(tx "penumbra_angle", tx "3")].
Proof. do 4 eexists. split; [vm_compute; reflexivity|]. split; vm_compute; reflexivity. Qed.
Print Assumptions C107_common_refuted.
Print Assumptions C107_color_refuted.
Print Assumptions C107_penumbra_refuted.
(** A document of another tool that meets the hypotheses of C107_import, and one with a penumbra. *)
Lemma whole_number ds : Forall is_digit ds -> ds <> [] -> one_number ds (inject_Z (number ds) * Qpower 10 0).
Proof.
  intros Hd Hne. unfold one_number. replace ds with ([] ++ (ds ++ []) ++ [] ++ []) at 1 by now rewrite !app_nil_r. apply N_cons; [constructor| | |constructor].
  - apply F_positive; [now apply M_integer|constructor].
  - split; [constructor|]. split; [auto|exact I].
Qed.
Lemma whole_ones x y z : is_digit x -> is_digit y -> is_digit z ->
  three_numbers [x; 32; y; 32; z]%Z (inject_Z (number [x]) * Qpower 10 0) (inject_Z (number [y]) * Qpower 10 0) (inject_Z (number [z]) * Qpower 10 0).
Proof.
  assert (G : forall c, is_digit c -> float_text [c] (inject_Z (number [c]) * Qpower 10 0)).
  { intros c H. change [c] with ([c] ++ []) at 1. apply F_positive; [apply M_integer; [now constructor|discriminate]|constructor]. }
  intros Hx Hy Hz. unfold three_numbers. change [x; 32; y; 32; z]%Z with ([] ++ [x] ++ [32%Z] ++ ([] ++ [y] ++ [32%Z] ++ ([] ++ [z] ++ [] ++ []))).
  assert (B : forall c r, is_digit c -> gap [32%Z] (c :: r)).
  { intros c r H. split; [constructor; [left; reflexivity|constructor]|]. split; [discriminate|]. unfold is_digit in H. cbn. unfold blank_or_cr, blank. lia. }
  apply N_cons; [constructor|now apply G|apply (B y); exact Hy|]. apply N_cons; [constructor|now apply G|apply (B z); exact Hz|]. apply N_cons; [constructor|now apply G| |constructor].
  split; [constructor|]. split; [auto|exact I].
Qed.
Definition foreign_light : xml :=
  with_common "directional" [element "color" "1 0 2"; Text (tx " "); element "falloff_angle" "45"; element "falloff_angle" "30"; element "linear_attenuation" "2"]
    [old_technique "MAX3D" [element "outer_cone" "80"; element "linear_attenuation" "3"; element "other" "x"]].
Definition foreign_settings : list (str * str) :=
  [(tx "color", tx "1 0 2"); (tx "falloff_angle", tx "45"); (tx "falloff_angle", tx "30"); (tx "linear_attenuation", tx "2")].
Lemma digits_all t : forallb (fun c => (48 <=? c) && (c <=? 57))%Z t = true -> Forall is_digit t.
Proof. intro H. rewrite forallb_forall in H. apply Forall_forall. intros c Hc. specialize (H c Hc). unfold is_digit. lia. Qed.
Example C107_demo : exists e c p,
  LoadTargetedEntity foreign_light = Some (e, [], []) /\
  first_child (children_of foreign_light) (is_elem "technique_common") c /\
  first_child (children_of c) (fun d => exists k, is_elem (kind_word k) d) p /\ is_elem (kind_word DIRECTIONAL) p /\
  settings (children_of p) foreign_settings /\ readable foreign_settings (tree_settings e) /\ ~ In (tx "penumbra_angle") (map fst (tree_settings e)) /\
  (exists q, is_set foreign_settings (tree_settings e) FallOffAngle q /\ q == 30)%Q /\ (exists q, is_set foreign_settings (tree_settings e) Linear q /\ q == 3)%Q /\
  (exists q, is_set foreign_settings (tree_settings e) Outer q /\ q == 80)%Q /\ not_set foreign_settings (tree_settings e) Constant.
Proof.
  do 3 eexists. split; [vm_compute; reflexivity|]. split; [exists []; eexists; split; [reflexivity|]; split; [do 2 eexists; reflexivity|constructor]|].
  split; [exists []; eexists; split; [reflexivity|]; split; [exists DIRECTIONAL; do 2 eexists; reflexivity|constructor]|]. split; [do 2 eexists; reflexivity|].
  split. { cbn [children_of]. unfold foreign_settings, element. repeat first [apply S_nil | apply S_text | apply S_elem; [intro X; vm_compute in X; discriminate X|intro X; vm_compute in X; discriminate X|do 3 eexists; split; [reflexivity|right; eexists; reflexivity]|]]. }
  assert (N : forall t, forallb (fun c => (48 <=? c) && (c <=? 57))%Z t = true -> t <> [] -> one_number t (inject_Z (number t) * Qpower 10 0)) by (intros t H1 H2; apply whole_number; [now apply digits_all|exact H2]).
  split. { split; [|split; [|split]].
    - intros f t [H|[H|[H|[H|[]]]]] _; injection H as E <-; [exfalso; destruct f; vm_compute in E; discriminate E|eexists; apply N; [reflexivity|discriminate]..].
    - intros t [H|[H|[H|[H|[]]]]]; [|exfalso; vm_compute in H; discriminate H..]. injection H as <-. do 3 eexists. apply whole_ones; unfold is_digit; lia.
    - intros f t [H|[H|[H|[]]]]; injection H as E <-; [eexists; apply N; [reflexivity|discriminate]..|]. exfalso. destruct f; vm_compute in E; discriminate E.
    - intros t [H|[H|[H|[]]]]; exfalso; vm_compute in H; discriminate H. }
  split. { intros [H|[H|[H|[]]]]; vm_compute in H; discriminate H. }
  split. { eexists. split; [apply SetByElement with (t := tx "30"); [| |exists [(tx "color", tx "1 0 2"); (tx "falloff_angle", tx "45")], [(tx "linear_attenuation", tx "2")]; split; [reflexivity|]|apply N; [reflexivity|discriminate]]|vm_compute; reflexivity].
    - intros [H|[H|[H|[]]]]; vm_compute in H; discriminate H.
    - exact I.
    - intros [H|[]]; vm_compute in H; discriminate H. }
  split. { eexists. split; [apply SetInTree with (t := tx "3"); [exists [(tx "outer_cone", tx "80")], [(tx "other", tx "x")]; split; [vm_compute; reflexivity|]|apply N; [reflexivity|discriminate]]|vm_compute; reflexivity].
    intros [H|[]]; vm_compute in H; discriminate H. }
  split. { eexists. split; [apply SetInTree with (t := tx "80"); [exists [], [(tx "linear_attenuation", tx "3"); (tx "other", tx "x")]; split; [vm_compute; reflexivity|]|apply N; [reflexivity|discriminate]]|vm_compute; reflexivity].
    intros [H|[H|[]]]; vm_compute in H; discriminate H. }
  split; [intros [H|[H|[H|[]]]]; vm_compute in H; discriminate H|]. intros _ [H|[H|[H|[H|[]]]]]; vm_compute in H; discriminate H.
Qed.
Example C107_penumbra_demo : exists e,
  LoadTargetedEntity (with_common "spot" [element "falloff_angle" "45"] [old_technique "MAX3D" [element "penumbra_angle" "5"]]) = Some (e, [], []) /\
  last_setting (tree_settings e) (tx "penumbra_angle") (tx "5") /\ one_number (tx "5") (inject_Z (number (tx "5")) * Qpower 10 0) /\
  exists l e' note target, LoadLight Strict (with_common "spot" [element "falloff_angle" "45"] [old_technique "MAX3D" [element "penumbra_angle" "5"]]) = Some (l, e', note, target) /\
    (value l FallOffAngle == 45)%Q /\ (value l Outer == 55)%Q /\ tree_settings e' = [].
Proof.
  eexists. split; [vm_compute; reflexivity|]. split; [exists [], []; split; [reflexivity|intros []]|]. split; [apply whole_number; [apply digits_all; reflexivity|discriminate]|].
  do 4 eexists. split; [vm_compute; reflexivity|]. repeat split; vm_compute; reflexivity.
Qed.
