(** C119 (what is loaded from the COMMON profile of a document), C120 (opacity and reflectivity), C121 (copies of standard effects). *)
From Coq Require Import String List ZArith QArith Bool Lia Lqa.
From Verif Require Import TextModel TextSpec StringModel StringProofs XmlModel IdModel FloatModel FloatSpec DaeModel DaeSpec DaeProofs RigSpec RigProofs NodeSpec CustomModel LampModel LampSpec LampProofs LampCameraProps AnimModel ShadeModel ShadeSpec ShadeProofs ShadeWriteProofs ShadeProps.
Import ListNotations.
Local Open Scope list_scope.

(** *** C119 *)
Lemma found_none n k : no_child n k -> FindChildByType n k = None.
Proof. intro H. unfold FindChildByType. destruct (find _ _) as [c|] eqn:E; [|reflexivity]. apply find_some in E. destruct E as (I1 & E). apply named_iff in E. unfold no_child in H. rewrite Forall_forall in H. exfalso. exact (H c I1 E). Qed.
Lemma no_texture n : no_child n "texture" -> texture_count n = O.
Proof.
  unfold no_child, texture_count. induction 1 as [|c l H _ IH]; [reflexivity|]. cbn [filter]. rewrite (proj2 (named_not c "texture")) by exact H. exact IH.
Qed.
Lemma some_texture n : ~ no_child n "texture" -> texture_count n <> O.
Proof.
  unfold no_child, texture_count. intros H E. apply H. induction (children_of n) as [|c l IH]; [constructor|]. cbn [filter] in E. destruct (named c "texture") eqn:X; [discriminate E|].
  constructor; [now apply named_not|]. apply IH; [|exact E]. intro Y. apply H. constructor; [now apply named_not|exact Y].
Qed.
Section Import.
Variables (a : arith) (s : list xml) (x y : effect * told).
Hypothesis Hs : fold_option (LoadParameter a) s (Some x) = Some y.
Lemma last_facts {O} (obs : effect * told -> O) (hit : xml -> bool) (P : xml -> Prop) (R : xml -> O -> Prop) :
  (forall n, hit n = true <-> P n) ->
  (forall e k n e' k', LoadParameter a (e, k) n = Some (e', k') -> P n -> R n (obs (e', k'))) ->
  (forall e k n e' k', LoadParameter a (e, k) n = Some (e', k') -> ~ P n -> obs (e', k') = obs (e, k)) ->
  (forall before c after, s = before ++ c :: after -> P c -> Forall (fun d => ~ P d) after -> R c (obs y)) /\
  (Forall (fun d => ~ P d) s -> obs y = obs x).
Proof.
  intros Hh H1 H2. assert (F : forall n, ~ P n -> hit n = false) by (intros n X; destruct (hit n) eqn:E; [exfalso; apply X; now apply Hh|reflexivity]).
  destruct (fold_last (LoadParameter a) obs hit R) with (l := s) (x := x) (y := y) as (L1 & L2).
  - intros [e k] n [e' k'] E X. eapply H1; [exact E|now apply Hh].
  - intros [e k] n [e' k'] E X. eapply H2; [exact E|]. intro Y. apply Hh in Y. congruence.
  - exact Hs.
  - split.
    + intros before c after E Hc Ha. eapply L1; [exact E|now apply Hh|]. intros d Hd. rewrite Forall_forall in Ha. auto.
    + intro H. apply L2. intros b Hb. rewrite Forall_forall in H. auto.
Qed.
(** The flags that say whether something has been mentioned. *)
Lemma mentioned (obs : effect * told -> bool) (hit : xml -> bool) (P : xml -> Prop) :
  (forall n, hit n = true <-> P n) -> obs x = false ->
  (forall e k n e' k', LoadParameter a (e, k) n = Some (e', k') -> P n -> obs (e', k') = true) ->
  (forall e k n e' k', LoadParameter a (e, k) n = Some (e', k') -> ~ P n -> obs (e', k') = obs (e, k)) ->
  obs y = true <-> Exists P s.
Proof.
  intros Hh Hx H1 H2. destruct (last_facts obs hit P (fun _ o => o = true) Hh H1 H2) as (L1 & L2). split.
  - intro E. destruct (existsb hit s) eqn:X.
    + apply existsb_exists in X. destruct X as (n & N1 & N2). apply Exists_exists. exists n. split; [exact N1|now apply Hh].
    + exfalso. rewrite L2 in E; [congruence|]. apply Forall_forall. intros d Hd Pd. assert (existsb hit s = true) by (apply existsb_exists; exists d; split; [exact Hd|now apply Hh]). congruence.
  - intro X. clear Hs. assert (Y : exists before c after, s = before ++ c :: after /\ P c /\ Forall (fun d => ~ P d) after).
    { clear -X Hh. induction s as [|d l IH]; [inversion X|]. destruct (existsb hit l) eqn:E.
      - assert (Z0 : Exists P l) by (apply existsb_exists in E; destruct E as (n & N1 & N2); apply Exists_exists; exists n; split; [exact N1|now apply Hh]).
        destruct (IH Z0) as (b & c & r & -> & Pc & Fr). exists (d :: b), c, r. auto.
      - exists [], d, l. split; [reflexivity|]. assert (F : Forall (fun d => ~ P d) l).
        { apply Forall_forall. intros n Hn Pn. assert (existsb hit l = true) by (apply existsb_exists; exists n; split; [exact Hn|now apply Hh]). congruence. }
        split; [|exact F]. inversion X as [? ? Pd|? ? Pl]; subst; [exact Pd|]. exfalso. apply Exists_exists in Pl. destruct Pl as (n & N1 & N2). rewrite Forall_forall in F. exact (F n N1 N2). }
    destruct Y as (b & c & r & E & Pc & Fr). exact (L1 b c r E Pc Fr).
Qed.
Lemma kept_along {O} (obs : effect * told -> O) (G : xml -> Prop) :
  (forall e k n e' k', LoadParameter a (e, k) n = Some (e', k') -> G n -> obs (e', k') = obs (e, k)) -> Forall G s -> obs y = obs x.
Proof.
  intros H F. revert x Hs. induction F as [|c l Hc _ IH]; intros z Hz; [cbn in Hz; injection Hz as <-; reflexivity|].
  rewrite fold_cons in Hz. destruct (LoadParameter a z c) as [w|] eqn:Ew; [|rewrite fold_none in Hz; discriminate]. rewrite (IH w Hz). destruct z, w. eapply H; eassumption.
Qed.
End Import.

(** What the last element of its name says about a colour or a number. *)
Definition color_says (c : xml) (p : parameter_of (option rgba)) : Prop :=
  (~ no_child c "texture" -> fst p = Some (1, 1, 1, 1)%Q) /\
  (forall d r, no_child c "texture" -> first_child (children_of c) (is_elem "param") d -> ReadNodeProperty d "ref" = r -> r <> [] -> snd p = Some (CleanSubId r)) /\
  (forall d x y z w, no_child c "texture" -> no_child c "param" -> first_child (children_of c) (is_elem "color") d -> four_numbers (ReadNodeContentDirect d) x y z w ->
     exists x' y' z' w', fst p = Some (x', y', z', w') /\ x' == x /\ y' == y /\ z' == z /\ w' == w)%Q.
Definition number_says (f : sfield) (c : xml) (p : parameter_of Q) : Prop :=
  let bare := match f with ReflectivityFactor | TransparencyFactor => True | _ => no_child c "texture" end in
  (~ bare -> fst p = 1%Q) /\
  (forall d r, bare -> first_child (children_of c) (is_elem "param") d -> ReadNodeProperty d "ref" = r -> r <> [] -> snd p = Some (CleanSubId r)) /\
  (forall d q, bare -> no_child c "param" -> first_child (children_of c) (is_elem "float") d -> one_number (ReadNodeContentDirect d) q -> fst p == q)%Q.
Lemma color_read_says a n old p : color_read a n old p -> color_says n p.
Proof.
  intros (H1 & H2 & H3). split; [|split].
  - intro T. rewrite H1 by now apply some_texture. reflexivity.
  - intros d r T D E N. rewrite (H2 (no_texture _ T) d (child_found _ _ _ D)). unfold reference_of. rewrite E. cbn. destruct r; [congruence|reflexivity].
  - intros d u v z w T Np D N. destruct (H3 (no_texture _ T) (found_none _ _ Np)) as (q & r & E & ->). rewrite (child_found _ _ _ D) in E. cbn [text_of] in E.
    destruct (read_four a _ _ _ _ _ N) as (x' & y' & z' & w' & rest & E' & K). rewrite E' in E. injection E as <- _. exists x', y', z', w'. split; [reflexivity|exact K].
Qed.
Lemma number_read_says a f n old p : number_read a n (number_channel f) old p -> number_says f n p.
Proof.
  intros (H1 & H2 & H3). unfold number_says. cbv zeta in *. set (bare := match f with ReflectivityFactor | TransparencyFactor => True | _ => no_child n "texture" end).
  assert (B : bare -> ~ (number_channel f <> None /\ texture_count n <> O)) by (unfold bare; destruct f; cbn; intros X (Y1 & Y2); first [now apply Y1 | apply Y2; now apply no_texture]).
  split; [|split].
  - intro T. rewrite H1; [reflexivity|]. unfold bare in T. destruct f; cbn; first [exfalso; apply T; exact I | split; [discriminate|now apply some_texture]].
  - intros d r T D E N. rewrite (H2 (B T) d (child_found _ _ _ D)). unfold reference_of. rewrite E. cbn. destruct r; [congruence|reflexivity].
  - intros d q T Np D N. destruct (H3 (B T) (found_none _ _ Np)) as (v & r & E & ->). rewrite (child_found _ _ _ D) in E. cbn [text_of] in E.
    destruct (read_one a _ _ N) as (v' & rest & E' & K). rewrite E' in E. injection E as <- _. exact K.
Qed.
Definition mode_word (m : opaque) : string := match m with A_ONE => "A_ONE" | RGB_ZERO => "RGB_ZERO" end.
(** Loading a document that gives a lighting model and parameters: of every parameter the last element counts, a parameter that is not
    mentioned is that of a new effect, and is a constant unless some element of its name refers to another parameter.  The effect has an
    emission factor, is reflective, is refractive if and only if the document mentions one.  Without a word on transparency the effect is
    opaque, without one on reflectivity it is black. *)
Theorem C119_import : forall a old n t k s e',
  first_child (children_of n) (is_elem "technique") t -> gives t k s -> LoadEffectStandard a (new_effect old) n = Some e' ->
  let translucent := Exists (fun c => is_elem "transparent" c \/ is_elem "transparency" c) s in
  let reflecting := Exists (fun c => is_elem "reflective" c \/ is_elem "reflectivity" c) s in
  lit e' = k /\
  (forall c m, last_of s "transparent" c -> ReadNodeProperty c "opaque" = tx (mode_word m) -> mode e' = m) /\
  (none_of s "transparent" -> mode e' = if old then RGB_ZERO else A_ONE) /\
  (is_factor e' = true <-> ~ none_of s "emission_level") /\ (is_reflective e' = true <-> reflecting) /\ (is_refractive e' = true <-> ~ none_of s "index_of_refraction") /\
  (forall f c, last_of s (color_word f) c -> color_says c (color_of e' f)) /\
  (forall f c, last_of s (number_word f) c -> number_says f c (number_of e' f)) /\
  (forall f, Forall (fun c => is_elem (color_word f) c -> no_child c "param") s -> snd (color_of e' f) = None) /\
  (forall f, Forall (fun c => is_elem (number_word f) c -> no_child c "param") s -> snd (number_of e' f) = None) /\
  (forall f, none_of s (color_word f) -> (f = Transparent -> translucent) -> (f = Reflective -> reflecting) -> fst (color_of e' f) = Some (initial_color f)) /\
  (forall f, none_of s (number_word f) -> (f = TransparencyFactor -> translucent) -> (f = ReflectivityFactor -> reflecting) -> fst (number_of e' f) = initial_number f) /\
  (~ translucent -> fst (color_of e' Transparent) = Some (if old then (0, 0, 0, 0)%Q else (1, 1, 1, 1)%Q) /\ fst (number_of e' TransparencyFactor) = (if old then 0 else 1)%Q) /\
  (~ reflecting -> fst (color_of e' Reflective) = Some (0, 0, 0, 0)%Q /\ fst (number_of e' ReflectivityFactor) = 0%Q).
Proof.
  intros a old n t k s e' Ht Hg Hl translucent reflecting. destruct (gives_parameters _ _ _ Hg) as (Hp & p & Hk). unfold LoadEffectStandard in Hl.
  rewrite (child_found _ _ _ Ht), Hp, Hk in Hl. destruct (fold_option _ _ _) as [y|] eqn:E; [|discriminate]. injection Hl as <-.
  set (x := (set_lit k (new_effect old), Told false false false)) in *.
  assert (TR : has_translucency (snd y) = true <-> translucent).
  { apply (mentioned a s x y E (fun q => has_translucency (snd q)) (fun n => named n "transparent" || named n "transparency") (fun c => is_elem "transparent" c \/ is_elem "transparency" c)); [intro c; now rewrite orb_true_iff, !named_iff|reflexivity| |];
    intros e0 k0 c e1 k1 X; destruct (step_told _ _ _ _ _ _ X) as (T1 & T2 & _); [exact T1|exact T2]. }
  assert (RE : has_reflectivity (snd y) = true <-> reflecting).
  { apply (mentioned a s x y E (fun q => has_reflectivity (snd q)) (fun n => named n "reflective" || named n "reflectivity") (fun c => is_elem "reflective" c \/ is_elem "reflectivity" c)); [intro c; now rewrite orb_true_iff, !named_iff|reflexivity| |];
    intros e0 k0 c e1 k1 X; destruct (step_told _ _ _ _ _ _ X) as (_ & _ & T1 & T2 & _); [exact T1|exact T2]. }
  assert (EX : forall w, Exists (is_elem w) s <-> ~ none_of s w).
  { intro w. split.
    - intros H1 H2. apply Exists_exists in H1. destruct H1 as (c & C1 & C2). unfold none_of in H2. rewrite Forall_forall in H2. exact (H2 c C1 C2).
    - intro H. destruct (existsb (fun c => named c w) s) eqn:X; [apply existsb_exists in X; destruct X as (c & C1 & C2); apply Exists_exists; exists c; split; [exact C1|now apply named_iff]|].
      exfalso. apply H. apply Forall_forall. intros c Hc Hn. apply named_iff in Hn. assert (existsb (fun c => named c w) s = true) by (apply existsb_exists; eauto). congruence. }
  assert (RX : has_refractive (snd y) = true <-> ~ none_of s "index_of_refraction").
  { rewrite <- EX. apply (mentioned a s x y E (fun q => has_refractive (snd q)) (fun n => named n "index_of_refraction") (is_elem "index_of_refraction")); [intro c; apply named_iff|reflexivity| |];
    intros e0 k0 c e1 k1 X; destruct (step_told _ _ _ _ _ _ X) as (_ & _ & _ & _ & T1 & T2); [exact T1|exact T2]. }
  assert (FA : is_factor (fst y) = true <-> ~ none_of s "emission_level").
  { rewrite <- EX. apply (mentioned a s x y E (fun q => is_factor (fst q)) (fun n => named n "emission_level") (is_elem "emission_level")); [intro c; apply named_iff|reflexivity| |];
    intros e0 k0 c e1 k1 X; destruct (step_rest _ _ _ _ _ _ X) as (_ & T1 & T2 & _); [exact T1|exact T2]. }
  assert (LI : lit (fst y) = k).
  { destruct (last_facts a s x y E (fun q => lit (fst q)) (fun _ => false) (fun _ => False) (fun _ _ => True)) as (_ & L); [intuition discriminate|intros; exact I| |].
    - intros e0 k0 c e1 k1 X _. apply (step_rest _ _ _ _ _ _ X).
    - rewrite L; [reflexivity|]. apply Forall_forall. intros ? _ []. }
  assert (MO : (forall c m, last_of s "transparent" c -> ReadNodeProperty c "opaque" = tx (mode_word m) -> mode (fst y) = m) /\ (none_of s "transparent" -> mode (fst y) = if old then RGB_ZERO else A_ONE)).
  { destruct (last_facts a s x y E (fun q => mode (fst q)) (fun n => named n "transparent") (is_elem "transparent") (fun c o => forall m, ReadNodeProperty c "opaque" = tx (mode_word m) -> o = m)) as (L1 & L2); [intro c; apply named_iff| | |].
    - intros e0 k0 c e1 k1 X Hc m Hm. destruct (step_rest _ _ _ _ _ _ X) as (_ & _ & _ & T & _). cbn [fst]. rewrite (T Hc). unfold read_mode. rewrite Hm. destruct m; reflexivity.
    - intros e0 k0 c e1 k1 X Hc. destruct (step_rest _ _ _ _ _ _ X) as (_ & _ & _ & _ & T). exact (T Hc).
    - split; [|exact L2]. intros c m (b & r & Es & Hc & Ha) Hm. exact (L1 b c r Es Hc Ha m Hm). }
  assert (CO : forall f, (forall c, last_of s (color_word f) c -> color_says c (color_of (fst y) f)) /\ (none_of s (color_word f) -> color_of (fst y) f = (Some (initial_color f), None))).
  { intro f. destruct (last_facts a s x y E (fun q => color_of (fst q) f) (fun n => named n (color_word f)) (is_elem (color_word f)) color_says) as (L1 & L2); [intro c; apply named_iff| | |].
    - intros e0 k0 c e1 k1 X Hc. eapply color_read_says. apply (step_color _ f _ _ _ _ _ X). exact Hc.
    - intros e0 k0 c e1 k1 X Hc. apply (step_color _ f _ _ _ _ _ X). exact Hc.
    - split; [|intro H; rewrite (L2 H); now destruct f]. intros c (b & r & Es & Hc & Ha). exact (L1 b c r Es Hc Ha). }
  assert (NU : forall f, (forall c, last_of s (number_word f) c -> number_says f c (number_of (fst y) f)) /\ (none_of s (number_word f) -> number_of (fst y) f = (initial_number f, None))).
  { intro f. destruct (last_facts a s x y E (fun q => number_of (fst q) f) (fun n => named n (number_word f)) (is_elem (number_word f)) (number_says f)) as (L1 & L2); [intro c; apply named_iff| | |].
    - intros e0 k0 c e1 k1 X Hc. eapply number_read_says. apply (step_number _ f _ _ _ _ _ X). exact Hc.
    - intros e0 k0 c e1 k1 X Hc. apply (step_number _ f _ _ _ _ _ X). exact Hc.
    - split; [|intro H; rewrite (L2 H); now destruct f]. intros c (b & r & Es & Hc & Ha). exact (L1 b c r Es Hc Ha). }
  assert (CK : forall f, Forall (fun c => is_elem (color_word f) c -> no_child c "param") s -> snd (color_of (fst y) f) = None).
  { intros f H. rewrite (kept_along a s x y E (fun q => snd (color_of (fst q) f)) _) with (2 := H); [reflexivity|].
    intros e0 k0 c e1 k1 X Hc. destruct (step_color _ f _ _ _ _ _ X) as (T1 & T2). cbn [fst]. destruct (named c (color_word f)) eqn:W; [|rewrite T2; [reflexivity|now apply named_not]].
    apply named_iff in W. destruct (T1 W) as (R1 & _ & R3). destruct (texture_count c) as [|m] eqn:Et; [|now rewrite R1 by discriminate]. destruct (R3 eq_refl (found_none _ _ (Hc W))) as (v & r & _ & ->). reflexivity. }
  assert (NK : forall f, Forall (fun c => is_elem (number_word f) c -> no_child c "param") s -> snd (number_of (fst y) f) = None).
  { intros f H. rewrite (kept_along a s x y E (fun q => snd (number_of (fst q) f)) _) with (2 := H); [reflexivity|].
    intros e0 k0 c e1 k1 X Hc. destruct (step_number _ f _ _ _ _ _ X) as (T1 & T2). cbn [fst]. destruct (named c (number_word f)) eqn:W; [|rewrite T2; [reflexivity|now apply named_not]].
    apply named_iff in W. destruct (T1 W) as (R1 & _ & R3). cbv zeta in *.
    assert (D : (number_channel f <> None /\ texture_count c <> O) \/ ~ (number_channel f <> None /\ texture_count c <> O)) by (destruct (number_channel f), (texture_count c); [right|left|right|right]; intuition congruence).
    destruct D as [D|D]; [now rewrite (R1 D)|]. destruct (R3 D (found_none _ _ (Hc W))) as (v & r & _ & ->). reflexivity. }
  destruct y as [e0 [b1 b2 b3]]. cbn [fst snd has_translucency has_reflectivity has_refractive] in *.
  assert (NT : b1 = false -> ~ translucent) by (intros -> H; apply TR in H; discriminate). assert (NR : b2 = false -> ~ reflecting) by (intros -> H; apply RE in H; discriminate).
  assert (NT1 : b1 = false -> none_of s "transparent" /\ none_of s "transparency").
  { intro B. apply NT in B. split; apply Forall_forall; intros c Hc Hn; apply B; apply Exists_exists; eauto. }
  assert (NR1 : b2 = false -> none_of s "reflective" /\ none_of s "reflectivity").
  { intro B. apply NR in B. split; apply Forall_forall; intros c Hc Hn; apply B; apply Exists_exists; eauto. }
  assert (NL : forall w c, none_of s w -> ~ last_of s w c).
  { intros w c H (u & v & Es & Hc & _). unfold none_of in H. rewrite Forall_forall in H. apply (H c); [rewrite Es; apply in_or_app; right; left; reflexivity|exact Hc]. }
  unfold finish. cbn [has_translucency has_reflectivity has_refractive].
  assert (G1 : lit (finish (e0, Told b1 b2 b3)) = lit e0 /\ mode (finish (e0, Told b1 b2 b3)) = mode e0 /\ is_factor (finish (e0, Told b1 b2 b3)) = is_factor e0 /\ is_reflective (finish (e0, Told b1 b2 b3)) = b2 /\ is_refractive (finish (e0, Told b1 b2 b3)) = b3) by (destruct b1, b2; repeat split).
  assert (G2 : forall f, (f = Transparent -> b1 = true) -> (f = Reflective -> b2 = true) -> color_of (finish (e0, Told b1 b2 b3)) f = color_of e0 f).
  { intros f F1 F2. destruct f; try (destruct b1, b2; reflexivity); [rewrite (F2 eq_refl)|rewrite (F1 eq_refl)]; [destruct b1|destruct b2]; reflexivity. }
  assert (G3 : forall f, (f = TransparencyFactor -> b1 = true) -> (f = ReflectivityFactor -> b2 = true) -> number_of (finish (e0, Told b1 b2 b3)) f = number_of e0 f).
  { intros f F1 F2. destruct f; try (destruct b1, b2; reflexivity); [rewrite (F2 eq_refl)|rewrite (F1 eq_refl)]; [destruct b1|destruct b2]; reflexivity. }
  assert (G4 : (forall f, snd (color_of (finish (e0, Told b1 b2 b3)) f) = snd (color_of e0 f)) /\ forall f, snd (number_of (finish (e0, Told b1 b2 b3)) f) = snd (number_of e0 f)) by (split; intros []; destruct b1, b2; reflexivity).
  assert (G5 : (b1 = false -> fst (color_of (finish (e0, Told b1 b2 b3)) Transparent) = Some (match mode e0 with RGB_ZERO => zero_color | A_ONE => white end) /\ fst (number_of (finish (e0, Told b1 b2 b3)) TransparencyFactor) = match mode e0 with RGB_ZERO => 0 | A_ONE => 1 end%Q) /\
               (b2 = false -> fst (color_of (finish (e0, Told b1 b2 b3)) Reflective) = Some zero_color /\ fst (number_of (finish (e0, Told b1 b2 b3)) ReflectivityFactor) = 0%Q)).
  { split; intros ->; [destruct b2|destruct b1]; split; reflexivity. }
  change (set_flags _ _ _) with (finish (e0, Told b1 b2 b3)). destruct G1 as (GL & GM & GF & GR & GX).
  destruct MO as (MO1 & MO2).
  split; [now rewrite GL|]. split; [rewrite GM; exact MO1|]. split; [rewrite GM; exact MO2|]. split; [rewrite GF; exact FA|]. split; [rewrite GR; exact RE|]. split; [rewrite GX; exact RX|].
  split; [|split; [|split; [|split; [|split; [|split; [|split]]]]]].
  - intros f c H. rewrite G2; [now apply CO| |]; intros ->; [destruct b1|destruct b2]; try reflexivity; exfalso; [apply (NL "transparent"%string c); [now apply NT1|exact H]|apply (NL "reflective"%string c); [now apply NR1|exact H]].
  - intros f c H. rewrite G3; [now apply NU| |]; intros ->; [destruct b1|destruct b2]; try reflexivity; exfalso; [apply (NL "transparency"%string c); [now apply NT1|exact H]|apply (NL "reflectivity"%string c); [now apply NR1|exact H]].
  - intros f H. rewrite (proj1 G4). now apply CK.
  - intros f H. rewrite (proj2 G4). now apply NK.
  - intros f H F1 F2. rewrite G2; [now rewrite (proj2 (CO f) H)|intro X; apply TR; auto|intro X; apply RE; auto].
  - intros f H F1 F2. rewrite G3; [now rewrite (proj2 (NU f) H)|intro X; apply TR; auto|intro X; apply RE; auto].
  - intro H. assert (B : b1 = false) by (destruct b1; [exfalso; apply H; now apply TR|reflexivity]). destruct (proj1 G5 B) as (-> & ->). rewrite MO2 by now apply NT1. destruct old; split; reflexivity.
  - intro H. assert (B : b2 = false) by (destruct b2; [exfalso; apply H; now apply RE|reflexivity]). exact (proj2 G5 B).
Qed.
Print Assumptions C119_import.
(** Documents without "I" in their texts (no "INF") are always loaded, whatever they contain. *)
Theorem C119_safe : forall e n, calm n -> exists e', LoadEffectStandard Wrapping e n = Some e'.
Proof.
  intros e n H. unfold LoadEffectStandard. destruct (FindChildByType n "technique") as [t|] eqn:Et; [|eauto].
  assert (Ht := find_child_calm _ _ _ H Et). set (e1 := match find_lighting (children_of t) with Some (k, _) => set_lit k e | None => e end).
  assert (X : forall l z, (forall c, In c l -> calm c) -> exists y, fold_option (LoadParameter Wrapping) l (Some z) = Some y).
  { induction l as [|c l IH]; intros z Hl; [exists z; reflexivity|]. rewrite fold_cons. destruct (load_safe z c (Hl c (or_introl eq_refl))) as (w & ->). apply IH. intros; apply Hl; right; assumption. }
  destruct (X (parameters t) (e1, Told false false false)) as (y & ->); [intros c; now apply parameters_calm|]. cbn. eauto.
Qed.
Print Assumptions C119_safe.
(** Without a word on transparency the effect is opaque, and without one on reflectivity nothing is reflected. *)
Theorem C119_opaque : forall a old n t k s e',
  first_child (children_of n) (is_elem "technique") t -> gives t k s -> LoadEffectStandard a (new_effect old) n = Some e' ->
  (none_of s "transparent" -> none_of s "transparency" -> exists q, GetOpacity e' = Some q /\ (q == 1)%Q) /\
  (none_of s "reflective" -> none_of s "reflectivity" -> is_reflective e' = false /\ exists q, GetReflectivity e' = Some q /\ (q == 0)%Q).
Proof.
  intros a old n t k s e' Ht Hg Hl. destruct (C119_import a old n t k s e' Ht Hg Hl) as (_ & _ & MO & _ & RE & _ & _ & _ & _ & _ & _ & _ & TT & RR).
  assert (X : forall u v, none_of s u -> none_of s v -> ~ Exists (fun c => is_elem u c \/ is_elem v c) s).
  { intros u v Hu Hv H. apply Exists_exists in H. unfold none_of in *. rewrite Forall_forall in Hu, Hv. destruct H as (c & Hc & [H|H]); [exact (Hu c Hc H)|exact (Hv c Hc H)]. }
  split; intros H1 H2.
  - destruct (TT (X _ _ H1 H2)) as (E1 & E2). unfold GetOpacity. rewrite E1, E2, (MO H1). destruct old; eexists; split; reflexivity.
  - assert (Y := X _ _ H1 H2). split; [destruct (is_reflective e'); [exfalso; apply Y; now apply RE|reflexivity]|]. destruct (RR Y) as (E1 & E2). unfold GetReflectivity. rewrite E1, E2. eexists. split; reflexivity.
Qed.
Print Assumptions C119_opaque.

(** The document of the demonstration, and one whose <transparency> is alone. *)
Definition leaf (name text : string) : xml := Elem (tx name) [] [Text (tx text)].
Definition held (name : string) (l : list xml) : xml := Elem (tx name) [] l.
Definition profile (l own : list xml) : xml :=
  held "profile_COMMON" [held "technique" [held "phong" l; held "extra" [Elem (tx "technique") [(tx "profile", tx "MAYA")] own]]].
Definition document : xml :=
  profile [held "diffuse" [leaf "color" "1 0.5 0 1"]; held "ambient" [Elem (tx "param") [(tx "ref", tx "a b")] []]; held "specular" [held "texture" []];
           Elem (tx "transparent") [(tx "opaque", tx "RGB_ZERO")] [leaf "color" "0.5 0.5 0.5 1"]; held "shininess" [leaf "float" "3"]]
          [held "diffuse" [leaf "color" "0 1 0 1"]; held "emission_level" [leaf "float" "2"]].
Lemma elements_check l s : forallb is_element l = true -> forallb (fun c => negb (named c "technique") && negb (named c "extra")) l = true -> s = l -> elements_among l s.
Proof.
  intros H1 H2 ->. induction l as [|c l IH]; [constructor|]. cbn [forallb] in *. apply andb_true_iff in H1, H2. destruct c as [n' at' ch|tt]; [|destruct H1; discriminate].
  destruct H1 as (_ & H1), H2 as (N & H2). apply andb_true_iff in N. destruct N as (N1 & N2). rewrite negb_true_iff in N1, N2. apply named_not in N1, N2. constructor; [intros ->; apply N1; do 2 eexists; reflexivity|intros ->; apply N2; do 2 eexists; reflexivity|now apply IH].
Qed.
Lemma profile_gives l own : forallb is_element (l ++ own) = true -> forallb (fun c => negb (named c "technique") && negb (named c "extra")) (l ++ own) = true ->
  exists t, first_child (children_of (profile l own)) (is_elem "technique") t /\ gives t PHONG (l ++ own).
Proof.
  intros H1 H2. eexists. split; [exists [], []; split; [reflexivity|]; split; [do 2 eexists; reflexivity|constructor]|].
  exists (held "phong" l), [], own, []. split; [exists [], [held "extra" [Elem (tx "technique") [(tx "profile", tx "MAYA")] own]]; split; [reflexivity|]; split; [exists PHONG; split; [discriminate|do 2 eexists; reflexivity]|constructor]|].
  split; [discriminate|]. split; [do 2 eexists; reflexivity|].
  assert (X : forall x, first_child (children_of (held "technique" [held "phong" l; held "extra" [Elem (tx "technique") [(tx "profile", tx "MAYA")] own]])) (is_elem "extra") x -> x = held "extra" [Elem (tx "technique") [(tx "profile", tx "MAYA")] own]).
  { intros x (u & v & E & (at' & ch & ->) & _). cbn in E. destruct u as [|u1 [|u2 [|]]]; cbn in E; try discriminate E. injection E as _ <- <- _. reflexivity. }
  split; [right; split; [|reflexivity]; intros x Hx; rewrite (X x Hx); repeat constructor; intros (_ & P); vm_compute in P; discriminate P|].
  split; [left; eexists _, _; split; [exists [held "phong" l], []; split; [reflexivity|]; split; [do 2 eexists; reflexivity|repeat constructor; intros (u & v & P); discriminate P]|split; [exists [], []; split; [reflexivity|]; split; [split; [do 2 eexists; reflexivity|reflexivity]|constructor]|reflexivity]]|].
  split; [right; split; [|reflexivity]; intros x Hx; rewrite (X x Hx); repeat constructor; intros (_ & P); vm_compute in P; discriminate P|].
  cbn [held children_of]. rewrite app_nil_r. cbn [app]. apply elements_check; [exact H1|exact H2|reflexivity].
Qed.
Example C119_demo :
  (exists t s, first_child (children_of document) (is_elem "technique") t /\ gives t PHONG s /\ List.length s = 7%nat /\ last_of s "diffuse" (held "diffuse" [leaf "color" "0 1 0 1"])) /\
  calm document /\
  option_map (fun e => (lit e, mode e, is_factor e, is_reflective e, is_refractive e, color_of e Diffuse, color_of e Ambient, fst (color_of e Specular), textures e CSpecular, fst (number_of e Shininess), fst (number_of e EmissionFactor)))
    (LoadEffectStandard Strict (new_effect false) document) =
  Some (PHONG, RGB_ZERO, true, false, false, (Some (0, 1, 0, 1)%Q, None), (Some (0, 0, 0, 1)%Q, Some (tx "a_b")), Some (1, 1, 1, 1)%Q, 1%nat, 3%Q, 2%Q).
Proof.
  split; [|split; [|vm_compute; reflexivity]].
  - destruct (profile_gives [held "diffuse" [leaf "color" "1 0.5 0 1"]; held "ambient" [Elem (tx "param") [(tx "ref", tx "a b")] []]; held "specular" [held "texture" []];
           Elem (tx "transparent") [(tx "opaque", tx "RGB_ZERO")] [leaf "color" "0.5 0.5 0.5 1"]; held "shininess" [leaf "float" "3"]] [held "diffuse" [leaf "color" "0 1 0 1"]; held "emission_level" [leaf "float" "2"]]) as (t & T1 & T2); [reflexivity|reflexivity|].
    exists t. eexists. split; [exact T1|]. split; [exact T2|]. split; [reflexivity|]. eexists (_ :: _ :: _ :: _ :: _ :: []), [_]. split; [reflexivity|]. split; [do 2 eexists; reflexivity|]. repeat constructor. intros (u & v & P). discriminate P.
  - repeat (constructor; try (intro X; vm_compute in X; intuition discriminate)).
Qed.
(** In documents before COLLADA 1.4.1 a <transparency> without <transparent> has no effect: the effect stays opaque.  And a colour without
    a text is not initialised. *)
Theorem C119_defaults_refuted :
  (exists t s e' v, first_child (children_of (profile [held "transparency" [leaf "float" "0.5"]] [])) (is_elem "technique") t /\ gives t PHONG s /\
     LoadEffectStandard Strict (new_effect true) (profile [held "transparency" [leaf "float" "0.5"]] []) = Some e' /\
     (fst (number_of e' TransparencyFactor) == 1 # 2)%Q /\ GetOpacity e' = Some v /\ (v == 1)%Q) /\
  (exists t s e', first_child (children_of (profile [held "diffuse" [held "color" []]] [])) (is_elem "technique") t /\ gives t PHONG s /\
     LoadEffectStandard Strict (new_effect false) (profile [held "diffuse" [held "color" []]] []) = Some e' /\ fst (color_of e' Diffuse) = None).
Proof.
  split.
  - destruct (profile_gives [held "transparency" [leaf "float" "0.5"]] []) as (t & T1 & T2); [reflexivity|reflexivity|].
    destruct (observed (LoadEffectStandard Strict (new_effect true) (profile [held "transparency" [leaf "float" "0.5"]] [])) (fun e => (fst (number_of e TransparencyFactor), option_map Qred (GetOpacity e))) ((5 # 10)%Q, Some 1%Q)) as (e' & E & O); [vm_compute; reflexivity|].
    injection O as O1 O2. destruct (GetOpacity e') as [v|] eqn:Ev; [|discriminate]. exists t. eexists. exists e', v. split; [exact T1|]. split; [exact T2|]. split; [exact E|]. split; [rewrite O1; reflexivity|]. split; [exact Ev|].
    injection O2 as O2. rewrite <- (Qred_correct v), O2. reflexivity.
  - destruct (profile_gives [held "diffuse" [held "color" []]] []) as (t & T1 & T2); [reflexivity|reflexivity|].
    destruct (observed (LoadEffectStandard Strict (new_effect false) (profile [held "diffuse" [held "color" []]] [])) (fun e => fst (color_of e Diffuse)) None) as (e' & E & O); [vm_compute; reflexivity|].
    exists t. eexists. exists e'. split; [exact T1|]. split; [exact T2|]. split; [exact E|exact O].
Qed.
Print Assumptions C119_defaults_refuted.

(** *** C120 *)
(** What the specification of COLLADA says: without the alpha of A_ONE, opacity is one less the mean of the channels times the factor;
    reflectivity is the mean times its factor. *)
Definition opacity_is (e : effect) (q : Q) : Prop :=
  exists x y z w, fst (color_of e Transparent) = Some (x, y, z, w) /\
    (q == match mode e with A_ONE => w * fst (number_of e TransparencyFactor) | RGB_ZERO => 1 - (x + y + z) / 3 * fst (number_of e TransparencyFactor) end)%Q.
Definition reflectivity_is (e : effect) (q : Q) : Prop :=
  exists x y z w, fst (color_of e Reflective) = Some (x, y, z, w) /\ (q == (x + y + z) / 3 * fst (number_of e ReflectivityFactor))%Q.
Definition grey (c : option rgba) : Prop := exists x y z w, c = Some (x, y, z, w) /\ (y == x)%Q /\ (z == x)%Q.
(** Refuted: only the first channel counts.  A green transparent colour leaves the effect opaque, a red one makes it transparent. *)
Theorem C120_means_refuted :
  (exists e v q, GetOpacity e = Some v /\ opacity_is e q /\ (v == 1)%Q /\ (q == 2 # 3)%Q) /\
  (exists e v q, GetOpacity e = Some v /\ opacity_is e q /\ (v == 0)%Q /\ (q == 2 # 3)%Q) /\
  (exists e v q, GetReflectivity e = Some v /\ reflectivity_is e q /\ (v == 0)%Q /\ (q == 2 # 3)%Q).
Proof.
  split; [|split].
  - exists (set_color Transparent (Some (0, 1, 0, 0)%Q) (new_effect true)). do 2 eexists. split; [reflexivity|]. split; [exists 0%Q, 1%Q, 0%Q, 0%Q; split; reflexivity|]. split; reflexivity.
  - exists (set_color Transparent (Some (1, 0, 0, 0)%Q) (new_effect true)). do 2 eexists. split; [reflexivity|]. split; [exists 1%Q, 0%Q, 0%Q, 0%Q; split; reflexivity|]. split; reflexivity.
  - exists (set_color Reflective (Some (0, 1, 1, 0)%Q) (new_effect true)). do 2 eexists. split; [reflexivity|]. split; [exists 0%Q, 1%Q, 1%Q, 0%Q; split; reflexivity|]. split; reflexivity.
Qed.
Print Assumptions C120_means_refuted.
(** It is right for grey colours and, for opacity, in the mode A_ONE; and always between 0 and 1 when the channels and the factor are. *)
Theorem C120_means_partial : forall e,
  (forall v, GetOpacity e = Some v -> mode e = A_ONE \/ grey (fst (color_of e Transparent)) -> opacity_is e v) /\
  (forall v, GetReflectivity e = Some v -> grey (fst (color_of e Reflective)) -> reflectivity_is e v) /\
  (forall c, fst (color_of e Transparent) = Some c -> exists v, GetOpacity e = Some v) /\
  (forall c, fst (color_of e Reflective) = Some c -> exists v, GetReflectivity e = Some v) /\
  (forall v x y z w, GetOpacity e = Some v -> fst (color_of e Transparent) = Some (x, y, z, w) ->
     0 <= x <= 1 -> 0 <= w <= 1 -> 0 <= fst (number_of e TransparencyFactor) <= 1 -> 0 <= v <= 1)%Q /\
  (forall v x y z w, GetReflectivity e = Some v -> fst (color_of e Reflective) = Some (x, y, z, w) ->
     0 <= x <= 1 -> 0 <= fst (number_of e ReflectivityFactor) <= 1 -> 0 <= v <= 1)%Q.
Proof.
  intro e. unfold GetOpacity, GetReflectivity, opacity_is, reflectivity_is.
  assert (T : forall x, ((x + x + x) / 3 == x)%Q) by (intro x; field).
  assert (M : forall x y, (0 <= x <= 1)%Q -> (0 <= y <= 1)%Q -> (0 <= x * y <= 1)%Q) by (intros x y Hx Hy; split; nra).
  split; [|split; [|split; [|split; [|split]]]].
  - intros v E H. destruct (fst (color_of e Transparent)) as [[[[x y] z] w]|] eqn:Ec; [|discriminate]. exists x, y, z, w. split; [reflexivity|]. injection E as <-.
    destruct (mode e); [reflexivity|]. destruct H as [H|(x1 & y1 & z1 & w1 & X & Y & Z0)]; [discriminate|]. injection X as <- <- <- <-. rewrite Y, Z0. reflexivity.
  - intros v E (x1 & y1 & z1 & w1 & X & Y & Z0). rewrite X in *. exists x1, y1, z1, w1. split; [reflexivity|]. injection E as <-. rewrite Y, Z0. reflexivity.
  - intros [[[x y] z] w] ->. eauto.
  - intros [[[x y] z] w] ->. eauto.
  - intros v x y z w E X Hx Hw Hf. rewrite X in E. injection E as <-. destruct (mode e); [now apply M|]. assert (Y := M x _ Hx Hf). rewrite (T x). lra.
  - intros v x y z w E X Hx Hf. rewrite X in E. injection E as <-. rewrite (T x). now apply M.
Qed.
Print Assumptions C120_means_partial.
Example C120_demo : let e := set_number TransparencyFactor (1 # 2) (set_color Transparent (Some (1 # 2, 1 # 2, 1 # 2, 1)%Q) (new_effect true)) in
  grey (fst (color_of e Transparent)) /\ mode e = RGB_ZERO /\ option_map Qred (GetOpacity e) = Some (3 # 4)%Q.
Proof. cbv zeta. split; [do 4 eexists; split; [reflexivity|split; reflexivity]|]. split; vm_compute; reflexivity. Qed.

(** *** C121 *)
(** A copy has the same lighting model, mode, values of all colours and numbers and kind of emission, whatever it was before; so its
    opacity and reflectivity are the same.  The textures are added to those that are there, which is none for a new copy. *)
Theorem C121_copy_partial :
  (forall e x, let y := CloneInto e x in
     lit y = lit e /\ mode y = mode e /\ is_factor y = is_factor e /\ (forall c, textures y c = (textures x c + textures e c)%nat) /\
     (forall f, fst (color_of y f) = fst (color_of e f)) /\ (forall f, fst (number_of y f) = fst (number_of e f)) /\
     GetOpacity y = GetOpacity e /\ GetReflectivity y = GetReflectivity e /\
     is_reflective y = is_reflective x /\ is_refractive y = is_refractive x /\ (forall f, snd (color_of y f) = snd (color_of x f)) /\ (forall f, snd (number_of y f) = snd (number_of x f))) /\
  (forall old e c, textures (Clone old e) c = textures e c).
Proof.
  split; [|intros old e []; reflexivity]. intros e x. cbv zeta. repeat (split; [first [reflexivity | intros []; reflexivity]|]). intros []; reflexivity.
Qed.
Print Assumptions C121_copy_partial.
(** Refuted for the rest: the copy of a reflective, refractive effect is neither, so its reflectivity is not written; the copy of a
    parameter that refers to another is a constant. *)
Theorem C121_copy_refuted : exists e, 
  is_reflective e = true /\ is_refractive e = true /\ snd (color_of e Ambient) = Some (tx "shade") /\ proper_effect e /\
  forall old, is_reflective (Clone old e) = false /\ is_refractive (Clone old e) = false /\ snd (color_of (Clone old e) Ambient) = None /\
    ~ color_used (Clone old e) Reflective /\ ~ number_used (Clone old e) ReflectivityFactor /\ ~ number_used (Clone old e) Refraction.
Proof.
  exists (set_flags true true (sample PHONG false None none)). destruct (sample_proper PHONG false none) as [P1 P2 P3 P4 P5]; [discriminate|].
  split; [reflexivity|]. split; [reflexivity|]. split; [reflexivity|]. split; [constructor; [exact P1|exact P2|exact P3|exact P4|exact P5]|].
  intro old. repeat (split; [reflexivity|]). repeat split; discriminate.
Qed.
Print Assumptions C121_copy_refuted.
Example C121_demo : let e := sample BLINN true None (one CBump) in
  lit (Clone true e) = BLINN /\ mode (new_effect true) = RGB_ZERO /\ mode (Clone true e) = A_ONE /\ fst (color_of (Clone true e) Diffuse) = Some (1, 1 # 2, 0, 1)%Q /\
  fst (number_of (Clone true e) Shininess) = 5%Q /\ textures (Clone true e) CBump = 1%nat /\ option_map Qred (GetOpacity (Clone true e)) = Some (1 # 2)%Q.
Proof. vm_compute. repeat split. Qed.
