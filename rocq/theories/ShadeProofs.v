(** Loading the parameters of a standard effect. *)
From Coq Require Import String List ZArith QArith Bool Lia.
From Verif Require Import TextModel TextSpec StringModel StringProofs XmlModel IdModel IdProps FloatModel FloatSpec FloatProofs FloatProps DaeModel DaeSpec DaeProofs RigSpec RigProofs RigWriteProofs NodeSpec NodeSafeProofs CustomModel LampModel LampSpec LampProofs LampSafeProofs AnimModel WireModel ShadeModel ShadeSpec.
Import ListNotations.
Local Open Scope list_scope.

Lemma cfield_eq_iff f g : cfield_eq f g = true <-> f = g.
Proof. destruct f, g; cbn; split; congruence. Qed.
Lemma sfield_eq_iff f g : sfield_eq f g = true <-> f = g.
Proof. destruct f, g; cbn; split; congruence. Qed.
Lemma cfield_refl f : cfield_eq f f = true. Proof. now destruct f. Qed.
Lemma sfield_refl f : sfield_eq f f = true. Proof. now destruct f. Qed.

(** One parameter. *)
Lemma load_color a e k n f : is_elem (color_word f) n ->
  LoadParameter a (e, k) n = option_map (fun e' => (e', see_color f k))
    (ParseColor a (match f with Transparent => read_mode n e | _ => e end) n f (Some (color_channel f))).
Proof. intros (at' & ch & ->). destruct f; reflexivity. Qed.
Lemma load_number a e k n f : is_elem (number_word f) n ->
  LoadParameter a (e, k) n = option_map (fun e' => (match f with EmissionFactor => set_factor true e' | _ => e' end, see_number f k))
    (ParseNumber a e n f (number_channel f)).
Proof. intros (at' & ch & ->). destruct f; reflexivity. Qed.
Definition unnamed (n : xml) : Prop := (forall f, ~ is_elem (color_word f) n) /\ forall f, ~ is_elem (number_word f) n.
Lemma load_other a e k n : unnamed n -> exists e', LoadParameter a (e, k) n = Some (e', k) /\ lit e' = lit e /\ mode e' = mode e /\
  color_of e' = color_of e /\ number_of e' = number_of e /\ is_factor e' = is_factor e.
Proof.
  intros (H1 & H2). unfold LoadParameter.
  assert (E1 : find (fun f => named n (color_name f)) [Emission; Diffuse; Ambient; Transparent; Specular; Reflective] = None).
  { cbn [find]. repeat match goal with |- context [named n (color_name ?f)] => rewrite (proj2 (named_not n (color_word f)) (H1 f) : named n (color_name f) = false) end. reflexivity. }
  assert (E2 : find (fun f => named n (number_name f)) [TransparencyFactor; Shininess; ReflectivityFactor; Refraction; SpecularFactor; EmissionFactor] = None).
  { cbn [find]. repeat match goal with |- context [named n (number_name ?f)] => rewrite (proj2 (named_not n (number_word f)) (H2 f) : named n (number_name f) = false) end. reflexivity. }
  rewrite E1, E2. eexists. split; [reflexivity|]. destruct (named n "bump"); [now cbn|]. destruct (named n "displacement"); [now cbn|]. destruct (named n "filter_color"); now cbn.
Qed.
Lemma named_case n : (exists f, is_elem (color_word f) n) \/ (exists f, is_elem (number_word f) n) \/ unnamed n.
Proof.
  assert (C : forall l : list cfield, (exists f, is_elem (color_word f) n) \/ forall f, In f l -> ~ is_elem (color_word f) n).
  { induction l as [|f l IH]; [right; intros f []|]. destruct (named n (color_word f)) eqn:E; [left; exists f; now apply named_iff|].
    destruct IH as [IH|IH]; [now left|]. right. intros g [<-|Hg]; [now apply named_not|auto]. }
  assert (D : forall l : list sfield, (exists f, is_elem (number_word f) n) \/ forall f, In f l -> ~ is_elem (number_word f) n).
  { induction l as [|f l IH]; [right; intros f []|]. destruct (named n (number_word f)) eqn:E; [left; exists f; now apply named_iff|].
    destruct IH as [IH|IH]; [now left|]. right. intros g [<-|Hg]; [now apply named_not|auto]. }
  destruct (C [Emission; Diffuse; Ambient; Specular; Reflective; Transparent]) as [H|H1]; [now left|].
  destruct (D [EmissionFactor; ReflectivityFactor; Refraction; TransparencyFactor; SpecularFactor; Shininess]) as [H|H2]; [right; now left|].
  right. right. split; intros []; (apply H1 || apply H2); cbn; tauto.
Qed.
Lemma elem_word (c d : string) n : is_elem c n -> is_elem d n -> tx c = tx d.
Proof. intros (a1 & c1 & ->) (a2 & c2 & E). now injection E. Qed.
Lemma color_words f g : tx (color_word f) = tx (color_word g) -> f = g.
Proof. destruct f, g; intro H; try reflexivity; vm_compute in H; discriminate H. Qed.
Lemma number_words f g : tx (number_word f) = tx (number_word g) -> f = g.
Proof. destruct f, g; intro H; try reflexivity; vm_compute in H; discriminate H. Qed.
Lemma word_kinds f g : tx (color_word f) <> tx (number_word g).
Proof. destruct f, g; intro H; vm_compute in H; discriminate H. Qed.

(** What reading a colour does to the effect. *)
Definition color_read (a : arith) (n : xml) (old p : parameter_of (option rgba)) : Prop :=
  (texture_count n <> O -> p = (Some white, snd old)) /\
  (texture_count n = O -> forall q, FindChildByType n "param" = Some q -> p = (fst old, Some (reference_of q))) /\
  (texture_count n = O -> FindChildByType n "param" = None ->
     exists v r, ToVector4 a (text_of (FindChildByType n "color")) = Some (v, r) /\ p = (v, snd old)).
Lemma parse_color a e n f c e' : ParseColor a e n f (Some c) = Some e' ->
  color_read a n (color_of e f) (color_of e' f) /\ (forall g, g <> f -> color_of e' g = color_of e g) /\
  number_of e' = number_of e /\ lit e' = lit e /\ mode e' = mode e /\ is_factor e' = is_factor e.
Proof.
  unfold ParseColor, texture_in, color_read.
  assert (U : forall p e, color_of (update_color f p e) f = p /\ (forall g, g <> f -> color_of (update_color f p e) g = color_of e g)).
  { intros p e0. split; [cbn; now rewrite cfield_refl|]. intros g Hg. cbn. destruct (cfield_eq g f) eqn:E; [|reflexivity]. apply cfield_eq_iff in E. contradiction. }
  destruct (texture_count n) as [|m] eqn:Et.
  - destruct (FindChildByType n "param") as [q|] eqn:Eq.
    + intro H. injection H as <-. match goal with |- context [color_of (update_color f ?p ?x) f] => destruct (U p x) as (U1 & U2) end. rewrite U1. split.
      { split; [congruence|]. split; [intros _ q' X; injection X as <-; reflexivity|discriminate]. } split; [exact U2|]. repeat split.
    + destruct (ToVector4 a (text_of (FindChildByType n "color"))) as [[v r]|] eqn:Ev; [|discriminate]. intro H. injection H as <-. unfold set_color.
      match goal with |- context [color_of (update_color f ?p ?x) f] => destruct (U p x) as (U1 & U2) end. rewrite U1. split.
      { split; [congruence|]. split; [discriminate|]. intros _ _. exists v, r. auto. } split; [exact U2|]. repeat split.
  - intro H. injection H as <-. unfold set_color. match goal with |- context [color_of (update_color f ?p ?x) f] => destruct (U p x) as (U1 & U2) end. rewrite U1. split.
    { split; [reflexivity|]. split; discriminate. } split; [exact U2|]. repeat split.
Qed.
Definition number_read (a : arith) (n : xml) (c : option channel) (old p : parameter_of Q) : Prop :=
  let textured := c <> None /\ texture_count n <> O in
  (textured -> p = (1%Q, snd old)) /\
  (~ textured -> forall q, FindChildByType n "param" = Some q -> p = (fst old, Some (reference_of q))) /\
  (~ textured -> FindChildByType n "param" = None ->
     exists v r, ToFloat a (text_of (FindChildByType n "float")) = Some (v, r) /\ p = (v, snd old)).
Lemma parse_number a e n f c e' : ParseNumber a e n f c = Some e' ->
  number_read a n c (number_of e f) (number_of e' f) /\ (forall g, g <> f -> number_of e' g = number_of e g) /\
  color_of e' = color_of e /\ lit e' = lit e /\ mode e' = mode e /\ is_factor e' = is_factor e.
Proof.
  unfold ParseNumber, number_read.
  assert (U : forall p e, number_of (update_number f p e) f = p /\ (forall g, g <> f -> number_of (update_number f p e) g = number_of e g)).
  { intros p e0. split; [cbn; now rewrite sfield_refl|]. intros g Hg. cbn. destruct (sfield_eq g f) eqn:E; [|reflexivity]. apply sfield_eq_iff in E. contradiction. }
  destruct (texture_in c n e) as [e1|] eqn:Et.
  - assert (T : c <> None /\ texture_count n <> O /\ exists d m, e1 = add_textures d m e).
    { unfold texture_in in Et. destruct c as [c|]; [|discriminate]. destruct (texture_count n) eqn:Ec; [discriminate|]. injection Et as <-. split; [discriminate|]. split; [discriminate|]. eauto. }
    destruct T as (T1 & T2 & d & m & ->). intro H. injection H as <-. unfold set_number.
    destruct (U (1%Q, snd (number_of (add_textures d m e) f)) (add_textures d m e)) as (U1 & U2). rewrite U1.
    split. { split; [reflexivity|]. split; intros X; exfalso; apply X; split; assumption. } split; [exact U2|]. repeat split.
  - assert (T : ~ (c <> None /\ texture_count n <> O)).
    { intros (T1 & T2). unfold texture_in in Et. destruct c as [c|]; [|congruence]. destruct (texture_count n); [congruence|discriminate]. }
    destruct (FindChildByType n "param") as [q|] eqn:Eq.
    + intro H. injection H as <-. destruct (U (fst (number_of e f), Some (reference_of q)) e) as (U1 & U2). rewrite U1.
      split. { split; [contradiction|]. split; [intros _ q' X; injection X as <-; reflexivity|discriminate]. } split; [exact U2|]. repeat split.
    + destruct (ToFloat a (text_of (FindChildByType n "float"))) as [[v r]|] eqn:Ev; [|discriminate]. intro H. injection H as <-. unfold set_number.
      destruct (U (v, snd (number_of e f)) e) as (U1 & U2). rewrite U1.
      split. { split; [contradiction|]. split; [discriminate|]. intros _ _. exists v, r. auto. } split; [exact U2|]. repeat split.
Qed.
Lemma read_mode_rest n e : color_of (read_mode n e) = color_of e /\ number_of (read_mode n e) = number_of e /\ lit (read_mode n e) = lit e /\ is_factor (read_mode n e) = is_factor e.
Proof. unfold read_mode. destruct (IsEquivalentI _ _); [now cbn|]. destruct (IsEquivalentI _ _); now cbn. Qed.

(** One step, seen from one parameter. *)
Lemma step_color a f e k n e' k' : LoadParameter a (e, k) n = Some (e', k') ->
  (is_elem (color_word f) n -> color_read a n (color_of e f) (color_of e' f)) /\ (~ is_elem (color_word f) n -> color_of e' f = color_of e f).
Proof.
  intro H. destruct (named_case n) as [(g & G)|[(g & G)|G]].
  - rewrite (load_color _ _ _ _ _ G) in H. destruct (ParseColor _ _ _ _ _) as [e1|] eqn:E; [|discriminate]. injection H as <- _.
    apply parse_color in E. destruct E as (R & O & _). assert (C : forall f, color_of match g with Transparent => read_mode n e | _ => e end f = color_of e f) by (intro h; destruct g; try reflexivity; now rewrite (proj1 (read_mode_rest n e))).
    split; intro X.
    + assert (f = g) by (apply color_words; eapply elem_word; eassumption). subst g. now rewrite C in R.
    + rewrite <- C. apply O. intros ->. contradiction.
  - rewrite (load_number _ _ _ _ _ G) in H. destruct (ParseNumber _ _ _ _ _) as [e1|] eqn:E; [|discriminate]. injection H as <- _.
    apply parse_number in E. destruct E as (_ & _ & C & _). split; intro X; [exfalso; apply (word_kinds f g); eapply elem_word; eassumption|].
    destruct g; cbn [color_of set_factor]; now rewrite C.
  - destruct (load_other a e k n G) as (e1 & E & _ & _ & C & _). rewrite E in H. injection H as <- _. split; intro X; [exfalso; now apply (proj1 G f)|now rewrite C].
Qed.
Lemma step_number a f e k n e' k' : LoadParameter a (e, k) n = Some (e', k') ->
  (is_elem (number_word f) n -> number_read a n (number_channel f) (number_of e f) (number_of e' f)) /\ (~ is_elem (number_word f) n -> number_of e' f = number_of e f).
Proof.
  intro H. destruct (named_case n) as [(g & G)|[(g & G)|G]].
  - rewrite (load_color _ _ _ _ _ G) in H. destruct (ParseColor _ _ _ _ _) as [e1|] eqn:E; [|discriminate]. injection H as <- _.
    apply parse_color in E. destruct E as (_ & _ & N & _). assert (C : number_of match g with Transparent => read_mode n e | _ => e end = number_of e) by (destruct g; try reflexivity; apply (read_mode_rest n e)).
    split; intro X; [exfalso; apply (word_kinds g f); eapply elem_word; eassumption|]. now rewrite N, C.
  - rewrite (load_number _ _ _ _ _ G) in H. destruct (ParseNumber _ _ _ _ _) as [e1|] eqn:E; [|discriminate]. injection H as <- _.
    apply parse_number in E. destruct E as (R & O & _). assert (S' : number_of match g with EmissionFactor => set_factor true e1 | _ => e1 end = number_of e1) by now destruct g. rewrite S'. split; intro X.
    + assert (f = g) by (apply number_words; eapply elem_word; eassumption). subst g. exact R.
    + apply O. intros ->. contradiction.
  - destruct (load_other a e k n G) as (e1 & E & _ & _ & _ & N & _). rewrite E in H. injection H as <- _. split; intro X; [exfalso; now apply (proj2 G f)|now rewrite N].
Qed.
(** The lighting model stays, the emission factor is turned on by its element, the mode by <transparent>. *)
Lemma step_rest a e k n e' k' : LoadParameter a (e, k) n = Some (e', k') ->
  lit e' = lit e /\ (is_elem "emission_level" n -> is_factor e' = true) /\ (~ is_elem "emission_level" n -> is_factor e' = is_factor e) /\
  (is_elem "transparent" n -> mode e' = mode (read_mode n e)) /\ (~ is_elem "transparent" n -> mode e' = mode e).
Proof.
  intro H. destruct (named_case n) as [(g & G)|[(g & G)|G]].
  - rewrite (load_color _ _ _ _ _ G) in H. destruct (ParseColor _ _ _ _ _) as [e1|] eqn:E; [|discriminate]. injection H as <- _.
    apply parse_color in E. destruct E as (_ & _ & _ & L & M & F). destruct (read_mode_rest n e) as (_ & _ & L1 & F1).
    assert (W : forall h, is_elem (color_word h) n -> h = g) by (intros h X; apply color_words; eapply elem_word; eassumption).
    split; [rewrite L; destruct g; auto|]. split; [intro X; exfalso; apply (word_kinds g EmissionFactor); eapply elem_word; [exact G|exact X]|]. split; [intros _; rewrite F; destruct g; auto|]. split; intro X.
    + rewrite M. assert (Transparent = g) by (apply W; exact X). subst g. reflexivity.
    + rewrite M. destruct g; try reflexivity. contradiction.
  - rewrite (load_number _ _ _ _ _ G) in H. destruct (ParseNumber _ _ _ _ _) as [e1|] eqn:E; [|discriminate]. injection H as <- _.
    apply parse_number in E. destruct E as (_ & _ & _ & L & M & F). split; [destruct g; exact L|]. split; [|split; [|split]]; intro X.
    + assert (EmissionFactor = g) by (apply number_words; eapply elem_word; [exact X|exact G]). subst g. reflexivity.
    + destruct g; try exact F. contradiction.
    + exfalso. apply (word_kinds Transparent g). eapply elem_word; [exact X|exact G].
    + destruct g; exact M.
  - destruct (load_other a e k n G) as (e1 & E & L & M & _ & _ & F). rewrite E in H. injection H as <- _. split; [exact L|]. split; [intro X; exfalso; now apply (proj2 G EmissionFactor)|]. split; [auto|]. split; [intro X; exfalso; now apply (proj1 G Transparent)|auto].
Qed.
Definition says_translucency (n : xml) : Prop := is_elem "transparent" n \/ is_elem "transparency" n.
Definition says_reflectivity (n : xml) : Prop := is_elem "reflective" n \/ is_elem "reflectivity" n.
Lemma step_told a e k n e' k' : LoadParameter a (e, k) n = Some (e', k') ->
  (says_translucency n -> has_translucency k' = true) /\ (~ says_translucency n -> has_translucency k' = has_translucency k) /\
  (says_reflectivity n -> has_reflectivity k' = true) /\ (~ says_reflectivity n -> has_reflectivity k' = has_reflectivity k) /\
  (is_elem "index_of_refraction" n -> has_refractive k' = true) /\ (~ is_elem "index_of_refraction" n -> has_refractive k' = has_refractive k).
Proof.
  intro H. unfold says_translucency, says_reflectivity.
  destruct (named_case n) as [(g & G)|[(g & G)|G]].
  - rewrite (load_color _ _ _ _ _ G) in H. destruct (ParseColor _ _ _ _ _) as [e1|] eqn:E; [|discriminate]. injection H as _ <-.
    assert (W : forall h, is_elem (color_word h) n -> h = g) by (intros h X; apply color_words; eapply elem_word; eassumption).
    assert (V : forall h, ~ is_elem (number_word h) n) by (intros h X; apply (word_kinds g h); eapply elem_word; eassumption).
    assert (W1 := W Transparent). assert (W2 := W Reflective). assert (V1 := V TransparencyFactor). assert (V2 := V ReflectivityFactor). assert (V3 := V Refraction). cbn in W1, W2, V1, V2, V3.
    destruct g; cbn [see_color has_translucency has_reflectivity has_refractive color_word] in *;
    repeat split; intro X; try reflexivity; try (exfalso; tauto); try (destruct X as [X|X]; [|contradiction]; first [apply W1 in X | apply W2 in X]; discriminate).
  - rewrite (load_number _ _ _ _ _ G) in H. destruct (ParseNumber _ _ _ _ _) as [e1|] eqn:E; [|discriminate]. injection H as _ <-.
    assert (W : forall h, is_elem (number_word h) n -> h = g) by (intros h X; apply number_words; eapply elem_word; eassumption).
    assert (V : forall h, ~ is_elem (color_word h) n) by (intros h X; apply (word_kinds h g); eapply elem_word; eassumption).
    assert (W1 := W TransparencyFactor). assert (W2 := W ReflectivityFactor). assert (W3 := W Refraction). assert (V1 := V Transparent). assert (V2 := V Reflective). cbn in W1, W2, W3, V1, V2.
    destruct g; cbn [see_number has_translucency has_reflectivity has_refractive number_word] in *;
    repeat split; intro X; try reflexivity; try (exfalso; tauto); try (destruct X as [X|X]; [contradiction|]; first [apply W1 in X | apply W2 in X]; discriminate); try (apply W3 in X; discriminate).
  - destruct (load_other a e k n G) as (e1 & E & _). rewrite E in H. injection H as _ <-. destruct G as (G1 & G2).
    assert (W1 := G2 TransparencyFactor). assert (W2 := G2 ReflectivityFactor). assert (W3 := G2 Refraction). assert (V1 := G1 Transparent). assert (V2 := G1 Reflective). cbn in W1, W2, W3, V1, V2. tauto.
Qed.
