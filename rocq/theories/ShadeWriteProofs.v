(** The parameters of a document, and writing a standard effect. *)
From Coq Require Import String List ZArith QArith Bool Lia.
From Verif Require Import TextModel TextSpec StringModel StringProofs XmlModel IdModel IdProps FloatModel FloatSpec FloatProofs FloatProps DaeModel DaeSpec DaeProofs RigSpec RigTextProofs RigProofs RigWriteProofs NodeSpec NodeSafeProofs CustomModel LampModel LampSpec LampProofs LampSafeProofs LampWriteProofs LampCameraProps AnimModel WireModel ShadeModel ShadeSpec ShadeProofs.
Import ListNotations.
Local Open Scope list_scope.

(** *** Documents *)
Local Notation wanted := (fun c => is_element c && negb (named c "technique") && negb (named c "extra")).
Lemma elements_filter l s : elements_among l s -> filter wanted l = s.
Proof.
  induction 1 as [|t l s _ IH|c l s H _ IH|k attrs ch l s H1 H2 _ IH]; [reflexivity|exact IH| |].
  - cbn [filter]. destruct H as [H|H]; apply named_iff in H; rewrite H; rewrite ?andb_false_r; exact IH.
  - cbn [filter is_element]. assert (E1 : named (Elem k attrs ch) "technique" = false) by (apply named_not; intros (x & y & E); apply H1; now injection E).
    assert (E2 : named (Elem k attrs ch) "extra" = false) by (apply named_not; intros (x & y & E); apply H2; now injection E).
    rewrite E1, E2. cbn [negb andb]. now rewrite IH.
Qed.
Lemma tool_found t profile l : of_tool t profile l -> AnimModel.FindParameters (technique_in t profile) = filter wanted l.
Proof.
  assert (I : forall c, named c "technique" && text_eq (ReadNodeProperty c "profile") (tx profile) = true <-> is_elem "technique" c /\ ReadNodeProperty c "profile" = tx profile).
  { intro c. rewrite andb_true_iff, named_iff, text_eq_spec. reflexivity. }
  intros [(x & q & Hx & Hq & ->)|(H & ->)]; unfold technique_in.
  - rewrite (child_found _ _ _ Hx). unfold FindTechnique.
    rewrite (find_first _ (fun c => is_elem "technique" c /\ ReadNodeProperty c "profile" = tx profile) (children_of x) q); [reflexivity|intros; apply I|exact Hq].
  - destruct (FindChildByType t "extra") as [x|] eqn:Ex; [|reflexivity].
    assert (F : first_child (children_of t) (is_elem "extra") x).
    { unfold FindChildByType in Ex. clear H. revert Ex. induction (children_of t) as [|c r IH]; cbn [find]; [discriminate|]. destruct (named c "extra") eqn:E.
      - intro X. injection X as <-. apply first_here. now apply named_iff.
      - intro X. apply first_skip; [now apply named_not|]. exact (IH X). }
    specialize (H x F). unfold FindTechnique. destruct (find _ (children_of x)) as [q|] eqn:Eq; [|reflexivity].
    apply find_some in Eq. destruct Eq as (Hin & Hq). rewrite Forall_forall in H. exfalso. apply (H q Hin). now apply I.
Qed.
Lemma lighting_found ch k p : first_child ch (fun d => exists k, k <> OTHER /\ is_elem (lighting_word k) d) p -> k <> OTHER -> is_elem (lighting_word k) p ->
  find_lighting ch = Some (k, p).
Proof.
  intros (pre & post & -> & _ & Hpre) Hk Hp. induction Hpre as [|c pre Hc _ IH]; cbn [app find_lighting].
  - destruct Hp as (a & c & ->). destruct k; [reflexivity..|congruence].
  - rewrite (proj2 (named_not c "constant")) by (intro X; apply Hc; exists FLAT; split; [discriminate|exact X]).
    rewrite (proj2 (named_not c "lambert")) by (intro X; apply Hc; exists LAMBERT; split; [discriminate|exact X]).
    rewrite (proj2 (named_not c "phong")) by (intro X; apply Hc; exists PHONG; split; [discriminate|exact X]).
    rewrite (proj2 (named_not c "blinn")) by (intro X; apply Hc; exists BLINN; split; [discriminate|exact X]). exact IH.
Qed.
Lemma gives_parameters t k s : gives t k s -> parameters t = s /\ exists p, find_lighting (children_of t) = Some (k, p).
Proof.
  intros (p & l1 & l2 & l3 & Hp & Hk & Hpk & H1 & H2 & H3 & Hs). assert (L := lighting_found _ _ _ Hp Hk Hpk). split; [|exists p; exact L].
  unfold parameters. rewrite L. cbn [option_map snd]. rewrite (tool_found _ _ _ H1), (tool_found _ _ _ H2), (tool_found _ _ _ H3). cbn [AnimModel.FindParameters].
  rewrite <- !filter_app. now apply elements_filter.
Qed.
Lemma read_four a t x y z w : four_numbers t x y z w ->
  exists x' y' z' w' rest, ToVector4 a t = Some (Some (x', y', z', w'), rest) /\ (x' == x /\ y' == y /\ z' == z /\ w' == w)%Q.
Proof.
  intro H. destruct (floats_of_parse a t [x; y; z; w] H) as (rs & Hp & Hk).
  inversion Hk as [|? x' ? l1 A1 B1]; subst. inversion B1 as [|? y' ? l2 A2 B2]; subst. inversion B2 as [|? z' ? l3 A3 B3]; subst. inversion B3 as [|? w' ? l4 A4 B4]; subst. inversion B4; subst.
  exists x', y', z', w'. inversion Hp as [|s0 v0 s1 vs0 N0 R0 _ P0]; subst. inversion P0 as [|s0' v0 s2 vs0 _ R1 _ P1]; subst.
  inversion P1 as [|s0' v0 s3 vs0 _ R2 _ P2]; subst. inversion P2 as [|s0' v0 s4 vs0 N3 R3 _ P3]; subst.
  assert (E3 : ToFloats a 3 t = Some ([x'; y'; z'], s3)) by (cbn [ToFloats]; rewrite R0, R1, R2; reflexivity).
  exists s4. unfold ToVector4. destruct t as [|c t]; [congruence|]. rewrite E3. destruct s3 as [|d s3]; [congruence|]. rewrite R3. auto 10.
Qed.

(** *** Safety *)
Lemma four_safe t : ~ In 73%Z t -> exists v s, ToVector4 Wrapping t = Some (v, s).
Proof.
  assert (G : forall n u, ~ In 73%Z u -> exists l s, ToFloats Wrapping n u = Some (l, s) /\ List.length l = n /\ ~ In 73%Z s).
  { induction n as [|n IH]; intros u Hu; [exists [], u; auto|]. cbn [ToFloats].
    assert (X : exists q s, ToFloat Wrapping u = Some (q, s) /\ ~ In 73%Z s).
    { destruct u as [|c u]; [cbn; eauto|]. destruct (C78_safe (c :: u) Hu) as (q & s & E & _ & N); [discriminate|eauto]. }
    destruct X as (q & s & -> & N). destruct (IH s N) as (l & s' & -> & L & N'). exists (q :: l), s'. cbn. auto. }
  intro H. unfold ToVector4. destruct t as [|c t]; [eauto|]. destruct (G 3%nat _ H) as (l & s & -> & L & N).
  destruct l as [|x [|y [|z [|]]]]; try discriminate. destruct s as [|d s]; [eauto|]. destruct (float_safe (d :: s) N) as (q & r & ->). eauto.
Qed.
Lemma find_child_calm n k c : calm n -> FindChildByType n k = Some c -> calm c.
Proof. intros H E. apply find_some in E. eapply calm_children; [exact H|apply E]. Qed.
Lemma text_calm n k : calm n -> ~ In 73%Z (text_of (FindChildByType n k)).
Proof. intro H. unfold text_of. destruct (FindChildByType n k) as [c|] eqn:E; [|intros []]. apply calm_content. eapply find_child_calm; eassumption. Qed.
Lemma parse_color_safe e n f c : calm n -> exists e', ParseColor Wrapping e n f c = Some e'.
Proof.
  intro H. unfold ParseColor. destruct (texture_in c n e); [eauto|]. destruct (FindChildByType n "param"); [eauto|]. destruct (four_safe _ (text_calm n "color" H)) as (v & s & ->). eauto.
Qed.
Lemma parse_number_safe e n f c : calm n -> exists e', ParseNumber Wrapping e n f c = Some e'.
Proof.
  intro H. unfold ParseNumber. destruct (texture_in c n e); [eauto|]. destruct (FindChildByType n "param"); [eauto|]. destruct (float_safe _ (text_calm n "float" H)) as (v & s & ->). eauto.
Qed.
Lemma load_safe x n : calm n -> exists y, LoadParameter Wrapping x n = Some y.
Proof.
  intro H. destruct x as [e k]. unfold LoadParameter. destruct (find _ _) as [f|].
  - destruct (parse_color_safe (match f with Transparent => read_mode n e | _ => e end) n f (Some (color_channel f)) H) as (e' & ->). cbn. eauto.
  - destruct (find _ _) as [f|]; [|eauto]. destruct (parse_number_safe e n f (number_channel f) H) as (e' & ->). cbn. eauto.
Qed.
Lemma block_calm n c : calm n -> In c (AnimModel.FindParameters (Some n)) -> calm c.
Proof. intros H Hc. cbn in Hc. apply filter_In in Hc. eapply calm_children; [exact H|apply Hc]. Qed.
Lemma tool_calm t k c : calm t -> In c (AnimModel.FindParameters (technique_in t k)) -> calm c.
Proof.
  intros H Hc. unfold technique_in in Hc. destruct (FindChildByType t "extra") as [x|] eqn:Ex; [|destruct Hc]. destruct (FindTechnique x k) as [q|] eqn:Eq; [|destruct Hc].
  eapply block_calm; [|exact Hc]. apply find_some in Eq. eapply calm_children; [eapply find_child_calm; eassumption|apply Eq].
Qed.
Lemma find_lighting_in l k p : find_lighting l = Some (k, p) -> In p l.
Proof.
  induction l as [|c l IH]; cbn [find_lighting]; [discriminate|]. repeat (destruct (named c _); [intro H; injection H as _ <-; left; reflexivity|]). intro H. right. auto.
Qed.
Lemma parameters_calm t c : calm t -> In c (parameters t) -> calm c.
Proof.
  intros H Hc. unfold parameters in Hc. rewrite !in_app_iff in Hc. destruct Hc as [Hc|[Hc|[Hc|Hc]]]; try (eapply tool_calm; eassumption).
  destruct (find_lighting (children_of t)) as [[k p]|] eqn:E; [|destruct Hc]. cbn [option_map snd] in Hc. eapply block_calm; [|exact Hc].
  eapply calm_children; [exact H|]. eapply find_lighting_in. exact E.
Qed.

(** *** Writing *)
Inductive item := IC (f : cfield) | IN (f : sfield).
Section Written.
Variable a : arith.
Variable e : effect.
Variable ct : cfield -> list Z.
Variable st : sfield -> list Z.
Variable cv : cfield -> rgba.
Variable sv : sfield -> Q.
Hypothesis Hc : forall f, exists r, ToVector4 a (text_of (Some (Elem (tx "color") [] (content (AddContent (ct f)))))) = Some (Some (cv f), r).
Hypothesis Hs : forall f, exists r, ToFloat a (text_of (Some (Elem (tx "float") [] (content (st f))))) = Some (sv f, r).
Hypothesis Rc : forall f r, snd (color_of e f) = Some r -> reference_of (write_reference r) = r.
Hypothesis Rs : forall f r, snd (number_of e f) = Some r -> reference_of (write_reference r) = r.
Definition elem_of (i : item) : xml :=
  match i with
  | IC f => color_element f (match f with Transparent => [(tx "opaque", tx (mode_name (mode e)))] | _ => [] end) (color_of e f) (ct f) []
  | IN f => number_element f (number_of e f) (st f) []
  end.
Definition new_color (f : cfield) (old : parameter_of (option rgba)) : parameter_of (option rgba) :=
  match snd (color_of e f) with None => (Some (cv f), snd old) | Some r => (fst old, Some r) end.
Definition new_number (f : sfield) (old : parameter_of Q) : parameter_of Q :=
  match snd (number_of e f) with None => (sv f, snd old) | Some r => (fst old, Some r) end.
Definition next (s : effect * told) (i : item) : effect * told :=
  let '(x, k) := s in
  match i with
  | IC f => let y := match f with Transparent => set_mode (mode e) x | _ => x end in (update_color f (new_color f (color_of y f)) y, see_color f k)
  | IN f => let y := update_number f (new_number f (number_of x f)) x in (match f with EmissionFactor => set_factor true y | _ => y end, see_number f k)
  end.
Lemma next_loaded s i : LoadParameter a s (elem_of i) = Some (next s i).
Proof.
  destruct s as [x k], i as [f|f]; cbn [elem_of].
  - rewrite (load_color a x k _ f) by (destruct f; do 2 eexists; reflexivity).
    set (n := color_element f _ _ _ _).
    assert (M : match f with Transparent => read_mode n x | _ => x end = match f with Transparent => set_mode (mode e) x | _ => x end).
    { destruct f; try reflexivity. unfold n, read_mode. destruct (mode e); reflexivity. }
    rewrite M. cbn [next]. set (y := match f with Transparent => set_mode (mode e) x | _ => x end). unfold ParseColor, texture_in, new_color.
    assert (T : texture_count n = O) by (unfold n, color_element; destruct (snd (color_of e f)); reflexivity). rewrite T.
    unfold n, color_element. destruct (snd (color_of e f)) as [r|] eqn:Er.
    + change (FindChildByType _ "param") with (Some (write_reference r)). cbv iota beta. rewrite (Rc f r Er). reflexivity.
    + change (FindChildByType _ "param") with (@None xml). change (FindChildByType _ "color") with (Some (Elem (tx "color") [] (content (AddContent (ct f))))).
      destruct (Hc f) as (r & E). rewrite E. reflexivity.
  - rewrite (load_number a x k _ f) by (destruct f; do 2 eexists; reflexivity).
    set (n := number_element f _ _ _).
    cbn [next]. unfold ParseNumber, texture_in, new_number.
    assert (T : texture_count n = O) by (unfold n, number_element; destruct (snd (number_of e f)); reflexivity). rewrite T.
    unfold n, number_element. destruct (snd (number_of e f)) as [r|] eqn:Er.
    + change (FindChildByType _ "param") with (Some (write_reference r)). cbv iota beta. rewrite (Rs f r Er). destruct (number_channel f), f; reflexivity.
    + change (FindChildByType _ "param") with (@None xml). change (FindChildByType _ "float") with (Some (Elem (tx "float") [] (content (st f)))).
      destruct (Hs f) as (r & E). rewrite E. destruct (number_channel f), f; reflexivity.
Qed.
Lemma all_loaded l : forall s, fold_option (LoadParameter a) (map elem_of l) (Some s) = Some (fold_left next l s).
Proof. induction l as [|i l IH]; intro s; [reflexivity|]. cbn [map fold_left]. rewrite fold_cons, next_loaded. apply IH. Qed.
Definition items : list item :=
  ((if is_factor e then [] else [IC Emission]) ++ (match lit e with FLAT => [] | _ => [IC Ambient; IC Diffuse] end) ++
   (if is_shiny (lit e) then [IC Specular; IN Shininess] else []) ++ (if is_reflective e then [IC Reflective; IN ReflectivityFactor] else []) ++
   [IC Transparent; IN TransparencyFactor] ++ (if is_refractive e then [IN Refraction] else [])) ++
  (if is_shiny (lit e) then (if Qeq_bool (fst (number_of e SpecularFactor)) 1 then [] else [IN SpecularFactor]) else []) ++
  (if is_factor e then [IN EmissionFactor] else []).
Lemma items_written ts : (forall c, ts c = []) -> common_elements e ct st ts ++ own_elements e st ts = map elem_of items.
Proof.
  intro T. unfold common_elements, own_elements, items, texture_element. rewrite !T.
  destruct (is_factor e), (lit e), (is_reflective e), (is_refractive e), (Qeq_bool _ 1); reflexivity.
Qed.
End Written.
Lemma item_wanted e ct st i : wanted (elem_of e ct st i) = true.
Proof. destruct i as [[]|[]]; reflexivity. Qed.
Lemma loaded_form a x before after sid e ct st ts cv sv :
  (forall f, exists r, ToVector4 a (text_of (Some (Elem (tx "color") [] (content (AddContent (ct f)))))) = Some (Some (cv f), r)) ->
  (forall f, exists r, ToFloat a (text_of (Some (Elem (tx "float") [] (content (st f))))) = Some (sv f, r)) ->
  (forall f r, snd (color_of e f) = Some r -> reference_of (write_reference r) = r) ->
  (forall f r, snd (number_of e f) = Some r -> reference_of (write_reference r) = r) ->
  (forall c, ts c = []) -> lit e <> OTHER -> Forall (fun c => ~ is_elem "technique" c) before ->
  LoadEffectStandard a x (effect_element before after sid e ct st ts) =
    Some (finish (fold_left (next e cv sv) (items e) (set_lit (lit e) x, Told false false false))).
Proof.
  intros Hc Hs Rc Rs T L B. unfold LoadEffectStandard, effect_element.
  match goal with |- context [before ++ ?t :: after] => set (tq := t) end.
  assert (F : FindChildByType (Elem (tx "profile_COMMON") [] (before ++ tq :: after)) "technique" = Some tq).
  { apply child_found. exists before, after. split; [reflexivity|]. split; [do 2 eexists; reflexivity|exact B]. }
  rewrite F.
  assert (K : find_lighting (children_of tq) = Some (lit e, Elem (tx (lighting_name (lit e))) [] (common_elements e ct st ts))).
  { unfold tq. destruct (lit e); try reflexivity. congruence. }
  rewrite K.
  assert (P : parameters tq = map (elem_of e ct st) (items e)).
  { unfold parameters. rewrite K. cbn [option_map snd].
    assert (Q0 : forall p, technique_in tq p = FindTechnique (WireModel.AddExtraTechniqueChild (own_elements e st ts)) p) by (intro p; unfold technique_in, tq; destruct (lit e); reflexivity).
    rewrite !Q0. change (FindTechnique _ "MAX3D") with (@None xml). change (FindTechnique _ "MAYA") with (@None xml).
    change (FindTechnique _ "FCOLLADA") with (Some (Elem (tx "technique") [(tx "profile", tx "FCOLLADA")] (own_elements e st ts))).
    cbn [AnimModel.FindParameters children_of app]. rewrite <- filter_app, (items_written e ct st ts T).
    induction (items e) as [|i l IH]; [reflexivity|]. cbn [map filter]. rewrite item_wanted. now rewrite IH. }
  rewrite P, (all_loaded a e ct st cv sv Hc Hs Rc Rs). reflexivity.
Qed.
