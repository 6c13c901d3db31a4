(** Reading lights and cameras. *)
From Coq Require Import String List ZArith QArith Bool Lia.
From Verif Require Import TextModel TextSpec TextProofs StringModel StringProofs XmlModel FloatModel FloatSpec FloatProofs FloatProps DaeModel DaeSpec DaeProofs ExtraModel RigSpec RigTextProofs RigProofs CustomModel CustomSpec CustomProofs CustomNoteProofs LampModel LampSpec.
Import ListNotations.
Local Open Scope list_scope.

(** *** Folds in which the last one counts *)
Lemma fold_none {A B} (f : A -> B -> option A) l : fold_option f l None = None.
Proof. unfold fold_option. induction l as [|b l IH]; cbn; auto. Qed.
Lemma fold_cons {A B} (f : A -> B -> option A) b l x : fold_option f (b :: l) (Some x) = fold_option f l (f x b).
Proof. reflexivity. Qed.
Lemma fold_total {A B} (f : A -> B -> option A) l : (forall x b, In b l -> exists y, f x b = Some y) -> forall x, exists y, fold_option f l (Some x) = Some y.
Proof.
  induction l as [|b l IH]; intros H x; [eexists; reflexivity|]. rewrite fold_cons. destruct (H x b (or_introl eq_refl)) as (y & ->).
  apply IH. intros; apply H; right; assumption.
Qed.
Lemma fold_last {A B O} (f : A -> B -> option A) (obs : A -> O) (hit : B -> bool) (R : B -> O -> Prop) :
  (forall x b y, f x b = Some y -> hit b = true -> R b (obs y)) ->
  (forall x b y, f x b = Some y -> hit b = false -> obs y = obs x) ->
  forall l x y, fold_option f l (Some x) = Some y ->
    (forall before b after, l = before ++ b :: after -> hit b = true -> (forall c, In c after -> hit c = false) -> R b (obs y)) /\
    ((forall b, In b l -> hit b = false) -> obs y = obs x).
Proof.
  intros H1 H2. induction l as [|b l IH]; intros x y E.
  - cbn in E. injection E as <-. split; [intros [|? ?] ? ? X; discriminate X|auto].
  - rewrite fold_cons in E. destruct (f x b) as [z|] eqn:Ez; [|rewrite fold_none in E; discriminate]. destruct (IH z y E) as (I1 & I2). split.
    + intros [|d before] c after X Hc Ha; cbn in X; injection X as -> ->.
      * rewrite I2 by exact Ha. exact (H1 x c z Ez Hc).
      * now apply (I1 before c after).
    + intro Hn. rewrite I2 by (intros; apply Hn; right; assumption). apply (H2 x b z Ez). apply Hn. left. reflexivity.
Qed.
Lemma fold_hits {A B O} (f : A -> B -> option A) (obs : A -> O) (hit : B -> bool) (R : B -> O -> Prop) (G : O -> Prop) :
  (forall x b y, f x b = Some y -> hit b = true -> R b (obs y)) ->
  (forall x b y, f x b = Some y -> hit b = false -> obs y = obs x) ->
  forall l x y, fold_option f l (Some x) = Some y -> (exists b, In b l /\ hit b = true) -> (forall b o, In b l -> hit b = true -> R b o -> G o) -> G (obs y).
Proof.
  intros H1 H2 l x y E (b & Hb & Hh) HG.
  assert (X : exists before c after, l = before ++ c :: after /\ hit c = true /\ forall d, In d after -> hit d = false).
  { clear -Hb Hh. induction l as [|d l IH]; [destruct Hb|]. destruct (existsb hit l) eqn:Ex.
    - apply existsb_exists in Ex. destruct Ex as (c & Hc & Hhc).
      assert (X : exists before c after, l = before ++ c :: after /\ hit c = true /\ forall d, In d after -> hit d = false).
      { clear -Hc Hhc. revert c Hc Hhc. induction l as [|d l IH]; intros c Hc Hh; [destruct Hc|]. destruct (existsb hit l) eqn:Ex.
        - apply existsb_exists in Ex. destruct Ex as (e & He & Hhe). destruct (IH e He Hhe) as (p & q & r & -> & X1 & X2). exists (d :: p), q, r. auto.
        - destruct Hc as [-> |Hc].
          + exists [], c, l. split; [reflexivity|]. split; [exact Hh|]. intros e He. destruct (hit e) eqn:Ee; [|reflexivity].
            assert (existsb hit l = true) by (apply existsb_exists; eauto). congruence.
          + assert (existsb hit l = true) by (apply existsb_exists; eauto). congruence. }
      destruct X as (p & q & r & -> & X1 & X2). exists (d :: p), q, r. auto.
    - destruct Hb as [-> |Hb].
      + exists [], b, l. split; [reflexivity|]. split; [exact Hh|]. intros e He. destruct (hit e) eqn:Ee; [|reflexivity].
        assert (existsb hit l = true) by (apply existsb_exists; eauto). congruence.
      + assert (existsb hit l = true) by (apply existsb_exists; eauto). congruence. }
  destruct X as (before & c & after & -> & X1 & X2). destruct (fold_last f obs hit R H1 H2 _ x y E) as (F & _).
  apply (HG c); [apply in_app_iff; right; left; reflexivity|exact X1|]. exact (F before c after eq_refl X1 X2).
Qed.

(** *** Numbers *)
Lemma read_one a t q : one_number t q -> exists r rest, ToFloat a t = Some (r, rest) /\ (r == q)%Q.
Proof.
  intro H. destruct (floats_of_parse a t [q] H) as (rs & Hp & Hk). inversion Hk as [|? r ? l A B]; subst. inversion B; subst.
  inversion Hp as [|s v s' vs N E L P]; subst. eauto.
Qed.
Lemma read_three a t x y z : three_numbers t x y z -> exists x' y' z' rest, ToVector3 a t = Some (Some (x', y', z'), rest) /\ (x' == x)%Q /\ (y' == y)%Q /\ (z' == z)%Q.
Proof.
  intro H. destruct (floats_of_parse a t [x; y; z] H) as (rs & Hp & Hk).
  inversion Hk as [|? x' ? l1 A1 B1]; subst. inversion B1 as [|? y' ? l2 A2 B2]; subst. inversion B2 as [|? z' ? l3 A3 B3]; subst. inversion B3; subst.
  exists x', y', z'. pose proof (to_floats_parse a t _ Hp) as E. inversion Hp as [|s v s' vs N _ _ _]; subst. unfold ToVector3.
  destruct t as [|c t]; [congruence|]. cbn [List.length] in E. rewrite E. eauto 10.
Qed.

(** *** Names *)
Lemma word_name f : tx (field_name f) = word f. Proof. destruct f; reflexivity. Qed.
Lemma word_inj f g : word f = word g -> f = g.
Proof. destruct f, g; intro H; try reflexivity; vm_compute in H; discriminate H. Qed.
Lemma field_eq_iff f g : field_eq f g = true <-> f = g.
Proof. destruct f, g; cbn; split; intro H; try reflexivity; discriminate H. Qed.
Lemma eq_text_iff a b : text_eq a b = true <-> a = b.
Proof. apply text_eq_spec. Qed.
Lemma eq_text_not a b : text_eq a b = false <-> a <> b.
Proof. destruct (text_eq a b) eqn:E; [apply text_eq_spec in E|]; split; intro H; try congruence. intro X. apply text_eq_spec in X. congruence. Qed.
Lemma field_of_iff n f : field_of n = Some f <-> n = word f.
Proof.
  unfold field_of. split.
  - intro H. apply find_some in H. destruct H as (_ & H). apply eq_text_iff in H. now rewrite word_name in H.
  - intros ->. destruct f; vm_compute; reflexivity.
Qed.
Lemma field_of_none n : field_of n = None <-> forall f, n <> word f.
Proof.
  split.
  - intros H f E. apply field_of_iff in E. congruence.
  - intro H. destruct (field_of n) as [f|] eqn:E; [|reflexivity]. apply field_of_iff in E. now apply H in E.
Qed.
Lemma penumbra_not_word f : tx "penumbra_angle" <> word f.
Proof. destruct f; intro H; vm_compute in H; discriminate H. Qed.
Lemma color_not_word f : tx "color" <> word f.
Proof. destruct f; intro H; vm_compute in H; discriminate H. Qed.

(** *** The elements *)
Definition common_step (a : arith) (l : light) (p : str * str) : option light :=
  if text_eq (fst p) (tx "color") then match ToVector3 a (snd p) with Some (c, _) => Some (Light (kind l) c (value l)) | None => None end
  else match find (fun f => text_eq (fst p) (tx (field_name f))) [Constant; Linear; Quadratic; FallOffExponent; FallOffAngle] with
       | Some f => match ToFloat a (snd p) with Some (v, _) => Some (set_value f v l) | None => None end
       | None => Some l
       end.
Lemma parameters_settings ch s : settings ch s -> forall k attrs,
  Forall2 (fun c p => exists attrs ch', c = Elem (fst p) attrs ch' /\ ReadNodeContentDirect c = snd p) (FindParameters (Elem k attrs ch)) s.
Proof.
  intros H k attrs. unfold FindParameters. cbn [children_of]. induction H as [|t l s H IH|c l s Hc H IH|k' attrs' ch' t l s N1 N2 Ht H IH]; cbn [filter].
  - constructor.
  - exact IH.
  - destruct Hc as [(a1 & c1 & ->)|(a1 & c1 & ->)]; exact IH.
  - cbn [is_element named]. destruct (text_eq k' (tx "technique")) eqn:E1; [apply eq_text_iff in E1; contradiction|].
    destruct (text_eq k' (tx "extra")) eqn:E2; [apply eq_text_iff in E2; contradiction|]. cbn [orb negb andb]. constructor; [|exact IH].
    cbn [fst snd]. exists attrs', ch'. split; [reflexivity|]. now apply has_text_read.
Qed.
Lemma fold_pairs {A} (f : A -> xml -> option A) (g : A -> str * str -> option A) cs s :
  (forall x c p attrs ch, c = Elem (fst p) attrs ch -> ReadNodeContentDirect c = snd p -> f x c = g x p) ->
  Forall2 (fun c p => exists attrs ch', c = Elem (fst p) attrs ch' /\ ReadNodeContentDirect c = snd p) cs s ->
  forall x, fold_option f cs x = fold_option g s x.
Proof.
  intros H F. induction F as [|c p cs s (attrs & ch & E1 & E2) F IH]; intros [x|]; try reflexivity; [|now rewrite !fold_none].
  rewrite !fold_cons. rewrite (H x c p attrs ch E1 E2). apply IH.
Qed.
Lemma common_pairs a x c p attrs ch : c = Elem (fst p) attrs ch -> ReadNodeContentDirect c = snd p -> LoadCommon a x c = common_step a x p.
Proof.
  intros -> E. unfold LoadCommon, common_step. rewrite E. reflexivity.
Qed.
Lemma common_field n f : find (fun f => text_eq n (tx (field_name f))) [Constant; Linear; Quadratic; FallOffExponent; FallOffAngle] = Some f <-> n = word f /\ standard f.
Proof.
  split.
  - intro H. apply find_some in H. destruct H as (I & H). apply eq_text_iff in H. rewrite word_name in H. split; [exact H|].
    cbn in I. repeat (destruct I as [<-|I]; [exact Logic.I|]). destruct I.
  - intros (-> & S). destruct f; try contradiction; vm_compute; reflexivity.
Qed.
Definition hits (f : field) (p : str * str) : bool := text_eq (fst p) (word f).
Lemma common_hit a f : standard f -> forall x p y, common_step a x p = Some y -> hits f p = true -> exists r rest, ToFloat a (snd p) = Some (r, rest) /\ value y f = r.
Proof.
  intros Sf x p y H E. apply eq_text_iff in E. unfold common_step in H. destruct (text_eq (fst p) (tx "color")) eqn:Ec.
  - apply eq_text_iff in Ec. exfalso. apply (color_not_word f). congruence.
  - rewrite (proj2 (common_field (fst p) f)) in H by auto. destruct (ToFloat a (snd p)) as [[v rest]|]; [|discriminate]. injection H as <-.
    cbn. rewrite (proj2 (field_eq_iff f f) eq_refl). eauto.
Qed.
Lemma common_miss a f : forall x p y, common_step a x p = Some y -> hits f p = false \/ ~ standard f -> value y f = value x f.
Proof.
  intros x p y H E. unfold common_step in H. destruct (text_eq (fst p) (tx "color")) eqn:Ec.
  - destruct (ToVector3 a (snd p)) as [[c rest]|]; [|discriminate]. injection H as <-. reflexivity.
  - destruct (find _ _) as [g|] eqn:Eg; [|injection H as <-; reflexivity]. apply common_field in Eg. destruct Eg as (Eg & Sg).
    destruct (ToFloat a (snd p)) as [[v rest]|]; [|discriminate]. injection H as <-. cbn. destruct (field_eq f g) eqn:Ef; [|reflexivity].
    apply field_eq_iff in Ef. subst g. destruct E as [E|E]; [|contradiction]. apply eq_text_not in E. contradiction.
Qed.
Lemma common_kind a x p y : common_step a x p = Some y -> kind y = kind x.
Proof.
  intro H. unfold common_step in H. destruct (text_eq (fst p) (tx "color")).
  - destruct (ToVector3 a (snd p)) as [[c rest]|]; [|discriminate]. now injection H as <-.
  - destruct (find _ _) as [g|]; [|now injection H as <-]. destruct (ToFloat a (snd p)) as [[v rest]|]; [|discriminate]. now injection H as <-.
Qed.
Definition colored (p : str * str) : bool := text_eq (fst p) (tx "color").
Lemma color_hit a x p y : common_step a x p = Some y -> colored p = true -> exists rest, ToVector3 a (snd p) = Some (color y, rest).
Proof.
  intros H E. unfold common_step in H. unfold colored in E. rewrite E in H. destruct (ToVector3 a (snd p)) as [[c rest]|]; [|discriminate].
  injection H as <-. cbn. eauto.
Qed.
Lemma color_miss a x p y : common_step a x p = Some y -> colored p = false -> color y = color x.
Proof.
  intros H E. unfold common_step in H. unfold colored in E. rewrite E in H. destruct (find _ _) as [g|]; [|now injection H as <-].
  destruct (ToFloat a (snd p)) as [[v rest]|]; [|discriminate]. now injection H as <-.
Qed.

(** *** The parameters of the tree *)
Lemma parameter_hit a f x p y : LoadParameter a x p = Some y -> hits f p = true -> exists r rest, ToFloat a (snd p) = Some (r, rest) /\ value (fst y) f = r.
Proof.
  intros H E. apply eq_text_iff in E. unfold LoadParameter in H. rewrite (proj2 (field_of_iff (fst p) f) E) in H.
  destruct (ToFloat a (snd p)) as [[v rest]|]; [|discriminate]. injection H as <-. cbn. rewrite (proj2 (field_eq_iff f f) eq_refl). eauto.
Qed.
Lemma parameter_miss a f x p y : LoadParameter a x p = Some y -> hits f p = false -> value (fst y) f = value (fst x) f.
Proof.
  intros H E. apply eq_text_not in E. unfold LoadParameter in H. destruct (field_of (fst p)) as [g|] eqn:Eg.
  - destruct (ToFloat a (snd p)) as [[v rest]|]; [|discriminate]. injection H as <-. cbn. destruct (field_eq f g) eqn:Ef; [|reflexivity].
    apply field_eq_iff in Ef. subst g. apply field_of_iff in Eg. contradiction.
  - destruct (text_eq (fst p) (tx "penumbra_angle")); now injection H as <-.
Qed.
Lemma parameter_rest a x p y : LoadParameter a x p = Some y -> kind (fst y) = kind (fst x) /\ color (fst y) = color (fst x).
Proof.
  intro H. unfold LoadParameter in H. destruct (field_of (fst p)) as [g|].
  - destruct (ToFloat a (snd p)) as [[v rest]|]; [|discriminate]. injection H as <-. auto.
  - destruct (text_eq (fst p) (tx "penumbra_angle")); injection H as <-; auto.
Qed.
Definition penumbra_hit (p : str * str) : bool := text_eq (fst p) (tx "penumbra_angle").
Lemma penumbra_step a x p y : LoadParameter a x p = Some y -> penumbra_hit p = true -> snd y = Some (snd p).
Proof.
  intros H E. unfold penumbra_hit in E. unfold LoadParameter in H. rewrite E in H. apply eq_text_iff in E.
  rewrite (proj2 (field_of_none (fst p))) in H; [|intros f X; apply (penumbra_not_word f); congruence]. now injection H as <-.
Qed.
Lemma penumbra_keep a x p y : LoadParameter a x p = Some y -> penumbra_hit p = false -> snd y = snd x.
Proof.
  intros H E. unfold penumbra_hit in E. unfold LoadParameter in H. rewrite E in H. destruct (field_of (fst p)) as [g|].
  - destruct (ToFloat a (snd p)) as [[v rest]|]; [|discriminate]. now injection H as <-.
  - now injection H as <-.
Qed.

(** *** The tree of an entity *)
Definition default_type (t : etype) : bool := if str_eq_dec (fst t) [] then true else false.
Lemma default_find f (e : extra) e' : default_then f e = Some e' -> exists before ts after, e = before ++ ([], ts) :: after /\ ~ In [] (map fst before) /\
  e' = before ++ f ([], ts) :: after /\ find default_type e = Some ([], ts).
Proof.
  revert e'. induction e as [|[n ts] r IH]; intros e' H; cbn [default_then] in H; [discriminate|]. cbn [fst] in H.
  unfold default_type. cbn [find fst]. destruct (str_eq_dec n []) as [-> |N].
  - injection H as <-. exists [], ts, r. auto.
  - destruct (default_then f r) as [r'|] eqn:E; [|discriminate]. injection H as <-. destruct (IH r' eq_refl) as (b & us & c & -> & X1 & -> & X3).
    exists ((n, ts) :: b), us, c. split; [reflexivity|]. split; [|split; [reflexivity|exact X3]]. cbn. intros [X|X]; auto.
Qed.
Lemma find_then f (e : extra) ts : find default_type e = Some ([], ts) -> exists e', default_then f e = Some e'.
Proof.
  induction e as [|[n us] r IH]; cbn [find default_then]; [discriminate|]. unfold default_type at 1. cbn [fst]. destruct (str_eq_dec n []) as [-> |N]; intro H; [eexists; reflexivity|].
  destruct (IH H) as (e' & ->). eexists. reflexivity.
Qed.
Lemma find_middle before ts after : ~ In [] (map fst before) -> find default_type (before ++ ([] : str, ts) :: after) = Some ([], ts).
Proof.
  induction before as [|[n us] r IH]; cbn [app find map In fst]; intro H; [reflexivity|]. unfold default_type at 1. cbn [fst]. destruct (str_eq_dec n []) as [-> |N]; [tauto|]. apply IH. tauto.
Qed.
Lemma loaded_default n e note target : LoadTargetedEntity n = Some (e, note, target) -> exists ts, find default_type e = Some ([], ts).
Proof.
  unfold LoadTargetedEntity. destruct (LoadEntityExtra (children_of n) new_extra []) as [[e0 note0]|]; [|discriminate].
  destruct (default_then (LoadExtraType n) e0) as [e1|] eqn:E1; [|discriminate].
  destruct (default_find _ _ _ E1) as (b & ts & c & _ & N & -> & _). unfold LoadExtraType. cbn [fst].
  rewrite (find_middle b _ c N : find (fun t => if str_eq_dec (fst t) [] then true else false) _ = _).
  destruct (take_root (tx "target") _) as [[v ts']|]; intro H.
  - destruct (default_then _ _) as [e2|] eqn:E2 in H; [|discriminate]. injection H as <- _ _. destruct (default_find _ _ _ E2) as (b' & us & c' & _ & N' & -> & _).
    cbn [fst]. rewrite find_middle by exact N'. eauto.
  - injection H as <- _ _. rewrite find_middle by exact N. eauto.
Qed.
Lemma tree_of e ts : find default_type e = Some ([], ts) -> tree_settings e = tree_parameters ts.
Proof.
  intro H. unfold tree_settings, tree_parameters.
  assert (E : forall l : extra, find (fun t => match fst t with [] => true | _ => false end) l = find default_type l).
  { induction l as [|[n us] r IH]; [reflexivity|]. cbn [find]. unfold default_type at 1. cbn [fst]. destruct (str_eq_dec n []) as [-> |N]; [reflexivity|].
    destruct n; [contradiction|exact IH]. }
  rewrite E, H. cbn [snd]. apply flat_map_ext. intros [p [n t attrs kids]]. reflexivity.
Qed.
Lemma is_value_like x : is_value x = value_like x.
Proof.
  destruct x as [n t attrs [|k kids]]; [|reflexivity]. unfold is_value, value_like. cbn [leaf fst].
  destruct (field_of n) as [f|] eqn:E.
  - apply field_of_iff in E. subst n. destruct f; vm_compute; reflexivity.
  - symmetry. apply Bool.not_true_iff_false. intro H. apply existsb_exists in H. destruct H as (f & _ & H).
    destruct (str_eq_dec n (word f)) as [-> |]; [|discriminate]. assert (X : field_of (word f) = Some f) by (now apply field_of_iff). congruence.
Qed.
Lemma dropped e ts : find default_type e = Some ([], ts) -> exists e', default_then (fun t => (fst t, map drop_values ts)) e = Some e' /\ without_values e e'.
Proof.
  intro H. destruct (find_then (fun t => (fst t, map drop_values ts)) e ts H) as (e' & E). exists e'. split; [exact E|].
  destruct (default_find _ _ _ E) as (b & us & c & -> & N & -> & Hf). rewrite H in Hf. injection Hf as <-. exists b, ts, c. split; [reflexivity|]. split; [exact N|].
  cbn [fst]. f_equal. f_equal. f_equal. apply map_ext. intros [p [n t attrs kids]]. unfold drop_values. cbn [snd fst]. do 2 f_equal.
  apply filter_ext. intro x. now rewrite is_value_like.
Qed.
Lemma find_elem_named name ch c : first_child ch (is_elem name) c -> find (fun d => named d name) ch = Some c.
Proof.
  intros (pre & post & -> & Hc & Hp). induction Hp as [|d pre Hd Hp IH]; cbn [app find].
  - destruct Hc as (a & ch & ->). cbn [named]. now rewrite (proj2 (eq_text_iff _ _) eq_refl).
  - destruct (named d name) eqn:E; [|exact IH]. exfalso. apply Hd. destruct d as [k a ch|t]; [|discriminate]. cbn in E. apply eq_text_iff in E. subst. do 2 eexists. reflexivity.
Qed.
Lemma kind_words k : kind_name k = kind_word k. Proof. destruct k; reflexivity. Qed.
Lemma find_kind_first ch k p : first_child ch (fun d => exists k, is_elem (kind_word k) d) p -> is_elem (kind_word k) p -> find_kind ch = Some (k, p).
Proof.
  intros (pre & post & -> & _ & Hp) Hk. induction Hp as [|d pre Hd Hp IH]; cbn [app find_kind].
  - destruct Hk as (a & c & ->). destruct k; vm_compute; reflexivity.
  - assert (F : forall k, named d (kind_word k) = false).
    { intro k'. destruct (named d (kind_word k')) eqn:E; [|reflexivity]. exfalso. apply Hd. exists k'. destruct d as [n a c|t]; [|discriminate]. cbn in E. apply eq_text_iff in E. subst.
      do 2 eexists. reflexivity. }
    rewrite (F POINT : named d "point" = false), (F SPOT : named d "spot" = false), (F AMBIENT : named d "ambient" = false), (F DIRECTIONAL : named d "directional" = false). exact IH.
Qed.

(** *** A light of a document *)
Definition start_light (k : lkind) : light := Light k (color new_light) (value new_light).
(** What LoadLight does once the elements and the tree are known. *)
Lemma load_light_form a attrs ch e note target c k p s ts :
  LoadTargetedEntity (Elem (tx "light") attrs ch) = Some (e, note, target) -> first_child ch (is_elem "technique_common") c ->
  first_child (children_of c) (fun d => exists k, is_elem (kind_word k) d) p -> is_elem (kind_word k) p -> settings (children_of p) s ->
  find default_type e = Some ([], ts) ->
  LoadLight a (Elem (tx "light") attrs ch) =
    match fold_option (common_step a) s (Some (start_light k)) with
    | Some l1 =>
        match fold_option (LoadParameter a) (tree_parameters ts) (Some (l1, None)) with
        | None => None
        | Some (l2, None) => option_map (fun e' => (l2, e', note, target)) (default_then (fun t => (fst t, map drop_values ts)) e)
        | Some (l2, Some content) =>
            match ToFloat a content with
            | None => None
            | Some (v, _) =>
                option_map (fun e' => (LoadPenumbra l2 v, e', note, target))
                  (default_then (fun t => (fst t, match drop_penumbra (map drop_values ts) with Some ts2 => ts2 | None => map drop_values ts end)) e)
            end
        end
    | None => None
    end.
Proof.
  intros HL Hc Hp Hk Hs Hf. unfold LoadLight. rewrite HL. unfold FindChildByType. cbn [children_of named]. rewrite (proj2 (eq_text_iff _ _) eq_refl). cbn [negb].
  rewrite (find_elem_named _ _ _ Hc), (find_kind_first _ _ _ Hp Hk). destruct Hk as (pa & pc & ->). cbn [children_of] in Hs.
  rewrite (fold_pairs (LoadCommon a) (common_step a) _ s (common_pairs a) (parameters_settings pc s Hs (tx (kind_word k)) pa)). unfold start_light.
  match goal with |- context [find ?g e] => change (find g e) with (find default_type e) end. rewrite Hf. reflexivity.
Qed.
Definition all_numbers (s : list (str * str)) (name : str) : Prop := forall t, In (name, t) s -> exists q, one_number t q.
Lemma common_total a s : (forall f t, In (word f, t) s -> standard f -> exists q, one_number t q) -> (forall t, In (tx "color", t) s -> exists x y z, three_numbers t x y z) ->
  forall x p, In p s -> exists y, common_step a x p = Some y.
Proof.
  intros H1 H2 x [n t] Hp. unfold common_step. cbn [fst snd]. destruct (text_eq n (tx "color")) eqn:Ec.
  - apply eq_text_iff in Ec. subst n. destruct (H2 t Hp) as (u & v & w & Hn). destruct (read_three a t u v w Hn) as (u' & v' & w' & rest & -> & _). eauto.
  - destruct (find _ _) as [f|] eqn:Ef; [|eauto]. apply common_field in Ef. destruct Ef as (-> & Sf). destruct (H1 f t Hp Sf) as (q & Hq).
    destruct (read_one a t q Hq) as (r & rest & -> & _). eauto.
Qed.
Lemma parameter_total a s : (forall f t, In (word f, t) s -> exists q, one_number t q) -> forall x p, In p s -> exists y, LoadParameter a x p = Some y.
Proof.
  intros H x [n t] Hp. unfold LoadParameter. cbn [fst snd]. destruct (field_of n) as [f|] eqn:Ef.
  - apply field_of_iff in Ef. subst n. destruct (H f t Hp) as (q & Hq). destruct (read_one a t q Hq) as (r & rest & -> & _). eauto.
  - destruct (text_eq n (tx "penumbra_angle")); eauto.
Qed.
Lemma hits_not s f : ~ In (word f) (map fst s) <-> forall p, In p s -> hits f p = false.
Proof.
  split.
  - intros H p Hp. apply eq_text_not. intro E. apply H. rewrite <- E. now apply in_map.
  - intros H Hin. apply in_map_iff in Hin. destruct Hin as (p & E & Hp). specialize (H p Hp). apply eq_text_not in H. contradiction.
Qed.
Lemma standard_dec f : standard f \/ ~ standard f.
Proof. destruct f; cbn; auto. Qed.
(** The values after the elements and the parameters of the tree. *)
Lemma values_read a s tree x l1 l2 pen f : fold_option (common_step a) s (Some x) = Some l1 -> fold_option (LoadParameter a) tree (Some (l1, None)) = Some (l2, pen) ->
  (forall q, is_set s tree f q -> (value l2 f == q)%Q) /\ (not_set s tree f -> value l2 f = value x f).
Proof.
  intros E1 E2.
  destruct (fold_last (LoadParameter a) (fun y => value (fst y) f) (hits f) (fun p o => exists r rest, ToFloat a (snd p) = Some (r, rest) /\ o = r)
              (parameter_hit a f) (parameter_miss a f) tree (l1, None) (l2, pen) E2) as (T1 & T2). cbn [fst] in T1, T2.
  assert (C2 : (forall p, In p s -> hits f p = false) \/ ~ standard f -> value l1 f = value x f).
  { intro H. destruct (standard_dec f) as [Sf|Sf].
    - destruct (fold_last (common_step a) (fun y => value y f) (hits f) (fun p o => exists r rest, ToFloat a (snd p) = Some (r, rest) /\ o = r)
                 (common_hit a f Sf) (fun x b y Ex Hx => common_miss a f x b y Ex (or_introl Hx)) s x l1 E1) as (_ & C). apply C. tauto.
    - destruct (fold_last (common_step a) (fun y => value y f) (fun _ => false) (fun p o => True)
                 (fun _ _ _ _ _ => I) (fun x b y Ex _ => common_miss a f x b y Ex (or_intror Sf)) s x l1 E1) as (_ & C). now apply C. }
  split.
  - intros q [t q' (before & after & -> & Ha) Hq|t q' Ht Sf (before & after & -> & Ha) Hq].
    + destruct (T1 before (word f, t) after eq_refl) as (r & rest & Er & ->).
      * now apply eq_text_iff.
      * now apply hits_not.
      * destruct (read_one a t q' Hq) as (r' & rest' & Er' & Hr). cbn [snd] in Er. rewrite Er' in Er. injection Er as <- _. exact Hr.
    + rewrite T2 by (now apply hits_not).
      destruct (fold_last (common_step a) (fun y => value y f) (hits f) (fun p o => exists r rest, ToFloat a (snd p) = Some (r, rest) /\ o = r)
                 (common_hit a f Sf) (fun x b y Ex Hx => common_miss a f x b y Ex (or_introl Hx)) _ x l1 E1) as (C1 & _).
      destruct (C1 before (word f, t) after eq_refl) as (r & rest & Er & Ev).
      * now apply eq_text_iff.
      * now apply hits_not.
      * destruct (read_one a t q' Hq) as (r' & rest' & Er' & Hr). cbn [snd] in Er. rewrite Er' in Er. injection Er as <- _. rewrite Ev. exact Hr.
  - intros (N1 & N2). rewrite T2 by (now apply hits_not). apply C2. destruct (standard_dec f) as [Sf|Sf]; [left; apply hits_not; auto|right; exact Sf].
Qed.
Lemma color_read a s tree x l1 l2 pen : fold_option (common_step a) s (Some x) = Some l1 -> fold_option (LoadParameter a) tree (Some (l1, None)) = Some (l2, pen) ->
  kind l2 = kind x /\
  (forall t u v w, last_setting s (tx "color") t -> three_numbers t u v w -> color_rel (fun p r => r == p)%Q (Some (u, v, w)) (color l2)) /\
  (~ In (tx "color") (map fst s) -> color l2 = color x).
Proof.
  intros E1 E2.
  assert (K : kind l2 = kind l1 /\ color l2 = color l1).
  { destruct (fold_last (LoadParameter a) (fun y => (kind (fst y), color (fst y))) (fun _ => false) (fun _ _ => True) (fun _ _ _ _ _ => I)
              (fun x b y Ex _ => ltac:(destruct (parameter_rest a x b y Ex); cbn; congruence)) tree (l1, None) (l2, pen) E2) as (_ & T).
    specialize (T (fun _ _ => eq_refl)). cbn in T. now injection T. }
  destruct K as (K1 & K2). rewrite K1, K2.
  destruct (fold_last (common_step a) color colored (fun p o => exists rest, ToVector3 a (snd p) = Some (o, rest)) (color_hit a) (color_miss a) s x l1 E1) as (C1 & C2).
  split; [|split].
  - destruct (fold_last (common_step a) kind (fun _ => false) (fun _ _ => True) (fun _ _ _ _ _ => I) (fun x b y Ex _ => common_kind a x b y Ex) s x l1 E1) as (_ & T). now apply T.
  - intros t u v w (before & after & -> & Ha) Hn. destruct (C1 before (tx "color", t) after eq_refl) as (rest & Er).
    + now apply eq_text_iff.
    + intros p Hp. apply eq_text_not. intro X. apply Ha. rewrite <- X. now apply in_map.
    + destruct (read_three a t u v w Hn) as (u' & v' & w' & rest' & Er' & R1 & R2 & R3). cbn [snd] in Er. rewrite Er' in Er. injection Er as <- _.
      exists u, v, w, u', v', w'. auto.
  - intro H. apply C2. intros p Hp. apply eq_text_not. intro X. apply H. rewrite <- X. now apply in_map.
Qed.
Lemma penumbra_read a tree l1 l2 pen : fold_option (LoadParameter a) tree (Some (l1, None)) = Some (l2, pen) ->
  (~ In (tx "penumbra_angle") (map fst tree) -> pen = None) /\ (forall t, last_setting tree (tx "penumbra_angle") t -> pen = Some t).
Proof.
  intro E. destruct (fold_last (LoadParameter a) snd penumbra_hit (fun p o => o = Some (snd p)) (penumbra_step a) (penumbra_keep a) tree (l1, None) (l2, pen) E) as (T1 & T2).
  split.
  - intro H. apply T2. intros p Hp. apply eq_text_not. intro X. apply H. rewrite <- X. now apply in_map.
  - intros t (before & after & -> & Ha). apply (T1 before (tx "penumbra_angle", t) after eq_refl); [now apply eq_text_iff|].
    intros p Hp. apply eq_text_not. intro X. apply Ha. rewrite <- X. now apply in_map.
Qed.
