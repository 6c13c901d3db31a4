(** What is loaded from any <extra> elements. *)
From Coq Require Import String List ZArith Bool Lia.
From Verif Require Import TextModel StringModel StringProofs XmlModel XmlProofs UniqueSpec IdModel IdProps DaeModel DaeSpec DaeProofs NodeSafeProofs ExtraModel ExtraProps CustomModel CustomSpec CustomProofs.
Import ListNotations.
Local Open Scope Z_scope.
Local Open Scope list_scope.
Local Notation length := List.length.

(** *** Names *)
Lemma first_char c d : clean_first c = d <-> ((is_letter c \/ c = 95) /\ d = c \/ ~ (is_letter c \/ c = 95) /\ d = 95).
Proof.
  unfold clean_first. pose proof (alpha_iff c) as A. destruct (alpha c); cbn [orb].
  - assert (is_letter c) by tauto. intuition.
  - assert (~ is_letter c) by (intro; assert (false = true) by tauto; discriminate).
    destruct (c =? 95) eqn:E; [apply Z.eqb_eq in E|apply Z.eqb_neq in E]; cbn; intuition lia.
Qed.
Lemma other_char c d : clean_enode_char c = d <-> (enode_char c /\ d = c \/ ~ enode_char c /\ d = 95).
Proof.
  destruct enode_char_facts as (H1 & H2 & H3). split.
  - intros <-. destruct (H3 c) as [E|E].
    + destruct (Z.eq_dec c 95) as [->|N]; [left; split; [right; right; reflexivity|exact E]|]. right. split; [|exact E].
      intro C. rewrite (H2 c C) in E. auto.
    + left. rewrite <- E at 1. split; [apply H1|exact E].
  - intros [[C ->]|[N ->]]; [now apply H2|]. destruct (H3 c) as [E|E]; [exact E|]. exfalso. apply N. rewrite <- E. apply H1.
Qed.
Lemma name_of_iff k n : name_of k n <-> n = CleanENodeName k.
Proof.
  assert (T : forall (k n : list Z), (length n = length k /\ forall i c d, nth_error k i = Some c -> nth_error n i = Some d ->
              (enode_char c /\ d = c \/ ~ enode_char c /\ d = 95)) <-> n = map clean_enode_char k).
  { clear. induction k as [|c k IH]; intros [|d n]; split; cbn [length map]; try (intros [L _]; discriminate); try discriminate; auto.
    - intros _. split; [reflexivity|]. intros [|i] ? ?; discriminate.
    - intros [L H]. injection L as L. f_equal.
      + symmetry. apply other_char. exact (H 0%nat c d eq_refl eq_refl).
      + apply IH. split; [exact L|]. intros i a b Ha Hb. exact (H (S i) a b Ha Hb).
    - intro E. injection E as -> E. destruct (proj2 (IH n) E) as [L H]. split; [now f_equal|].
      intros [|i] a b Ha Hb; [|exact (H i a b Ha Hb)]. cbn in Ha, Hb. injection Ha as <-. injection Hb as <-. now apply other_char. }
  unfold name_of, CleanENodeName, clean_with. destruct k as [|c k], n as [|d n]; split; try (intros [L _]; discriminate); try discriminate; auto.
  - intros _. split; [reflexivity|]. intros [|i] ? ?; discriminate.
  - intros [L H]. injection L as L. f_equal.
    + symmetry. apply first_char. exact (H 0%nat c d eq_refl eq_refl).
    + apply T. split; [exact L|]. intros i a b Ha Hb. exact (H (S i) a b Ha Hb).
  - intro E. injection E as -> E. destruct (proj2 (T k n) E) as [L H]. split; [cbn; now f_equal|].
    intros [|i] a b Ha Hb; [|exact (H i a b Ha Hb)]. cbn in Ha, Hb. injection Ha as <-. injection Hb as <-. cbn [Nat.eqb]. now apply first_char.
Qed.

(** *** Additions *)
Lemma in_add_then {A} (key : A -> str) mk k f (l : list A) b :
  NoDup (map key l) ->
  (In b (add_then key mk k f l) <->
   (In b l /\ key b <> k) \/ (exists a, In a l /\ key a = k /\ b = f a) \/ (~ In k (map key l) /\ b = f (mk k))).
Proof.
  induction l as [|a l IH]; cbn [map add_then In]; intro ND.
  - split; [intros [<-|[]]; auto|]. intros [[[] _]|[(? & [] & _)|[_ ->]]]. auto.
  - inversion ND as [|? ? N NDl]; subst. destruct (str_eq_dec (key a) k) as [E|E]; cbn [In].
    + split.
      * intros [<-|H]; [right; left; exists a; auto|]. left. split; [auto|]. intro K. apply N. rewrite E, <- K. now apply in_map.
      * intros [[[<-|H] K]|[(x & [<-|H] & K & ->)|[K _]]]; auto; try (exfalso; auto; fail).
        exfalso. apply N. rewrite E, <- K. now apply in_map.
    + rewrite (IH NDl). split.
      * intros [<-|[[H K]|[(x & H & K & ->)|[K ->]]]]; auto.
        -- right. left. exists x. auto.
        -- right. right. split; [|reflexivity]. intros [?|?]; auto.
      * intros [[[<-|H] K]|[(x & [<-|H] & K & ->)|[K ->]]]; auto; try (exfalso; auto; fail).
        -- right. right. left. exists x. auto.
        -- right. right. right. split; [|reflexivity]. intro; apply K; auto.
Qed.

(** *** Attributes *)
Lemma last_attribute_snoc a k' v' k v :
  last_attribute (a ++ [(k', v')]) k v <-> (name_of k' k /\ v = v') \/ (~ name_of k' k /\ last_attribute a k v).
Proof.
  split.
  - intros (l & k0 & r & E & N & F). destruct r as [|x r] using rev_ind.
    + apply app_inj_tail in E. destruct E as [-> E]. injection E as -> ->. auto.
    + clear IHr. rewrite app_comm_cons, app_assoc in E. apply app_inj_tail in E. destruct E as [-> <-]. right. split.
      * apply (F k' v'). apply in_app_iff. right. left. reflexivity.
      * exists l, k0, r. repeat split; auto; try apply N. intros k'' v'' H. apply (F k'' v''). apply in_app_iff. auto.
  - intros [[N ->]|[N (l & k0 & r & -> & M & F)]].
    + exists a, k', []. split; [reflexivity|]. split; [exact N|]. intros ? ? [].
    + exists l, k0, (r ++ [(k', v')]). split; [now rewrite <- app_assoc|]. split; [exact M|].
      intros k'' v'' H. apply in_app_iff in H. destruct H as [H|[H|[]]]; [exact (F _ _ H)|]. injection H as <- <-. exact N.
Qed.
Lemma name_of_dec k n : {name_of k n} + {~ name_of k n}.
Proof. destruct (str_eq_dec n (CleanENodeName k)); [left|right]; rewrite name_of_iff; assumption. Qed.
Lemma attributes_loaded a : let l := fold_left (fun l p => AddAttribute (fst p) (snd p) l) a [] in
  NoDup (map fst l) /\ forall k v, In (k, v) l <-> last_attribute a k v.
Proof.
  induction a as [|[k' v'] a IH] using rev_ind; cbn zeta in *.
  - split; [constructor|]. intros k v. split; [intros []|]. intros (l & ? & ? & E & _). destruct l; discriminate.
  - rewrite fold_left_app. cbn [fold_left fst snd]. destruct IH as [ND IH].
    set (l := fold_left (fun l p => AddAttribute (fst p) (snd p) l) a []) in *. split.
    + unfold AddAttribute. apply add_then_nodup; auto.
    + intros k v. rewrite last_attribute_snoc, <- IH. unfold AddAttribute. rewrite in_add_then by exact ND. rewrite name_of_iff. cbn [fst snd].
      split.
      * intros [[H K]|[(x & H & K & E)|[K E]]].
        -- right. auto.
        -- left. injection E as -> ->. auto.
        -- left. cbn in E. injection E as -> ->. auto.
      * intros [[-> ->]|[K H]]; [|auto]. right.
        destruct (in_dec str_eq_dec (CleanENodeName k') (map fst l)) as [I|N]; [left|right; split; [exact N|reflexivity]].
        apply in_map_iff in I. destruct I as ([x y] & E & I). exists (x, y). cbn in *. subst x. auto.
Qed.

(** *** Nodes *)
Lemma text_at_all n : text_at n (all_text n).
Proof.
  induction n as [k a c IH|t] using xml_ind'; [|constructor]. cbn [all_text].
  rewrite flat_map_concat_map. constructor. induction IH; cbn [map]; constructor; assumption.
Qed.
Lemma node_says n : is_element n = true -> says n (LoadExtraNode n).
Proof.
  induction n as [k a c IH|t] using xml_ind'; [intros _|discriminate]. cbn [LoadExtraNode].
  destruct (attributes_loaded a) as [ND At].
  econstructor; [now apply name_of_iff| |apply text_at_all| | |exact ND|exact At].
  - clear -IH. induction IH as [|m c Hm _ IHc]; cbn [filter flat_map]; [constructor|].
    destruct m as [k a c'|t]; cbn [is_element app]; [constructor; [now apply Hm|exact IHc]|exact IHc].
  - intros ->. reflexivity.
  - intro N. destruct (flat_map _ c); [contradiction N; reflexivity|reflexivity].
Qed.
Lemma children_say n : Forall2 says (filter (fun x => match x with Elem _ _ _ => true | Text _ => false end) (children_of n))
  (flat_map (fun m => if is_element m then [LoadExtraNode m] else []) (children_of n)).
Proof.
  induction (children_of n) as [|m c IH]; cbn [filter flat_map]; [constructor|].
  destruct m as [k a c'|t]; cbn [is_element app]; [constructor; [now apply node_says|exact IH]|exact IH].
Qed.

(** *** Techniques *)
Definition elements (m : xml) : list xml := filter (fun x => match x with Elem _ _ _ => true | Text _ => false end) (children_of m).
(** The techniques that ms, a list of <technique> elements, give. *)
Definition techs (ms : list xml) (ts : list technique) : Prop :=
  NoDup (map fst ts) /\
  (forall p, In p (map fst ts) <-> exists m, In m ms /\ is_technique p m = true) /\
  forall p x, In (p, x) ts -> exists kids, x = ENode [] [] [] kids /\ Forall2 says (flat_map elements (filter (is_technique p) ms)) kids.
Lemma is_technique_own p m : named m "technique" = true -> (is_technique p m = true <-> ReadNodeProperty m "profile" = p).
Proof. intro N. unfold is_technique. rewrite N. cbn [andb]. destruct (str_eq_dec _ p); split; congruence. Qed.
Lemma no_technique p ms : (forall m, In m ms -> is_technique p m = false) -> filter (is_technique p) ms = [].
Proof.
  induction ms as [|m r IH]; cbn [filter]; intro H; [reflexivity|]. rewrite (H m) by (left; reflexivity). apply IH. intros; apply H; right; assumption.
Qed.
Lemma techs_step ms m ts : named m "technique" = true -> techs ms ts ->
  techs (ms ++ [m]) (AddTechnique_then (ReadNodeProperty m "profile") (fun x => (fst x, LoadExtraNodeChildren m (snd x))) ts).
Proof.
  intros Nm (ND & P & X). unfold AddTechnique_then. set (q := ReadNodeProperty m "profile").
  assert (Q : forall p, is_technique p m = true <-> q = p) by (intro p; now apply is_technique_own).
  split; [apply add_then_nodup; auto|]. split.
  - intro p. rewrite add_then_keys by auto. split.
    + intro H. assert (H' : In p (map fst ts) \/ p = q).
      { destruct (in_dec str_eq_dec q (map fst ts)); [auto|]. apply in_app_iff in H. destruct H as [H|[H|[]]]; auto. }
      destruct H' as [H'| ->].
      * apply P in H'. destruct H' as (m' & Hm & T). exists m'. split; [apply in_app_iff; auto|exact T].
      * exists m. split; [apply in_app_iff; right; left; reflexivity|]. now apply Q.
    + intros (m' & Hm & T). apply in_app_iff in Hm. destruct Hm as [Hm|[<-|[]]].
      * assert (H : In p (map fst ts)) by (apply P; eauto). destruct (in_dec str_eq_dec q (map fst ts)); [exact H|]. apply in_app_iff. auto.
      * apply Q in T. subst p. destruct (in_dec str_eq_dec q (map fst ts)) as [I|I]; [exact I|]. apply in_app_iff. right. left. reflexivity.
  - intros p x H. apply in_add_then in H; [|exact ND]. cbn [fst snd] in H. rewrite filter_app, flat_map_app.
    destruct H as [[H K]|[([p0 x0] & H & K & E)|[K E]]].
    + destruct (X p x H) as (kids & -> & F). exists kids. split; [reflexivity|]. cbn [filter].
      replace (is_technique p m) with false; [cbn; now rewrite app_nil_r|]. destruct (is_technique p m) eqn:T; [|reflexivity].
      apply Q in T. contradiction K. symmetry. exact T.
    + cbn [fst snd] in *. injection E as -> ->. subst p0. destruct (X q x0 H) as (kids & -> & F).
      cbn [LoadExtraNodeChildren]. eexists. split; [reflexivity|]. cbn [filter]. rewrite (proj2 (Q q) eq_refl). cbn [flat_map]. rewrite app_nil_r.
      apply Forall2_app; [exact F|apply children_say].
    + cbn [new_technique fst snd new_node] in E. injection E as -> ->. cbn [LoadExtraNodeChildren app]. eexists. split; [reflexivity|].
      cbn [filter]. rewrite (proj2 (Q q) eq_refl). cbn [flat_map]. rewrite app_nil_r. rewrite no_technique; [apply children_say|].
      intros m' Hm. destruct (is_technique q m') eqn:T; [|reflexivity]. exfalso. apply K. apply P. eauto.
Qed.
Lemma techs_fold l : forall ms ts, (forall m, In m l -> named m "technique" = true) -> techs ms ts ->
  techs (ms ++ l) (fold_left (fun ts m => AddTechnique_then (ReadNodeProperty m "profile") (fun x => (fst x, LoadExtraNodeChildren m (snd x))) ts) l ts).
Proof.
  induction l as [|m l IH]; cbn [fold_left]; intros ms ts N T; [now rewrite app_nil_r|].
  replace (ms ++ m :: l) with ((ms ++ [m]) ++ l) by now rewrite <- app_assoc.
  apply IH; [intros; apply N; right; assumption|]. apply techs_step; [apply N; left; reflexivity|exact T].
Qed.

(** *** Types *)
Definition technique_elements (n : xml) : list xml := filter (fun m => named m "technique") (children_of n).
Definition types_of (ns : list xml) (e : extra) : Prop :=
  NoDup (map fst e) /\
  (forall t, In t (map fst e) <-> t = [] \/ exists n, In n ns /\ is_extra t n = true) /\
  forall t ts, In (t, ts) e -> techs (flat_map technique_elements (filter (is_extra t) ns)) ts.
Lemma is_extra_own t n : named n "extra" = true -> (is_extra t n = true <-> ReadNodeProperty n "type" = t).
Proof. intro N. unfold is_extra. rewrite N. cbn [andb]. destruct (str_eq_dec _ t); split; congruence. Qed.
Lemma no_extra t ns : (forall n, In n ns -> is_extra t n = false) -> filter (is_extra t) ns = [].
Proof.
  induction ns as [|m r IH]; cbn [filter]; intro H; [reflexivity|]. rewrite (H m) by (left; reflexivity). apply IH. intros; apply H; right; assumption.
Qed.
Lemma types_step ns n e : types_of ns e -> named n "extra" = true ->
  exists e', LoadExtra n e = Some e' /\ types_of (ns ++ [n]) e'.
Proof.
  intros (ND & P & X) Nn. unfold LoadExtra. rewrite Nn. eexists. split; [reflexivity|]. unfold AddType_then. set (q := ReadNodeProperty n "type").
  assert (Q : forall p, is_extra p n = true <-> q = p) by (intro p; now apply is_extra_own).
  assert (TE : forall m, In m (technique_elements n) -> named m "technique" = true) by (intros m Hm; apply filter_In in Hm; apply Hm).
  split; [apply add_then_nodup; auto|]. split.
  - intro p. rewrite add_then_keys by auto. split.
    + intro H. assert (H' : In p (map fst e) \/ p = q).
      { destruct (in_dec str_eq_dec q (map fst e)); [auto|]. apply in_app_iff in H. destruct H as [H|[H|[]]]; auto. }
      destruct H' as [H'| ->].
      * apply P in H'. destruct H' as [->|(m' & Hm & T)]; [auto|]. right. exists m'. split; [apply in_app_iff; auto|exact T].
      * right. exists n. split; [apply in_app_iff; right; left; reflexivity|]. now apply Q.
    + intro H. assert (H' : In p (map fst e) \/ p = q).
      { destruct H as [->|(m' & Hm & T)]; [left; apply P; auto|]. apply in_app_iff in Hm. destruct Hm as [Hm|[<-|[]]].
        - left. apply P. eauto.
        - right. symmetry. now apply Q. }
      destruct (in_dec str_eq_dec q (map fst e)) as [I|I]; [destruct H' as [H'| ->]; assumption|].
      apply in_app_iff. destruct H' as [H'| ->]; [auto|right; left; reflexivity].
  - intros p ts H. apply in_add_then in H; [|exact ND]. cbn [fst snd] in H. rewrite filter_app, flat_map_app.
    destruct H as [[H K]|[([p0 ts0] & H & K & E)|[K E]]].
    + cbn [filter]. replace (is_extra p n) with false; [cbn; rewrite app_nil_r; exact (X p ts H)|]. destruct (is_extra p n) eqn:T; [|reflexivity].
      apply Q in T. contradiction K. symmetry. exact T.
    + unfold LoadExtraType in E. cbn [fst snd] in *. injection E as -> ->. subst p0.
      cbn [filter]. rewrite (proj2 (Q q) eq_refl). cbn [flat_map]. rewrite app_nil_r. apply techs_fold; [exact TE|exact (X q ts0 H)].
    + unfold LoadExtraType in E. cbn [new_type fst snd] in E. injection E as -> ->.
      cbn [filter]. rewrite (proj2 (Q q) eq_refl). cbn [flat_map]. rewrite app_nil_r. apply techs_fold; [exact TE|].
      rewrite no_extra.
      * split; [constructor|]. split; [|intros ? ? []]. intro p. split; [intros []|intros (? & [] & _)].
      * intros m Hm. destruct (is_extra q m) eqn:T; [|reflexivity]. exfalso. apply K. apply P. eauto.
Qed.
Lemma types_other ns n e : types_of ns e -> named n "extra" = false -> types_of (ns ++ [n]) e.
Proof.
  intros (ND & P & X) N. assert (Z : forall t, is_extra t n = false) by (intro; unfold is_extra; now rewrite N).
  split; [exact ND|]. split.
  - intro t. rewrite P. split; intros [->|(m & Hm & T)]; auto.
    + right. exists m. split; [apply in_app_iff; auto|exact T].
    + right. exists m. split; [|exact T]. apply in_app_iff in Hm. destruct Hm as [Hm|[<-|[]]]; [exact Hm|]. rewrite Z in T. discriminate.
  - intros t ts H. rewrite filter_app. cbn [filter]. rewrite Z, app_nil_r. exact (X t ts H).
Qed.
Lemma types_new : types_of [] new_extra.
Proof.
  split; [cbn; constructor; [intros []|constructor]|]. split.
  - intro t. cbn. split; [intros [<-|[]]; auto|intros [->|(? & [] & _)]; auto].
  - intros t ts [E|[]]. injection E as <- <-. cbn. split; [constructor|]. split; [|intros ? ? []].
    intro p. split; [intros []|intros (? & [] & _)].
Qed.
Lemma types_fold l : forall ns e, types_of ns e -> exists e', LoadExtras l e = Some e' /\ types_of (ns ++ l) e'.
Proof.
  unfold LoadExtras. induction l as [|n l IH]; cbn [filter]; intros ns e T; [exists e; rewrite app_nil_r; auto|].
  replace (ns ++ n :: l) with ((ns ++ [n]) ++ l) by now rewrite <- app_assoc.
  destruct (named n "extra") eqn:N.
  - cbn [fold_left]. destruct (types_step ns n e T N) as (e' & -> & T'). apply IH, T'.
  - apply IH, types_other; assumption.
Qed.
Lemma types_extra_of ns e : types_of ns e -> extra_of ns e.
Proof.
  intros (ND & P & X). split; [exact ND|]. split; [exact P|]. intros t ts H. destruct (X t ts H) as (NDt & Pt & Xt). split; [exact NDt|].
  assert (FT : forall p m, is_technique p m = true -> named m "technique" = true).
  { intros p m Hm. unfold is_technique in Hm. apply andb_true_iff in Hm. apply Hm. }
  split.
  - intro p. rewrite Pt. split.
    + intros (m & Hm & T). apply in_flat_map in Hm. destruct Hm as (n & Hn & Hm). apply filter_In in Hn. apply filter_In in Hm. exists n, m. tauto.
    + intros (n & m & Hn & E & Hm & T). exists m. split; [|exact T]. apply in_flat_map. exists n. split; [apply filter_In; auto|].
      apply filter_In. split; [exact Hm|]. eapply FT; eauto.
  - intros p x Hx. destruct (Xt p x Hx) as (kids & -> & F). exists kids. split; [reflexivity|].
    replace (elements_of t p ns) with (flat_map elements (filter (is_technique p) (flat_map technique_elements (filter (is_extra t) ns)))); [exact F|].
    unfold elements_of. clear -FT. induction (filter (is_extra t) ns) as [|n l IH]; cbn [flat_map]; [reflexivity|].
    rewrite filter_app, flat_map_app, IH. f_equal. clear -FT. unfold technique_elements.
    induction (children_of n) as [|m c IHc]; cbn [filter]; [reflexivity|].
    destruct (named m "technique") eqn:N; cbn [filter].
    + destruct (is_technique p m); cbn [flat_map]; [now rewrite IHc|exact IHc].
    + destruct (is_technique p m) eqn:T; [|exact IHc]. rewrite (FT p m T) in N. discriminate.
Qed.
