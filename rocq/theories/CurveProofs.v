From Coq Require Import List QArith Qabs Qround Lqa Lia Arith Sorted Setoid Morphisms.
From Verif Require Import CurveModel CurveSpec.
Import ListNotations.
Local Open Scope Q_scope.

Lemma flt_true a b : flt a b = true -> a < b.
Proof. unfold flt; destruct (Qlt_le_dec a b); [auto | discriminate]. Qed.
Lemma flt_false a b : flt a b = false -> b <= a.
Proof. unfold flt; destruct (Qlt_le_dec a b); [discriminate | auto]. Qed.
Lemma fle_true a b : fle a b = true -> a <= b.
Proof. unfold fle; intro H; apply flt_false; now destruct (flt b a). Qed.
Lemma fle_false a b : fle a b = false -> b < a.
Proof. unfold fle; intro H; apply flt_true; now destruct (flt b a). Qed.
Lemma fdiv_some a b : ~ b == 0 -> fdiv a b = Num (a / b).
Proof. unfold fdiv; destruct (Qeq_dec b 0); tauto. Qed.

(** *** keys *)
Lemma sorted_app {A} (R : A -> A -> Prop) l r :
  StronglySorted R (l ++ r) <-> StronglySorted R l /\ StronglySorted R r /\ (forall a b, In a l -> In b r -> R a b).
Proof.
  induction l as [|x l IH]; cbn [app].
  - split; [intro H; repeat split; [constructor | exact H | intros a b []] | intros [_ [H _]]; exact H].
  - split.
    + intro H. inversion H as [|? ? H1 H2]; subst. apply IH in H1. destruct H1 as [H1 [H3 H4]].
      rewrite Forall_forall in H2. repeat split; auto.
      * constructor; auto. apply Forall_forall. intros; apply H2, in_or_app; auto.
      * intros a b [<-|Ha] Hb; [apply H2, in_or_app; auto | auto].
    + intros [H1 [H2 H3]]. inversion H1 as [|? ? H4 H5]; subst. constructor.
      * apply IH; repeat split; auto. intros a b Ha Hb; apply H3; [right|]; auto.
      * rewrite Forall_forall in *. intros b Hb. apply in_app_or in Hb. destruct Hb; [auto | apply H3; [left|]; auto].
Qed.

Lemma AddKey_shape k ks : forall ks' i, AddKey ks k = (ks', i) ->
  exists pre post, ks = pre ++ post /\ ks' = pre ++ k :: post /\ i = length pre /\
    Forall (fun x => input x <= input k) pre /\ match post with [] => True | y :: _ => input k < input y end.
Proof.
  induction ks as [|x r IH]; cbn [AddKey]; intros ks' i H.
  - inversion H; subst. exists [], []. cbn. auto.
  - destruct (flt (input k) (input x)) eqn:E.
    + inversion H; subst. exists [], (x :: r). cbn. repeat split; auto. now apply flt_true.
    + destruct (AddKey r k) as [r' j] eqn:A. inversion H; subst.
      destruct (IH _ _ eq_refl) as (pre & post & E1 & E2 & E3 & E4 & E5).
      exists (x :: pre), post. subst. cbn. repeat split; auto. constructor; auto. now apply flt_false.
Qed.
Lemma ordered_hd ks k : ordered ks -> match ks with [] => True | y :: _ => input k < input y end ->
  Forall (fun x => input k < input x) ks.
Proof.
  intros H1 H2. destruct ks as [|y r]; [constructor|]. inversion H1; subst. constructor; auto.
  rewrite Forall_forall in *. intros x Hx. specialize (H4 x Hx). cbn in H4. lra.
Qed.
Lemma AddKey_insert ks k ks' i : ordered ks -> AddKey ks k = (ks', i) ->
  ordered ks' /\ exists pre post, ks = pre ++ post /\ ks' = pre ++ k :: post /\ i = length pre /\
    Forall (fun x => input x <= input k) pre /\ Forall (fun x => input k < input x) post.
Proof.
  intros S H. destruct (AddKey_shape _ _ _ _ H) as (pre & post & E1 & E2 & E3 & E4 & E5). subst.
  apply sorted_app in S. destruct S as [S1 [S2 S3]].
  pose proof (ordered_hd post k S2 E5) as F. split.
  - apply sorted_app. split; [|split].
    + exact S1.
    + constructor; [exact S2|]. eapply Forall_impl; [|exact F]. cbn; intros; lra.
    + rewrite Forall_forall in E4. intros a b Ha [<-|Hb]; auto.
  - exists pre, post. auto.
Qed.
Lemma DeleteKey_shape ks id : forall ks' b, DeleteKey ks id = (ks', b) ->
  (b = true /\ exists pre k post, ks = pre ++ k :: post /\ ks' = pre ++ post /\ kid k = id /\ Forall (fun x => kid x <> id) pre) \/
  (b = false /\ ks' = ks /\ Forall (fun x => kid x <> id) ks).
Proof.
  induction ks as [|x r IH]; cbn [DeleteKey]; intros ks' b H.
  - inversion H; subst. right; auto.
  - destruct (Nat.eqb_spec (kid x) id).
    + inversion H; subst. left. split; auto. exists [], x, ks'. cbn. auto.
    + destruct (DeleteKey r id) as [r' b'] eqn:D. inversion H; subst.
      destruct (IH _ _ eq_refl) as [[-> (pre & k & post & -> & -> & K & F)]|[-> [-> F]]].
      * left. split; auto. exists (x :: pre), k, post. cbn. auto.
      * right. auto.
Qed.
Lemma sorted_remove {A} (R : A -> A -> Prop) pre k post :
  StronglySorted R (pre ++ k :: post) -> StronglySorted R (pre ++ post).
Proof.
  intro H. apply sorted_app in H. destruct H as [H1 [H2 H3]]. inversion H2; subst.
  apply sorted_app. repeat split; auto. intros a b Ha Hb. apply H3; [auto | right; auto].
Qed.

(** *** the searches *)
Lemma sorted_nth (R : key -> key -> Prop) ks : StronglySorted R ks ->
  forall i j a b, (i < j)%nat -> nth_error ks i = Some a -> nth_error ks j = Some b -> R a b.
Proof.
  induction 1 as [|x r H IH F]; intros i j a b L A B.
  - now destruct i.
  - destruct i, j; try lia; cbn in *.
    + inversion A; subst. rewrite Forall_forall in F. apply F. eapply nth_error_In, B.
    + eapply IH; [|exact A|exact B]. lia.
Qed.
Definition lo_ok ks q s := s = O \/ exists k, nth_error ks s = Some k /\ input k <= q.
Definition hi_ok ks q t := t = length ks \/ exists k, nth_error ks t = Some k /\ q < input k.
Lemma binary_search_ok ks q : forall fuel s t s' t', (s < t <= length ks)%nat -> lo_ok ks q s -> hi_ok ks q t ->
  binary_search fuel ks (Num q) s t = (s', t') -> (s' < t' <= length ks)%nat /\ lo_ok ks q s' /\ hi_ok ks q t'.
Proof.
  induction fuel as [|f IH]; cbn [binary_search]; intros s t s' t' L A B H.
  - inversion H; subst; auto.
  - destruct (Nat.ltb_spec 3 (t - s)); [|inversion H; subst; auto].
    assert (M : (s < (t + s) / 2 < t)%nat).
    { pose proof (Nat.div_mod_eq (t + s) 2). pose proof (Nat.mod_upper_bound (t + s) 2). lia. }
    destruct (nth_error ks ((t + s) / 2)) as [k|] eqn:E; [|inversion H; subst; auto].
    cbn [key_after] in H. destruct (flt q (input k)) eqn:F.
    + eapply IH in H; auto; [lia|]. right. exists k. split; auto. now apply flt_true.
    + eapply IH in H; auto; [lia|]. right. exists k. split; auto. now apply flt_false.
Qed.
Lemma binary_search_short ks n : forall fuel s t s' t', (s < t <= length ks)%nat -> (t - s <= fuel + 3)%nat ->
  binary_search fuel ks n s t = (s', t') -> (t' - s' <= 3)%nat.
Proof.
  induction fuel as [|f IH]; cbn [binary_search]; intros s t s' t' L A H.
  - inversion H; subst; lia.
  - destruct (Nat.ltb_spec 3 (t - s)); [|inversion H; subst; lia].
    assert (M : (s < (t + s) / 2 < t)%nat).
    { pose proof (Nat.div_mod_eq (t + s) 2). pose proof (Nat.mod_upper_bound (t + s) 2). lia. }
    destruct (nth_error ks ((t + s) / 2)) as [k|] eqn:E.
    + destruct (key_after k n); eapply IH in H; eauto; lia.
    + apply nth_error_None in E. lia.
Qed.
Lemma linear_search_ok ks q : forall c it r, (it + c <= length ks)%nat -> linear_search c ks (Num q) it = r ->
  (it <= r <= it + c)%nat /\ (forall j k, (it <= j < r)%nat -> nth_error ks j = Some k -> input k < q) /\
  (r = (it + c)%nat \/ exists k, nth_error ks r = Some k /\ q <= input k).
Proof.
  induction c as [|c IH]; cbn [linear_search]; intros it r L H.
  - subst r. split; [lia|]. split; [intros; lia | left; lia].
  - destruct (nth_error ks it) as [k|] eqn:E; [|apply nth_error_None in E; lia].
    cbn [key_reaches] in H. destruct (fle q (input k)) eqn:F.
    + subst r. split; [lia|]. split; [intros; lia|]. right. exists k. split; auto. now apply fle_true.
    + apply IH in H; [|lia]. destruct H as [H1 [H2 H3]]. split; [lia|]. split.
      * intros j k' J Hk. destruct (Nat.eq_dec j it) as [->|].
        -- rewrite E in Hk. inversion Hk; subst. now apply fle_false.
        -- apply (H2 j); [lia | auto].
      * destruct H3 as [-> |H3]; [left; lia | right; auto].
Qed.
Lemma find_key_ok ks q : ordered ks -> (0 < length ks)%nat ->
  (exists k, nth_error ks (length ks - 1) = Some k /\ q <= input k) ->
  exists e, nth_error ks (find_key ks (Num q)) = Some e /\ q <= input e /\
   (find_key ks (Num q) = O \/
    exists i s, find_key ks (Num q) = S i /\ nth_error ks i = Some s /\ input s <= q /\
      (input s < q \/ input e <= q)).
Proof.
  intros S N (kl & El & Ql). unfold find_key.
  destruct (binary_search (length ks) ks (Num q) 0 (length ks)) as [s t] eqn:B.
  assert (BS : (s < t <= length ks)%nat /\ lo_ok ks q s /\ hi_ok ks q t).
  { eapply binary_search_ok in B; [exact B | lia | left; auto | left; auto]. }
  destruct BS as [L [A C]].
  remember (linear_search (t - s) ks (Num q) s) as r eqn:Er. symmetry in Er.
  apply linear_search_ok in Er; [|lia]. destruct Er as [R1 [R2 R3]].
  assert (E : exists e, nth_error ks r = Some e /\ q <= input e).
  { destruct R3 as [R3|R3]; auto. destruct C as [C|(k & Hk & Hq)].
    - exfalso. assert (X : input kl < q). { apply (R2 (length ks - 1)%nat); [lia|auto]. } lra.
    - exists k. replace r with t by lia. split; auto. lra. }
  destruct E as (e & He & Hq). exists e. split; auto. split; auto.
  destruct r as [|i]; [left; auto | right]. exists i.
  destruct (nth_error ks i) as [sk|] eqn:Es.
  2:{ apply nth_error_None in Es. assert (nth_error ks (Datatypes.S i) <> None) by congruence. apply nth_error_Some in H. lia. }
  exists sk. split; auto. split; auto.
  destruct (Nat.eq_dec s (Datatypes.S i)) as [Hs|Hs].
  - destruct A as [A|(k & Hk & Kq)]; [lia|]. rewrite Hs in Hk. rewrite He in Hk. inversion Hk; subst.
    assert (input sk <= input k) by (eapply (sorted_nth _ _ S i (Datatypes.S i)); eauto; lia).
    split; [lra | right; auto].
  - assert (input sk < q) by (apply (R2 i); [lia | auto]). split; [lra | left; auto].
Qed.

Lemma nth_split2 {A} (l : list A) : forall i a b, nth_error l i = Some a -> nth_error l (S i) = Some b ->
  exists p r, l = p ++ a :: b :: r.
Proof.
  induction l as [|x l IH]; intros i a b Ha Hb; [now destruct i|].
  destruct i; cbn in *.
  - inversion Ha; subst. destruct l; [discriminate|]. inversion Hb; subst. exists [], l. auto.
  - destruct (IH i a b Ha Hb) as (p & r & ->). exists (x :: p), r. auto.
Qed.

(** *** FindT *)
Definition cubic (p0 p1 p2 p3 t : Q) : Q :=
  let ti := 1 - t in p0 * ti * ti * ti + 3 * p1 * t * ti * ti + 3 * p2 * t * t * ti + p3 * t * t * t.
Lemma cubic_Bernstein p0 p1 p2 p3 t : cubic p0 p1 p2 p3 t == Bernstein p0 p1 p2 p3 t.
Proof. unfold cubic, Bernstein. cbn. ring. Qed.
Lemma bezier_Bernstein p0 p1 p2 p3 t : bezier p0 p1 p2 p3 t == Bernstein p0 p1 p2 p3 t.
Proof. unfold bezier, Bernstein. cbn. ring. Qed.

Lemma FindT_loop_ok p0 p1 p2 p3 x : forall fuel (first : bool) midT lo hi,
  hi - lo <= (1 # 1000) * inject_Z (2 ^ Z.of_nat fuel)%Z * (if first then 1 # 2 else 1) ->
  (first = true -> 1 # 10 <= midT <= 9 # 10 /\ lo == 0 /\ hi == 1 /\ (9 # 10) <= (1 # 1000) * inject_Z (2 ^ Z.of_nat (pred fuel))%Z /\ (0 < fuel)%nat) ->
  0 <= lo -> lo < hi -> hi <= 1 ->
  (0 < midT < 1) -> lo <= midT <= hi ->
  cubic p0 p1 p2 p3 lo <= x <= cubic p0 p1 p2 p3 hi ->
  exists t, FindT_loop fuel p0 p1 p2 p3 x first midT lo hi = Some t /\ 0 < t < 1 /\
    (Qabs (cubic p0 p1 p2 p3 t - x) <= 1 # 1000 \/
     exists lo hi, 0 <= lo <= t /\ t <= hi <= 1 /\ hi - lo <= 1 # 1000 /\
       cubic p0 p1 p2 p3 lo <= x <= cubic p0 p1 p2 p3 hi).
Proof.
  induction fuel as [|f IH]; intros first midT lo hi Hw Hf H0 H1 H2 Hm Hr Hx.
  - cbn [FindT_loop]. unfold localTolerance. destruct (flt (1 # 1000) (hi - lo)) eqn:E.
    + apply flt_true in E. change (inject_Z (2 ^ Z.of_nat 0)%Z) with 1 in Hw; destruct first; [destruct (Hf eq_refl); lia | lra].
    + apply flt_false in E. exists midT. split; auto. split; auto. right. exists lo, hi. intuition lra.
  - cbn [FindT_loop]. unfold localTolerance. destruct (flt (1 # 1000) (hi - lo)) eqn:E.
    2:{ apply flt_false in E. exists midT. split; auto. split; auto. right. exists lo, hi. intuition lra. }
    set (m := if first then midT else (hi - lo) / 2 + lo).
    assert (Em : first = false -> m == (lo + hi) * (1 # 2)) by (intros ->; unfold m; field).
    assert (Em' : first = true -> m == midT) by (intros ->; unfold m; reflexivity).
    assert (M : 0 < m < 1 /\ lo < m < hi).
    { destruct first.
      - specialize (Em' eq_refl). destruct (Hf eq_refl) as (? & ? & ? & ? & ?). lra.
      - specialize (Em eq_refl). lra. }
    assert (W : forall a b, (a == lo /\ b == m) \/ (a == m /\ b == hi) -> b - a <= (1 # 1000) * inject_Z (2 ^ Z.of_nat f)%Z * 1).
    { intros a b Hab. destruct first.
      - specialize (Em' eq_refl). destruct (Hf eq_refl) as (? & ? & ? & G & ?). cbn [pred] in G. lra.
      - specialize (Em eq_refl).
        rewrite Nat2Z.inj_succ, Z.pow_succ_r, inject_Z_mult in Hw by lia. change (inject_Z 2) with 2 in Hw. lra. }
    fold (cubic p0 p1 p2 p3 m).
    destruct (fle (Qabs (cubic p0 p1 p2 p3 m - x)) (1 # 1000)) eqn:F.
    + exists m. split; auto. split; [lra|]. left. now apply fle_true.
    + destruct (flt x (cubic p0 p1 p2 p3 m)) eqn:G.
      * apply flt_true in G. apply IH; try lra; try discriminate. apply W. left; split; reflexivity.
      * apply flt_false in G. apply IH; try lra; try discriminate. apply W. right; split; reflexivity.
Qed.
Lemma FindT_ok p0 p1 p2 p3 x g : p0 <= x <= p3 ->
  exists t, FindT p0 p1 p2 p3 x g = Some t /\ 0 < t < 1 /\
    (Qabs (cubic p0 p1 p2 p3 t - x) <= 1 # 1000 \/
     exists lo hi, 0 <= lo <= t /\ t <= hi <= 1 /\ hi - lo <= 1 # 1000 /\
       cubic p0 p1 p2 p3 lo <= x <= cubic p0 p1 p2 p3 hi).
Proof.
  intro H. unfold FindT.
  set (m := if fle g (1 # 10) then 1 # 10 else if fle (9 # 10) g then 9 # 10 else g).
  assert (M : 1 # 10 <= m <= 9 # 10).
  { unfold m. destruct (fle g (1 # 10)) eqn:E; [lra|]. destruct (fle (9 # 10) g) eqn:F; [lra|].
    apply fle_false in E. apply fle_false in F. lra. }
  apply FindT_loop_ok; try lra.
  - cbv. discriminate.
  - intros _. split; [lra|]. split; [reflexivity|]. split; [reflexivity|]. split; [cbv; discriminate | lia].
  - unfold cubic. split; [setoid_replace (p0 * (1 - 0) * (1 - 0) * (1 - 0) + 3 * p1 * 0 * (1 - 0) * (1 - 0) + 3 * p2 * 0 * 0 * (1 - 0) + p3 * 0 * 0 * 0) with p0 by ring |
      setoid_replace (p0 * (1 - 1) * (1 - 1) * (1 - 1) + 3 * p1 * 1 * (1 - 1) * (1 - 1) + 3 * p2 * 1 * 1 * (1 - 1) + p3 * 1 * 1 * 1) with p3 by ring]; tauto.
Qed.
(** FindT always returns a parameter (the fuel suffices), whatever the control points are. *)
Lemma FindT_loop_total p0 p1 p2 p3 x : forall fuel (first : bool) midT lo hi,
  hi - lo <= (1 # 1000) * inject_Z (2 ^ Z.of_nat fuel)%Z * (if first then 1 # 2 else 1) ->
  (first = true -> 1 # 10 <= midT <= 9 # 10 /\ lo == 0 /\ hi == 1 /\ (9 # 10) <= (1 # 1000) * inject_Z (2 ^ Z.of_nat (pred fuel))%Z /\ (0 < fuel)%nat) ->
  exists t, FindT_loop fuel p0 p1 p2 p3 x first midT lo hi = Some t.
Proof.
  induction fuel as [|f IH]; intros first midT lo hi Hw Hf.
  - cbn [FindT_loop]. unfold localTolerance. destruct (flt (1 # 1000) (hi - lo)) eqn:E; [|eauto].
    apply flt_true in E. change (inject_Z (2 ^ Z.of_nat 0)%Z) with 1 in Hw; destruct first; [destruct (Hf eq_refl); lia | lra].
  - cbn [FindT_loop]. unfold localTolerance. destruct (flt (1 # 1000) (hi - lo)) eqn:E; [|eauto].
    apply flt_true in E.
    set (m := if first then midT else (hi - lo) / 2 + lo).
    assert (Em : first = false -> m == (lo + hi) * (1 # 2)) by (intros ->; unfold m; field).
    assert (Em' : first = true -> m == midT) by (intros ->; unfold m; reflexivity).
    assert (W : forall a b, (a == lo /\ b == m) \/ (a == m /\ b == hi) -> b - a <= (1 # 1000) * inject_Z (2 ^ Z.of_nat f)%Z * 1).
    { intros a b Hab. destruct first.
      - specialize (Em' eq_refl). destruct (Hf eq_refl) as (? & ? & ? & G & ?). cbn [pred] in G. lra.
      - specialize (Em eq_refl).
        rewrite Nat2Z.inj_succ, Z.pow_succ_r, inject_Z_mult in Hw by lia. change (inject_Z 2) with 2 in Hw. lra. }
    fold (cubic p0 p1 p2 p3 m).
    destruct (fle (Qabs (cubic p0 p1 p2 p3 m - x)) (1 # 1000)); [eauto|].
    destruct (flt x (cubic p0 p1 p2 p3 m)); apply IH; try discriminate; apply W; [left | right]; split; reflexivity.
Qed.
Lemma FindT_total p0 p1 p2 p3 x g : exists t, FindT p0 p1 p2 p3 x g = Some t.
Proof.
  unfold FindT. apply FindT_loop_total.
  - cbv. discriminate.
  - intros _. split; [|split; [reflexivity|]; split; [reflexivity|]; split; [cbv; discriminate | lia]].
    destruct (fle g (1 # 10)) eqn:E; [lra|]. destruct (fle (9 # 10) g) eqn:F; [lra|].
    apply fle_false in E. apply fle_false in F. lra.
Qed.

(** *** interpolation and evaluation *)
Lemma straight_ok s e q : input s < input e -> exists v, straight s e q = Num v /\ on_line s e q v.
Proof.
  intro H. unfold straight. rewrite fdiv_some by lra. eexists. split; [reflexivity|].
  unfold on_line. field. lra.
Qed.
Lemma straight_nooob s e q : straight s e q = NaN \/ exists v, straight s e q = Num v.
Proof. destruct (straight s e q); eauto. Qed.
Lemma interpolate_ok p s e n i0 q : input s < input e -> input s <= q <= input e ->
  exists v, interpolate p s e n i0 q = Num v /\ on_segment s e q v.
Proof.
  intros H Hq. unfold interpolate, on_segment.
  destruct (interp s) eqn:Is; destruct (interp e) eqn:Ie; try (apply straight_ok; auto); try (eexists; split; [reflexivity|]; try reflexivity; exact I).
  - rewrite fdiv_some by lra.
    destruct (FindT_ok (input s) (fst (outTangent s)) (fst (inTangent e)) (input e) q ((q - input s) / (input e - input s)) Hq)
      as (t & Ht & H01 & Hc).
    rewrite Ht. eexists. split; [reflexivity|]. unfold on_bezier. exists t. split; auto. split; [apply bezier_Bernstein|].
    destruct Hc as [Hc|(lo & hi & L1 & L2 & L3 & L4)].
    + left. rewrite <- cubic_Bernstein. auto.
    + right. exists lo, hi. rewrite <- !cubic_Bernstein. auto.
  - destruct (ComputeTCBTangent (Some s) e n) as [l r]. rewrite fdiv_some by lra. cbn [fst snd].
    match goal with |- context [FindT ?a ?b ?c ?d ?x ?g] => destruct (FindT_total a b c d x g) as [t Ht]; rewrite Ht end.
    eexists. split; [reflexivity | exact I].
  - destruct (ComputeTCBTangent p s (Some e)) as [l r]. destruct (inTangent e) as [cx cy]. rewrite fdiv_some by lra.
    match goal with |- context [FindT ?a ?b ?c ?d ?x ?g] => destruct (FindT_total a b c d x g) as [t Ht]; rewrite Ht end.
    eexists. split; [reflexivity | exact I].
  - destruct (ComputeTCBTangent p s (Some e)) as [l r]. destruct (ComputeTCBTangent (Some s) e n) as [l' r']. rewrite fdiv_some by lra.
    match goal with |- context [FindT ?a ?b ?c ?d ?x ?g] => destruct (FindT_total a b c d x g) as [t Ht]; rewrite Ht end.
    eexists. split; [reflexivity | exact I].
Qed.

Lemma last_nth {A} (l : list A) d : l <> [] -> nth_error l (length l - 1) = Some (last l d).
Proof.
  induction l as [|a l IH]; [congruence|]. intros _. destruct l as [|b l]; [reflexivity|].
  replace (length (a :: b :: l) - 1)%nat with (S (length (b :: l) - 1)) by (cbn; lia).
  cbn [nth_error]. rewrite IH by discriminate. reflexivity.
Qed.
Lemma increasing_ordered ks : increasing ks -> ordered ks.
Proof.
  unfold increasing, ordered. induction 1; constructor; auto. eapply Forall_impl; [|eauto]. cbn; intros; lra.
Qed.

Lemma evaluate_inside_ok k0 rest q off : increasing (k0 :: rest) ->
  input k0 <= q <= input (last (k0 :: rest) k0) ->
  exists v, evaluate_inside (k0 :: rest) (Num q) off = Value (off + v) /\ value_at (k0 :: rest) q v.
Proof.
  intros S Hq. set (ks := k0 :: rest) in *.
  destruct (find_key_ok ks q (increasing_ordered _ S)) as (e & He & Hqe & Hf).
  { cbn; lia. }
  { exists (last ks k0). split; [apply last_nth; discriminate | lra]. }
  assert (U : evaluate_inside ks (Num q) off =
    match find_key ks (Num q) with
      | O => Value (off + output k0)
      | Datatypes.S i =>
          match nth_error ks i, nth_error ks (Datatypes.S i) with
          | Some s, Some e =>
                  match interpolate (match i with O => None | Datatypes.S j => nth_error ks j end) s e (nth_error ks (Datatypes.S (Datatypes.S i))) (input k0) q with
                  | Num v => Value (off + v)
                  | NaN => NotANumber
                  end
          | _, _ => OutOfBounds
          end
      end) by reflexivity.
  rewrite U. clear U.
  destruct Hf as [Hf|(i & s & Hf & Hs & Hsq & Hd)].
  - rewrite Hf in *. cbn in He. inversion He; subst e. exists (output k0). split; [reflexivity|].
    left. exists k0, rest. split; [reflexivity|]. split; [lra | reflexivity].
  - rewrite Hf in *. rewrite Hs, He.
    assert (Hse : input s < input e) by (eapply (sorted_nth _ _ S i (Datatypes.S i)); eauto; lia).
    destruct (interpolate_ok (match i with O => None | Datatypes.S j => nth_error ks j end) s e (nth_error ks (Datatypes.S (Datatypes.S i))) (input k0) q Hse) as (v & Hv & Hon); [lra|].
    rewrite Hv. exists v. split; [reflexivity|]. right.
    destruct (nth_split2 ks i s e Hs He) as (p & r & E). exists p, s, e, r. split; auto. split; [|exact Hon]. lra.
Qed.
Lemma evaluate_inside_safe k0 rest q off : ordered (k0 :: rest) ->
  q <= input (last (k0 :: rest) k0) ->
  evaluate_inside (k0 :: rest) (Num q) off <> OutOfBounds.
Proof.
  intros S Hq. set (ks := k0 :: rest) in *.
  destruct (find_key_ok ks q S) as (e & He & Hqe & Hf).
  { cbn; lia. }
  { exists (last ks k0). split; [apply last_nth; discriminate | lra]. }
  cbn [evaluate_inside]. fold ks. change (match ks with [] => Value 0 | _ :: _ =>
   match find_key ks (Num q) with
      | O => Value (off + output k0)
      | Datatypes.S i =>
          match nth_error ks i, nth_error ks (Datatypes.S i) with
          | Some s, Some e =>
                  match interpolate (match i with O => None | Datatypes.S j => nth_error ks j end) s e (nth_error ks (Datatypes.S (Datatypes.S i))) (input k0) q with
                  | Num v => Value (off + v)
                  | NaN => NotANumber
                  end
          | _, _ => OutOfBounds
          end
      end end <> OutOfBounds). cbv beta iota. cbn [ks].
  destruct Hf as [Hf|(i & s & Hf & Hs & Hsq & Hd)].
  - fold ks. rewrite Hf. discriminate.
  - fold ks. rewrite Hf in *. rewrite Hs, He.
    match goal with |- context [interpolate ?a ?b ?c ?d ?x ?y] => destruct (interpolate a b c d x y) end; discriminate.
Qed.

(** *** the infinity modes *)
Lemma ceil_bounds r : exists n : Z, ceil r == inject_Z n /\ r <= inject_Z n < r + 1.
Proof.
  exists (Qceiling r). split; [reflexivity|]. split; [apply Qle_ceiling|].
  pose proof (Qceiling_lt r) as H. unfold Z.sub in H. rewrite inject_Z_plus in H.
  change (inject_Z (- (1))) with (- (1)) in H. lra.
Qed.
(** n periods of length p > 0 bring a distance d into [0, p). *)
Lemma ceil_period d p : 0 < p -> exists n : Z, ceil (d / p) == inject_Z n /\ d <= inject_Z n * p < d + p.
Proof.
  intro P. destruct (ceil_bounds (d / p)) as (n & E & H1 & H2). exists n. split; auto.
  assert (X : d / p * p == d) by (field; lra).
  split.
  - apply Qmult_le_compat_r with (z := p) in H1; lra.
  - apply Qmult_lt_compat_r with (z := p) in H2; [|auto]. lra.
Qed.
Lemma ceil_period_nonneg d p n : 0 <= d -> 0 < p -> d <= inject_Z n * p -> (0 <= n)%Z.
Proof.
  intros D P H. destruct (Z_lt_le_dec n 0) as [L|L]; auto. exfalso.
  assert (X : inject_Z n <= -1) by (change (-1) with (inject_Z (-1)); rewrite <- Zle_Qle; lia).
  apply Qmult_le_compat_r with (z := p) in X; [|lra]. 
  (* n*p <= -p < 0 <= d *) lra.
Qed.

Lemma on_segment_proper s e x v w : v == w -> on_segment s e x v -> on_segment s e x w.
Proof.
  intro E. unfold on_segment. destruct (interp s), (interp e); auto; try (unfold on_line; rewrite E; auto; fail); try (rewrite E; auto; fail).
  unfold on_bezier. intros (t & H1 & H2 & H3). exists t. split; auto. split; auto. rewrite <- E. auto.
Qed.
Lemma value_at_proper ks x v w : v == w -> value_at ks x v -> value_at ks x w.
Proof.
  intros E [(k0 & r & H1 & H2 & H3)|(l & s & e & r & H1 & H2 & H3)].
  - left. exists k0, r. rewrite <- E. auto.
  - right. exists l, s, e, r. split; auto. split; auto. eapply on_segment_proper; eauto.
Qed.
Lemma last_gt k0 k1 r : increasing (k0 :: k1 :: r) -> input k0 < input (last (k0 :: k1 :: r) k0).
Proof.
  intro S. inversion S as [|? ? H F]; subst. rewrite Forall_forall in F. apply F.
  change (last (k0 :: k1 :: r) k0) with (last (k1 :: r) k0).
  pose proof (last_nth (k1 :: r) k0 ltac:(discriminate)) as L. eapply nth_error_In, L.
Qed.
Lemma before_ok c k0 k1 r x : keys c = k0 :: k1 :: r -> increasing (keys c) ->
  x < input k0 -> preInfinity c <> LINEAR_INFINITY ->
  exists v, Evaluate c x = Value v /\ before_first (keys c) (preInfinity c) k0 k1 (last (keys c) k0) x v.
Proof.
  intros E S Hx Hm. unfold Evaluate. rewrite E in *.
  pose proof (last_gt _ _ _ S) as G. set (kn := last (k0 :: k1 :: r) k0) in *. set (ks := k0 :: k1 :: r) in *.
  destruct (flt x (input k0)) eqn:F; [|apply flt_false in F; lra].
  destruct (preInfinity c) eqn:M; try congruence; cbn [before_first].
  - eexists; split; reflexivity.
  - rewrite fdiv_some by lra.
    destruct (ceil_period (input k0 - x) (input kn - input k0)) as (n & En & B1 & B2); [lra|].
    set (y := x + ceil ((input k0 - x) / (input kn - input k0)) * (input kn - input k0)).
    assert (Ey : y == x + inject_Z n * (input kn - input k0)) by (unfold y; rewrite En; reflexivity).
    destruct (evaluate_inside_ok k0 (k1 :: r) y 0 S) as (v & Hv & At); [fold ks kn; lra|].
    exists (0 + v). split; [exact Hv|]. exists n, y. split.
    { assert (0 <= n)%Z by (eapply ceil_period_nonneg with (d := input k0 - x); [| |exact B1]; lra).
      destruct (Z.eq_dec n 0) as [->|]; [|lia]. change (inject_Z 0) with 0 in B1. lra. }
    split; [exact Ey|]. split; [lra|]. cbn [repeated]. eapply value_at_proper; [|exact At]. ring.
  - rewrite fdiv_some by lra.
    destruct (ceil_period (input k0 - x) (input kn - input k0)) as (n & En & B1 & B2); [lra|].
    set (y := x + ceil ((input k0 - x) / (input kn - input k0)) * (input kn - input k0)).
    assert (Ey : y == x + inject_Z n * (input kn - input k0)) by (unfold y; rewrite En; reflexivity).
    destruct (evaluate_inside_ok k0 (k1 :: r) y (0 - ceil ((input k0 - x) / (input kn - input k0)) * (output kn - output k0)) S) as (v & Hv & At); [fold ks kn; lra|].
    eexists. split; [exact Hv|]. exists n, y. split.
    { assert (0 <= n)%Z by (eapply ceil_period_nonneg with (d := input k0 - x); [| |exact B1]; lra).
      destruct (Z.eq_dec n 0) as [->|]; [|lia]. change (inject_Z 0) with 0 in B1. lra. }
    split; [exact Ey|]. split; [lra|]. cbn [repeated]. eapply value_at_proper; [|exact At]. rewrite En. ring.
  - rewrite fdiv_some by lra.
    destruct (ceil_period (input k0 - x) (2 * (input kn - input k0))) as (n & En & B1 & B2); [lra|].
    set (i := x + ceil ((input k0 - x) / (2 * (input kn - input k0))) * 2 * (input kn - input k0)).
    assert (Ei : i == x + inject_Z n * 2 * (input kn - input k0)) by (unfold i; rewrite En; reflexivity).
    assert (Np : (0 < n)%Z).
    { assert (0 <= n)%Z by (eapply ceil_period_nonneg with (d := input k0 - x); [| |exact B1]; lra).
      destruct (Z.eq_dec n 0) as [->|]; [|lia]. change (inject_Z 0) with 0 in B1. lra. }
    set (y := input kn - Qabs (i - input kn)).
    assert (Cases : (i < input kn /\ y == i) \/ (input kn <= i /\ y == 2 * input kn - i)).
    { unfold y. destruct (Qlt_le_dec i (input kn)).
      - left. split; auto. rewrite Qabs_neg by lra. ring.
      - right. split; auto. rewrite Qabs_pos by lra. ring. }
    destruct (evaluate_inside_ok k0 (k1 :: r) y 0 S) as (v & Hv & At); [fold ks kn; lra|].
    exists (0 + v). split; [exact Hv|].
    destruct Cases as [[C1 C2]|[C1 C2]].
    + exists (2 * n)%Z, i. split; [lia|]. split.
      { unfold moved. rewrite Ei, inject_Z_mult. change (inject_Z 2) with 2. ring. }
      split; [lra|]. cbn [repeated]. exists y. rewrite Z.even_mul. cbn [Z.even orb]. split; [exact C2|].
      eapply value_at_proper; [|exact At]. ring.
    + exists (2 * n - 1)%Z, (i - (input kn - input k0)). split; [lia|]. split.
      { unfold moved. rewrite Ei. unfold Z.sub. rewrite inject_Z_plus, inject_Z_mult.
        change (inject_Z 2) with 2. change (inject_Z (- (1))) with (-1). ring. }
      split; [lra|]. cbn [repeated]. exists y.
      replace (Z.even (2 * n - 1)) with false by (rewrite Z.even_sub, Z.even_mul; reflexivity).
      split; [rewrite C2; ring|]. eapply value_at_proper; [|exact At]. ring.
  - eexists; split; reflexivity.
Qed.

Lemma split_last2 {A} (a b : A) r d : exists l w, a :: b :: r = l ++ [w; last (a :: b :: r) d] /\
  nth_error (a :: b :: r) (length (a :: b :: r) - 2) = Some w.
Proof.
  revert a b. induction r as [|c r IH]; intros a b.
  - exists [], a. split; reflexivity.
  - destruct (IH b c) as (l & w & E & N). exists (a :: l), w. split.
    + cbn [app]. f_equal. exact E.
    + replace (length (a :: b :: c :: r) - 2)%nat with (S (length (b :: c :: r) - 2)) by (cbn; lia). exact N.
Qed.
Lemma after_ok c l w z x : keys c = l ++ [w; z] -> increasing (keys c) -> input z <= x ->
  exists v, Evaluate c x = Value v /\ after_last (keys c) (postInfinity c) (hd w l) w z x v.
Proof.
  intros E0 S Hx.
  destruct (keys c) as [|k0 [|k1 r]] eqn:E; [destruct l; discriminate | destruct l as [|? [|]]; discriminate |].
  unfold Evaluate. rewrite E.
  pose proof (last_gt _ _ _ S) as G. 
  destruct (split_last2 k0 k1 r k0) as (l' & w' & E1 & N).
  assert (Q : w' = w /\ z = last (k0 :: k1 :: r) k0).
  { assert (X : l ++ [w; z] = l' ++ [w'; last (k0 :: k1 :: r) k0]) by congruence.
    change [w; z] with ([w] ++ [z]) in X. change [w'; last (k0 :: k1 :: r) k0] with ([w'] ++ [last (k0 :: k1 :: r) k0]) in X.
    rewrite !app_assoc in X. apply app_inj_tail in X. destruct X as [X X2]. apply app_inj_tail in X. destruct X; auto. }
  destruct Q as [-> Q]. clear E1 l'.
  assert (H0 : hd w l = k0) by (destruct l; cbn in E0 |- *; congruence). rewrite H0.
  assert (Hwz : input w < input z).
  { rewrite E0 in S. apply sorted_app in S. destruct S as [_ [S _]]. inversion S as [|? ? ? F]; subst.
    inversion F; subst; auto. }
  rewrite <- Q in *. set (ks := k0 :: k1 :: r) in *.
  destruct (flt x (input k0)) eqn:F; [apply flt_true in F; lra|].
  destruct (fle (input z) x) eqn:F'; [|apply fle_false in F'; lra].
  destruct (postInfinity c) eqn:M; cbn [after_last].
  - eexists; split; reflexivity.
  - rewrite N. rewrite fdiv_some by lra. eexists; split; [reflexivity|]. unfold on_line. field. lra.
  - rewrite fdiv_some by lra.
    destruct (ceil_period (x - input z) (input z - input k0)) as (n & En & B1 & B2); [lra|].
    set (y := x - ceil ((x - input z) / (input z - input k0)) * (input z - input k0)).
    assert (Ey : y == x - inject_Z n * (input z - input k0)) by (unfold y; rewrite En; reflexivity).
    destruct (evaluate_inside_ok k0 (k1 :: r) y 0 S) as (v & Hv & At); [fold ks; rewrite <- Q; lra|].
    exists (0 + v). split; [exact Hv|]. exists (- n)%Z, y. split.
    { assert (0 <= n)%Z by (eapply ceil_period_nonneg with (d := x - input z); [| |exact B1]; lra). lia. }
    split; [unfold moved; rewrite Ey, inject_Z_opp; ring|]. split; [lra|]. cbn [repeated]. eapply value_at_proper; [|exact At]. ring.
  - rewrite fdiv_some by lra.
    destruct (ceil_period (x - input z) (input z - input k0)) as (n & En & B1 & B2); [lra|].
    set (y := x - ceil ((x - input z) / (input z - input k0)) * (input z - input k0)).
    assert (Ey : y == x - inject_Z n * (input z - input k0)) by (unfold y; rewrite En; reflexivity).
    destruct (evaluate_inside_ok k0 (k1 :: r) y (0 + ceil ((x - input z) / (input z - input k0)) * (output z - output k0)) S) as (v & Hv & At); [fold ks; rewrite <- Q; lra|].
    eexists. split; [exact Hv|]. exists (- n)%Z, y. split.
    { assert (0 <= n)%Z by (eapply ceil_period_nonneg with (d := x - input z); [| |exact B1]; lra). lia. }
    split; [unfold moved; rewrite Ey, inject_Z_opp; ring|]. split; [lra|]. cbn [repeated]. eapply value_at_proper; [|exact At].
    rewrite En, inject_Z_opp. ring.
  - rewrite fdiv_some by lra.
    destruct (ceil_period (x - input z) (2 * (input z - input k0))) as (n & En & B1 & B2); [lra|].
    set (i := x - ceil ((x - input z) / (2 * (input z - input k0))) * 2 * (input z - input k0)).
    assert (Ei : i == x - inject_Z n * 2 * (input z - input k0)) by (unfold i; rewrite En; reflexivity).
    assert (Np : (0 <= n)%Z) by (eapply ceil_period_nonneg with (d := x - input z); [| |exact B1]; lra).
    set (y := input k0 + Qabs (i - input k0)).
    assert (Cases : (input k0 < i /\ y == i) \/ (i <= input k0 /\ y == 2 * input k0 - i)).
    { unfold y. destruct (Qlt_le_dec (input k0) i).
      - left. split; auto. rewrite Qabs_pos by lra. ring.
      - right. split; auto. rewrite Qabs_neg by lra. ring. }
    destruct (evaluate_inside_ok k0 (k1 :: r) y 0 S) as (v & Hv & At); [fold ks; rewrite <- Q; lra|].
    exists (0 + v). split; [exact Hv|].
    destruct Cases as [[C1 C2]|[C1 C2]].
    + exists (- (2 * n))%Z, i. split; [lia|]. split.
      { unfold moved. rewrite Ei, inject_Z_opp, inject_Z_mult. change (inject_Z 2) with 2. ring. }
      split; [lra|]. cbn [repeated]. exists y. rewrite Z.even_opp, Z.even_mul. cbn [Z.even orb]. split; [exact C2|].
      eapply value_at_proper; [|exact At]. ring.
    + assert (Nz : n <> 0%Z). { intros ->. change (inject_Z 0) with 0 in *. lra. }
      exists (- (2 * n - 1))%Z, (i + (input z - input k0)). split; [lia|]. split.
      { unfold moved. rewrite Ei, inject_Z_opp. unfold Z.sub. rewrite inject_Z_plus, inject_Z_mult.
        change (inject_Z 2) with 2. change (inject_Z (- (1))) with (-1). ring. }
      split; [lra|]. cbn [repeated]. exists y.
      replace (Z.even (- (2 * n - 1))) with false by (rewrite Z.even_opp, Z.even_sub, Z.even_mul; reflexivity).
      split; [rewrite C2; ring|]. eapply value_at_proper; [|exact At]. ring.
  - eexists; split; reflexivity.
Qed.
Lemma inside_ok c a l z x : keys c = a :: l ++ [z] -> increasing (keys c) -> input a <= x < input z ->
  exists v, Evaluate c x = Value v /\ value_at (keys c) x v.
Proof.
  intros E0 S Hx. assert (L : last (keys c) a = z).
  { rewrite E0. change (a :: l ++ [z]) with ((a :: l) ++ [z]). apply last_last. }
  assert (Hr : exists k1 r, l ++ [z] = k1 :: r) by (destruct l; cbn; eauto).
  destruct Hr as (k1 & r & Er). rewrite Er in E0. unfold Evaluate. rewrite E0 in *. rewrite L.
  destruct (flt x (input a)) eqn:F; [apply flt_true in F; lra|].
  destruct (fle (input z) x) eqn:F'; [apply fle_true in F'; lra|].
  destruct (evaluate_inside_ok a (k1 :: r) x 0 S) as (v & Hv & At); [rewrite L; lra|].
  eexists. split; [exact Hv|]. eapply value_at_proper; [|exact At]. ring.
Qed.

(** *** memory safety for sorted keys *)
Lemma Evaluate_safe c k0 k1 r x : keys c = k0 :: k1 :: r -> ordered (keys c) -> input k0 < input (last (keys c) k0) ->
  Evaluate c x <> OutOfBounds.
Proof.
  intros E S G. unfold Evaluate. rewrite E in *.
  set (kn := last (k0 :: k1 :: r) k0) in *. set (ks := k0 :: k1 :: r) in *.
  assert (Safe : forall q off, q <= input kn -> evaluate_inside ks (Num q) off <> OutOfBounds) by (intros; apply evaluate_inside_safe; auto).
  destruct (flt x (input k0)) eqn:F.
  - apply flt_true in F.
    destruct (preInfinity c); try discriminate.
    + match goal with |- context [fdiv ?a ?b] => destruct (fdiv a b) end; discriminate.
    + rewrite fdiv_some by lra. destruct (ceil_period (input k0 - x) (input kn - input k0)) as (n & En & B1 & B2); [lra|].
      apply Safe. rewrite En. lra.
    + rewrite fdiv_some by lra. destruct (ceil_period (input k0 - x) (input kn - input k0)) as (n & En & B1 & B2); [lra|].
      apply Safe. rewrite En. lra.
    + rewrite fdiv_some by lra. apply Safe. 
      match goal with |- context [Qabs ?a] => pose proof (Qabs_nonneg a) end. lra.
  - apply flt_false in F. destruct (fle (input kn) x) eqn:F'.
    2:{ apply fle_false in F'. apply Safe. lra. }
    apply fle_true in F'.
    destruct (postInfinity c); try discriminate.
    + destruct (split_last2 k0 k1 r k0) as (l & w & _ & N). fold ks in N. rewrite N.
      match goal with |- context [fdiv ?a ?b] => destruct (fdiv a b) end; discriminate.
    + rewrite fdiv_some by lra. destruct (ceil_period (x - input kn) (input kn - input k0)) as (n & En & B1 & B2); [lra|].
      apply Safe. rewrite En. lra.
    + rewrite fdiv_some by lra. destruct (ceil_period (x - input kn) (input kn - input k0)) as (n & En & B1 & B2); [lra|].
      apply Safe. rewrite En. lra.
    + rewrite fdiv_some by lra. destruct (ceil_period (x - input kn) (2 * (input kn - input k0))) as (n & En & B1 & B2); [lra|].
      apply Safe. match goal with |- context [Qabs ?a] => apply Qle_trans with (input k0 + (input kn - input k0)); [apply Qplus_le_r, Qabs_Qle_condition | lra] end.
      rewrite En. lra.
Qed.
