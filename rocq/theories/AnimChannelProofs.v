(** Loading a described channel. *)
From Coq Require Import String List ZArith NArith QArith Qabs Bool Lia.
From Verif Require Import TextModel TextSpec TextProofs StringModel StringProofs XmlModel FloatModel FloatSpec DaeModel DaeSpec DaeProofs RigModel RigSpec RigTextProofs RigProofs CrcModel
  AnimModel AnimSpec AnimReadProofs AnimLoadProofs.
Import ListNotations.
Local Open Scope nat_scope.
Local Open Scope list_scope.

(** *** Infinities *)
Lemma infinity_read w z : infinity_code w z -> InfinityFromString (tx w) = z.
Proof. unfold infinity_code. cbn [In]. intro H. repeat (destruct H as [H|H]; [injection H as <- <-; reflexivity|]). destruct H. Qed.
Lemma maya_find n : (forall c v, In c (children_of n) -> has_attr c "profile" v -> plain v) -> forall c, In c (children_of n) ->
  (named c "technique" && text_eq (ReadNodeProperty c "profile") (tx "MAYA") = true <-> is_maya c).
Proof.
  intros Hp c Hc. unfold is_maya. rewrite andb_true_iff, named_iff. split; intros (H1 & H2); split; auto.
  - apply text_eq_spec in H2. destruct (read_attr_has _ _ _ H2 ltac:(discriminate)) as (w & Hw & Ew). rewrite (plain_same w (Hp c w Hc Hw)) in Ew. now subst w.
  - rewrite (has_attr_plain _ _ _ H2 (Hp _ _ Hc H2)). apply text_eq_refl.
Qed.
Lemma elem_only k k' n : is_elem k n -> is_elem k' n -> tx k = tx k'.
Proof. intros (a & c & ->) (a' & c' & E). injection E as E _ _. exact E. Qed.
Lemma infinities_read n pre post d : infinities n pre post -> fold_left parameter (FindParameters (FindTechnique n "MAYA")) (0%Z, 0%Z, d) = (pre, post, d).
Proof.
  intros (Hp & [(H & -> & ->) | (m & e1 & e2 & w1 & w2 & Hm & Hc & He1 & Ht1 & Hw1 & He2 & Ht2 & Hw2)]); unfold FindTechnique.
  - rewrite find_none; [reflexivity|]. rewrite Forall_forall in *. intros c Hc. apply not_true_is_false. intro E. apply (H c Hc). now apply (maya_find n Hp c Hc).
  - rewrite (find_first _ is_maya (children_of n) m (maya_find n Hp) Hm). apply infinity_read in Hw1, Hw2.
    assert (E1 : forall st, parameter st e1 = (pre, snd (fst st), snd st)).
    { intros ((p, q), x). unfold parameter. rewrite (has_text_read _ _ Ht1). rewrite (proj2 (named_iff e1 "pre_infinity") He1), Hw1. reflexivity. }
    assert (E2 : forall st, parameter st e2 = (fst (fst st), post, snd st)).
    { intros ((p, q), x). unfold parameter. rewrite (has_text_read _ _ Ht2). rewrite (proj2 (named_not e2 "pre_infinity")), (proj2 (named_iff e2 "post_infinity") He2), Hw2; [reflexivity|].
      intro H. pose proof (elem_only _ _ _ H He2). discriminate. }
    assert (F1 : (is_element e1 && negb (named e1 "technique") && negb (named e1 "extra")) = true) by (destruct He1 as (x & y & ->); reflexivity).
    assert (F2 : (is_element e2 && negb (named e2 "technique") && negb (named e2 "extra")) = true) by (destruct He2 as (x & y & ->); reflexivity).
    unfold FindParameters. destruct Hc as [-> | ->]; cbn [filter]; rewrite F1, F2; cbn [fold_left]; rewrite E1, E2; reflexivity.
Qed.

(** *** Targets and drivers *)
Definition quiet (c : Z) : Prop := (c <> 40 /\ c <> 91 /\ c <> 46)%Z.
Lemma split_target p q : Forall quiet p -> (q = [] \/ In (hd 0%Z q) [40; 91; 46]%Z) -> SplitTarget (p ++ q) = (p, q).
Proof.
  intros Hp Hq. induction Hp as [|c p (H1 & H2 & H3) _ IH].
  - cbn [app]. destruct q as [|c q]; [reflexivity|]. destruct Hq as [Hq|Hq]; [discriminate|]. cbn [hd In] in Hq. cbn [SplitTarget].
    destruct Hq as [<- | [<- | [<- | []]]]; reflexivity.
  - cbn [app SplitTarget]. rewrite (proj2 (Z.eqb_neq _ _) H1), (proj2 (Z.eqb_neq _ _) H2), (proj2 (Z.eqb_neq _ _) H3). cbn [orb]. rewrite IH. reflexivity.
Qed.
Lemma digits_digit n t : decimal n t -> Forall (fun c => (48 <=? c)%Z && (c <=? 57)%Z = true) t.
Proof.
  induction 1 as [d H|n t d _ IH _ H]; [constructor; [|constructor]|apply Forall_app; split; [exact IH|constructor; [|constructor]]];
    (apply andb_true_iff; split; apply Z.leb_le; lia).
Qed.
Lemma parse_index a fuel i ds rest : decimal i ds -> (0 <= i <= 2147483599)%Z -> ParseQualifier a (S fuel) (40%Z :: ds ++ 41%Z :: rest) = Some i.
Proof.
  intros Hd Hi. cbn [ParseQualifier Z.eqb Pos.eqb orb]. rewrite skip_app by now apply (digits_digit i). cbn [skip_while].
  change (((48 <=? 41) && (41 <=? 57))%Z) with false. cbn iota.
  change ((41 =? 41)%Z || (41 =? 93)%Z) with true. cbv iota. assert (Es : ds = append_i32 i) by (apply signed_append; left; split; [lia|exact Hd]).
  rewrite Es. change (append_i32 i ++ 41%Z :: rest) with ([] ++ append_i32 i ++ 41%Z :: rest). rewrite to_int32_spec; [reflexivity|constructor|reflexivity|lia|intros _; lia].
Qed.
Lemma driver_read a t p i : driver_reference t p i -> XmlToString (35%Z :: t) = 35%Z :: t /\ load_driver a (35%Z :: t) = Some (Some (p, i)).
Proof.
  intros (((Hp & Hne) & Hq) & Hi & ds & rest & -> & Hd & Hr). assert (Hds : plain ds) by (rewrite (decimal_dec _ _ Hd); apply dec_plain; lia). split.
  - apply plain_same. destruct Hp as (A1 & A2), Hds as (B1 & B2), Hr as (C1 & C2). split.
    + constructor; [lia|]. apply Forall_app. split; [exact A1|]. constructor; [lia|]. apply Forall_app. split; [exact B1|]. constructor; [lia|exact C1].
    + intros [E|H]; [discriminate|]. apply in_app_iff in H as [H|[H|H]]; [auto|discriminate|]. apply in_app_iff in H as [H|[H|H]]; [auto|discriminate|auto].
  - cbn [load_driver]. change (drop_hash (35%Z :: p ++ 40%Z :: ds ++ 41%Z :: rest)) with (p ++ 40%Z :: ds ++ 41%Z :: rest).
    rewrite split_target; [|exact Hq|right; left; reflexivity]. cbn [List.length]. rewrite (parse_index a _ i ds rest Hd Hi). cbn [option_map]. rewrite (proj2 (Z.ltb_ge i 0)) by lia. reflexivity.
Qed.
Lemma driven_read a ins d : (forall i v, In i ins -> has_attr i "semantic" v -> plain v) -> driven ins d ->
  load_driver a (pick (fun n => ReadNodeProperty n "source") "DRIVER" ins []) = Some d.
Proof.
  intros Hp H. destruct (semantics_plain "DRIVER" ltac:(cbn; tauto)) as (H1 & H2). destruct d as [(p, i)|]; cbn [driven] in H.
  - destruct H as (t & (l & x & r & E & Hx & Hsrc & Ho) & Hd). destruct (driver_read a t p i Hd) as (E1 & E2).
    rewrite (pick_some _ _ _ _ _ _ _ Hp H1 H2 E Hx Ho). rewrite (has_attr_read _ _ _ Hsrc), E1. exact E2.
  - rewrite pick_none; auto.
Qed.

(** *** A key *)
Lemma apply_none class f k : apply_entry class f None k = k.
Proof. unfold apply_entry. now destruct (class (kind k)). Qed.
Lemma interp_text t : InterpolationFromString t = (if text_eq t (tx "STEP") then 0 else if text_eq t (tx "LINEAR") then 1 else if text_eq t (tx "BEZIER") then 2 else
  if text_eq t (tx "TCB") then 3 else if text_eq t [] then 2 else 4)%Z.
Proof. reflexivity. Qed.

(** What tangents and TCB values do to one key. *)
Definition tangent_step (f1 f2 : list Q -> key -> key) (d : option tangents) (i j : nat) (k k' : key) : Prop :=
  match d with
  | None => k' = k
  | Some (Pairs rows) => exists e, entry_is 2 rows i j e /\ k' = apply_entry is_bezier f2 e k
  | Some (Relative rows) => exists e, entry_is 1 rows i j e /\ k' = apply_entry is_bezier f1 e k
  end.
Definition tcb_step (f : list Q -> key -> key) (w : nat) (d : option (list (list Q))) (i j : nat) (k k' : key) : Prop :=
  match d with None => k' = k | Some rows => exists e, entry_is w rows i j e /\ k' = apply_entry is_tcb f e k end.
Lemma same_nth_error {A B} (l : list A) (m : list B) i x : List.length l = List.length m -> nth_error m i = Some x -> exists y, nth_error l i = Some y.
Proof. intros Hl H. destruct (nth_error l i) eqn:E; [eauto|]. apply nth_error_None in E. assert (i < List.length m) by (apply nth_error_Some; congruence). lia. Qed.
Lemma table_back class f w rows cs cs' i ks' : table_stage class f w rows cs cs' -> nth_error cs' i = Some ks' ->
  exists ks, nth_error cs i = Some ks /\ List.length ks = List.length ks' /\
    forall j k', nth_error ks' j = Some k' -> exists k, nth_error ks j = Some k /\ exists e, entry_is w rows i j e /\ k' = apply_entry class f e k.
Proof.
  intros (Hl & H) Hi. destruct (same_nth_error cs cs' i ks' ltac:(lia) Hi) as (ks & Hk). destruct (H i ks Hk) as (ks2 & E & Hlen & Hn). rewrite Hi in E. injection E as <-.
  exists ks. split; [exact Hk|]. split; [lia|]. intros j k' Hj. destruct (same_nth_error ks ks' j k' ltac:(lia) Hj) as (k & Ek). exists k. split; [exact Ek|].
  destruct (Hn j k Ek) as (e & He & E). rewrite Hj in E. injection E as ->. eauto.
Qed.
Lemma tangent_back f1 f2 d cs cs' i ks' : tangent_stage f1 f2 d cs cs' -> nth_error cs' i = Some ks' ->
  exists ks, nth_error cs i = Some ks /\ List.length ks = List.length ks' /\
    forall j k', nth_error ks' j = Some k' -> exists k, nth_error ks j = Some k /\ tangent_step f1 f2 d i j k k'.
Proof.
  intros H Hi. destruct d as [[rows|rows]|]; cbn [tangent_stage tangent_step] in *.
  - now apply (table_back _ _ _ _ _ _ _ _ H).
  - now apply (table_back _ _ _ _ _ _ _ _ H).
  - subst cs'. exists ks'. repeat split; eauto.
Qed.
Lemma tcb_back f w d cs cs' i ks' : tcb_stage f w d cs cs' -> nth_error cs' i = Some ks' ->
  exists ks, nth_error cs i = Some ks /\ List.length ks = List.length ks' /\
    forall j k', nth_error ks' j = Some k' -> exists k, nth_error ks j = Some k /\ tcb_step f w d i j k k'.
Proof.
  intros H Hi. destruct d as [rows|]; cbn [tcb_stage tcb_step] in *.
  - now apply (table_back _ _ _ _ _ _ _ _ H).
  - subst cs'. exists ks'. repeat split; eauto.
Qed.
Lemma steps_other f1 f2 d i j k k' : tangent_step f1 f2 d i j k k' -> is_bezier (kind k) = false -> k' = k.
Proof.
  intros H E. destruct d as [[rows|rows]|]; cbn [tangent_step] in H; [destruct H as (e & _ & ->)|destruct H as (e & _ & ->)|]; auto; unfold apply_entry; now rewrite E.
Qed.
Lemma tcb_other f w d i j k k' : tcb_step f w d i j k k' -> is_tcb (kind k) = false -> k' = k.
Proof. intros H E. destruct d as [rows|]; cbn [tcb_step] in H; [destruct H as (e & _ & ->)|]; auto. unfold apply_entry; now rewrite E. Qed.
Lemma tangent_in d i j t v ti to k' def : tangent_step set_in_1d set_in d i j (Key t v (Bezier ti to)) k' -> (fst ti == def)%Q -> snd ti = v ->
  exists ti', k' = Key t v (Bezier ti' to) /\ forall v', (v == v')%Q -> tangent_is d 1 def i j v' ti'.
Proof.
  intros H Hd Hv. destruct ti as [u w]. cbn [fst snd] in *. subst w. destruct d as [[rows|rows]|]; cbn [tangent_step tangent_is] in *.
  - destruct H as (e & He & ->). unfold entry_is in He. unfold apply_entry. cbn [kind is_bezier]. destruct (j <? List.length rows).
    + destruct He as (x & -> & Hx). exists (fst_number x, snd_number x). split; [reflexivity|]. intros v' _. cbn [fst snd]. unfold fst_number, snd_number.
      rewrite (Hx 0 ltac:(lia)), (Hx 1 ltac:(lia)), Nat.add_0_r. split; reflexivity.
    + subst e. exists (u, v). split; [reflexivity|]. intros v' Hv'. cbn. auto.
  - destruct H as (e & He & ->). unfold entry_is in He. unfold apply_entry. cbn [kind is_bezier]. destruct (j <? List.length rows).
    + destruct He as (x & -> & Hx). exists (u, (v - fst_number x)%Q). split; [reflexivity|]. intros v' Hv'. cbn [fst snd]. unfold fst_number.
      split; [exact Hd|]. rewrite (Hx 0 ltac:(lia)), Nat.add_0_r, Nat.mul_1_l, Hv'. ring.
    + subst e. exists (u, v). split; [reflexivity|]. intros v' Hv'. cbn. auto.
  - subst k'. exists (u, v). split; [reflexivity|]. intros v' Hv'. cbn. auto.
Qed.
Lemma tangent_out d i j t v ti to k' def : tangent_step set_out_1d set_out d i j (Key t v (Bezier ti to)) k' -> (fst to == def)%Q -> snd to = v ->
  exists to', k' = Key t v (Bezier ti to') /\ forall v', (v == v')%Q -> tangent_is d (-1) def i j v' to'.
Proof.
  intros H Hd Hv. destruct to as [u w]. cbn [fst snd] in *. subst w. destruct d as [[rows|rows]|]; cbn [tangent_step tangent_is] in *.
  - destruct H as (e & He & ->). unfold entry_is in He. unfold apply_entry. cbn [kind is_bezier]. destruct (j <? List.length rows).
    + destruct He as (x & -> & Hx). exists (fst_number x, snd_number x). split; [destruct ti; reflexivity|]. intros v' _. cbn [fst snd]. unfold fst_number, snd_number.
      rewrite (Hx 0 ltac:(lia)), (Hx 1 ltac:(lia)), Nat.add_0_r. split; reflexivity.
    + subst e. exists (u, v). split; [reflexivity|]. intros v' Hv'. cbn. auto.
  - destruct H as (e & He & ->). unfold entry_is in He. unfold apply_entry. cbn [kind is_bezier]. destruct (j <? List.length rows).
    + destruct He as (x & -> & Hx). exists (u, (v + fst_number x)%Q). split; [destruct ti; reflexivity|]. intros v' Hv'. cbn [fst snd]. unfold fst_number.
      split; [exact Hd|]. rewrite (Hx 0 ltac:(lia)), Nat.add_0_r, Nat.mul_1_l, Hv'. ring.
    + subst e. exists (u, v). split; [reflexivity|]. intros v' Hv'. cbn. auto.
  - subst k'. exists (u, v). split; [reflexivity|]. intros v' Hv'. cbn. auto.
Qed.
Lemma tcb_in d i j t v te co bi ei eo k' : tcb_step set_tcb 3 d i j (Key t v (Tcb te co bi ei eo)) k' ->
  exists te' co' bi', k' = Key t v (Tcb te' co' bi' ei eo) /\ numbers_or d 3 i j [te; co; bi] [te'; co'; bi'].
Proof.
  intros H. destruct d as [rows|]; cbn [tcb_step numbers_or] in *.
  - destruct H as (e & He & ->). unfold entry_is in He. unfold apply_entry. cbn [kind is_tcb]. destruct (j <? List.length rows).
    + destruct He as (x & -> & Hx). exists (fst_number x), (snd_number x), (nth 2 x 0%Q). split; [reflexivity|]. cbn [seq map]. unfold fst_number, snd_number.
      pose proof (Hx 0 ltac:(lia)). pose proof (Hx 1 ltac:(lia)). pose proof (Hx 2 ltac:(lia)). repeat (constructor; [symmetry; assumption|]). constructor.
    + subst e. exists te, co, bi. split; [reflexivity|]. repeat (constructor; [reflexivity|]). constructor.
  - subst k'. exists te, co, bi. split; [reflexivity|]. repeat (constructor; [reflexivity|]). constructor.
Qed.
Lemma ease_in d i j t v te co bi ei eo k' : tcb_step set_ease 2 d i j (Key t v (Tcb te co bi ei eo)) k' ->
  exists ei' eo', k' = Key t v (Tcb te co bi ei' eo') /\ numbers_or d 2 i j [ei; eo] [ei'; eo'].
Proof.
  intros H. destruct d as [rows|]; cbn [tcb_step numbers_or] in *.
  - destruct H as (e & He & ->). unfold entry_is in He. unfold apply_entry. cbn [kind is_tcb]. destruct (j <? List.length rows).
    + destruct He as (x & -> & Hx). exists (fst_number x), (snd_number x). split; [reflexivity|]. cbn [seq map]. unfold fst_number, snd_number.
      pose proof (Hx 0 ltac:(lia)). pose proof (Hx 1 ltac:(lia)). repeat (constructor; [symmetry; assumption|]). constructor.
    + subst e. exists ei, eo. split; [reflexivity|]. repeat (constructor; [reflexivity|]). constructor.
  - subst k'. exists ei, eo. split; [reflexivity|]. repeat (constructor; [reflexivity|]). constructor.
Qed.
Section Key_.
Variables (d : channel_data) (times : list Q) (i j : nat) (t v : Q).
Hypothesis Ht : Forall2 (fun v r => r == v)%Q (d_times d) times.
Hypothesis Hj : nth_error times j = Some t.
Hypothesis Hv : (v == at_row (d_values d) j i)%Q.
Hypothesis Hwords : Forall (fun w => w <> []) (d_words d).
Lemma time_here : (t == nth j (d_times d) 0)%Q.
Proof. rewrite <- (Forall2_nthq _ _ Ht j). now rewrite (nth_error_nth _ _ _ Hj). Qed.
Lemma in_default : ((match j with O => t - 1 | S i => nth i times 0 end + 2 * t) / 3 == third_in (d_times d) j)%Q.
Proof.
  unfold third_in. pose proof time_here as E. destruct j as [|j']; [now rewrite E|]. rewrite E, (Forall2_nthq _ _ Ht j'). reflexivity.
Qed.
Lemma out_default : (((if S j =? List.length times then t + 1 else nth (S j) times 0) + 2 * t) / 3 == third_out (d_times d) j)%Q.
Proof.
  unfold third_out. pose proof time_here as E. rewrite (Forall2_len _ _ _ Ht). destruct (S j =? List.length times); [now rewrite E|]. rewrite E, (Forall2_nthq _ _ Ht (S j)). reflexivity.
Qed.
Lemma key_done x k1 k2 k3 k4 :
  nth_error (map InterpolationFromString (d_words d) ++ repeat (InterpolationFromString []) (List.length times - List.length (d_words d))) j = Some x ->
  tangent_step set_in_1d set_in (d_in d) i j (new_key times j t x v) k1 -> tangent_step set_out_1d set_out (d_out d) i j k1 k2 ->
  tcb_step set_tcb 3 (d_tcb d) i j k2 k3 -> tcb_step set_ease 2 (d_ease d) i j k3 k4 -> key_is d i j k4.
Proof.
  intros Hx H1 H2 H3 H4. unfold key_is. cbv zeta. pose proof time_here as Et.
  set (P := at_row (d_values d) j i) in *.
  assert (Hx' : (exists w, nth_error (d_words d) j = Some w /\ w <> [] /\ x = InterpolationFromString w) \/ (List.length (d_words d) <= j /\ x = 2%Z)).
  { destruct (Nat.lt_ge_cases j (List.length (d_words d))) as [Hlt|Hge].
    - left. rewrite nth_error_app1 in Hx by (rewrite map_length; exact Hlt). rewrite nth_error_map in Hx. destruct (nth_error (d_words d) j) as [w|] eqn:E; [|discriminate].
      exists w. split; [reflexivity|]. rewrite Forall_forall in Hwords. split; [apply Hwords; apply (nth_error_In _ _ E)|]. cbn [option_map] in Hx. now injection Hx.
    - right. split; [exact Hge|]. rewrite nth_error_app2 in Hx by (rewrite map_length; exact Hge). apply nth_error_In in Hx. apply repeat_spec in Hx. exact Hx. }
  unfold new_key in H1. cbv zeta in H1. destruct (x =? 2)%Z eqn:E2.
  - apply Z.eqb_eq in E2. destruct (tangent_in _ _ _ _ _ _ _ _ _ H1 in_default eq_refl) as (ti & -> & Hti).
    destruct (tangent_out _ _ _ _ _ _ _ _ _ H2 out_default eq_refl) as (to & -> & Hto).
    assert (k3 = Key t v (Bezier ti to)) by (apply (tcb_other _ _ _ _ _ _ _ H3); reflexivity). subst k3.
    assert (k4 = Key t v (Bezier ti to)) by (apply (tcb_other _ _ _ _ _ _ _ H4); reflexivity). subst k4. cbn [input output kind].
    assert (Hb : forall w, word_is (d_words d) j w -> InterpolationFromString (tx w) = 2%Z).
    { intros w Hw. unfold word_is in Hw. destruct Hx' as [(w' & Ew & _ & Ex) | (Hge & _)]; [|apply nth_error_None in Hge; rewrite Hge in Hw; discriminate]. rewrite Ew in Hw. injection Hw as Hw. rewrite <- Hw, <- Ex. exact E2. }
    split; [exact Et|]. split; [exact Hv|]. split; [intro H; apply Hb in H; discriminate|]. split; [intro H; apply Hb in H; discriminate|].
    split; [intros _; exists ti, to; split; [reflexivity|]; split; auto|]. split; [intro H; apply Hb in H; discriminate|].
    intro Hk. exfalso. apply Hk. unfold known_word, word_is. destruct Hx' as [(w & Ew & Hne & Ex) | (Hge & _)]; [|left; exact Hge]. rewrite Ew.
    rewrite interp_text in Ex. destruct (text_eq w (tx "STEP")); [lia|]. destruct (text_eq w (tx "LINEAR")); [lia|].
    destruct (text_eq w (tx "BEZIER")) eqn:Eb; [apply text_eq_spec in Eb; subst w; tauto|]. destruct (text_eq w (tx "TCB")); [lia|].
    destruct (text_eq w []) eqn:E0; [apply text_eq_spec in E0; contradiction|lia].
  - destruct Hx' as [(w & Ew & Hne & Ex) | (_ & Hx2)]; [|subst x; discriminate].
    assert (Hlt : j < List.length (d_words d)) by (apply nth_error_Some; congruence).
    assert (Hnb : ~ word_is (d_words d) j "BEZIER") by (unfold word_is; rewrite Ew; intro H; injection H as ->; subst x; discriminate).
    destruct (x =? 3)%Z eqn:E3.
    + apply steps_other in H1; [|reflexivity]. subst k1. apply steps_other in H2; [|reflexivity]. subst k2.
      destruct (tcb_in _ _ _ _ _ _ _ _ _ _ _ H3) as (te & co & bi & -> & Hn1). destruct (ease_in _ _ _ _ _ _ _ _ _ _ _ H4) as (ei & eo & -> & Hn2).
      cbn [input output kind]. split; [exact Et|]. split; [exact Hv|]. apply Z.eqb_eq in E3. rewrite E3 in Ex.
      assert (Ht3 : word_is (d_words d) j "TCB").
      { unfold word_is. rewrite Ew. rewrite interp_text in Ex. destruct (text_eq w (tx "STEP")); [lia|]. destruct (text_eq w (tx "LINEAR")); [lia|].
        destruct (text_eq w (tx "BEZIER")); [lia|]. destruct (text_eq w (tx "TCB")) eqn:E; [apply text_eq_spec in E; now subst w|]. destruct (text_eq w []); lia. }
      split; [intro H; unfold word_is in *; rewrite Ht3 in H; discriminate|]. split; [intro H; unfold word_is in *; rewrite Ht3 in H; discriminate|]. split; [intros [H|H]; [contradiction|lia]|].
      split; [intros _; exists te, co, bi, ei, eo; auto|]. intro Hk. exfalso. apply Hk. unfold known_word. tauto.
    + apply steps_other in H1; [|reflexivity]. subst k1. apply steps_other in H2; [|reflexivity]. subst k2.
      apply tcb_other in H3; [|reflexivity]. subst k3. apply tcb_other in H4; [|reflexivity]. subst k4. cbn [input output kind].
      split; [exact Et|]. split; [exact Hv|]. split; [intro H; unfold word_is in H; rewrite Ew in H; injection H as ->; subst x; reflexivity|].
      split; [intro H; unfold word_is in H; rewrite Ew in H; injection H as ->; subst x; reflexivity|]. split; [intros [H|H]; [contradiction|lia]|].
      split; [intro H; unfold word_is in H; rewrite Ew in H; injection H as ->; subst x; discriminate|].
      intro Hk. unfold known_word, word_is in Hk. rewrite Ew in Hk. f_equal. rewrite Ex, interp_text.
      destruct (text_eq w (tx "STEP")) eqn:A1; [apply text_eq_spec in A1; subst w; tauto|]. destruct (text_eq w (tx "LINEAR")) eqn:A2; [apply text_eq_spec in A2; subst w; tauto|].
      destruct (text_eq w (tx "BEZIER")) eqn:A3; [apply text_eq_spec in A3; subst w; tauto|]. destruct (text_eq w (tx "TCB")) eqn:A4; [apply text_eq_spec in A4; subst w; tauto|].
      destruct (text_eq w []) eqn:A5; [apply text_eq_spec in A5; contradiction|reflexivity].
Qed.
End Key_.
Lemma words_filled n taken : interpolation_source n taken -> Forall (fun w => w <> []) taken.
Proof.
  intros (stride & l & _ & _ & _ & Hl & nm & at' & ch & e & t & _ & _ & _ & Hw). apply Forall_forall. intros w Hin. apply In_nth_error in Hin as (i & Hi).
  assert (i < List.length taken) by (apply nth_error_Some; congruence). rewrite <- (Hl i) in Hi by assumption. apply nth_error_In in Hi. clear - Hw Hi.
  induction Hw as [|lead w' rest ws _ Hne _ _ _ IH]; [destruct Hi|]. destruct Hi as [<- | Hi]; auto.
Qed.
Lemma target_read n p q : has_attr n "target" (p ++ q) -> plain p -> plain q -> Forall quiet p -> (q = [] \/ In (hd 0%Z q) [40; 91; 46]%Z) ->
  SplitTarget (ReadNodeProperty n "target") = (p, q).
Proof.
  intros H (A1 & A2) (B1 & B2) H3 H4. rewrite (has_attr_plain _ _ _ H); [now apply split_target|]. split; [apply Forall_app; auto|]. rewrite in_app_iff. tauto.
Qed.
Theorem load_described a scopes n dim d p q : describes scopes n dim d p q -> exists c, LoadAnimationChannel a scopes n = Some (Some c) /\ channel_is dim d p q c.
Proof.
  intros [(Ht & Hpp & Hpq & Hq & Hqq) (id & s & attrs & ch & ins & Hsrc & Hr & -> & Hins & Hpl & Hin & Hout & Hinterp & Hit & Hot & Htcb & Hease & Hdrv) (Hne & Hdim)].
  unfold LoadAnimationChannel. rewrite (target_read n p q Ht Hpp Hpq Hq Hqq). rewrite (has_attr_read _ _ _ Hsrc), (legal_hash id (proj1 Hr)), (find_by_crc _ _ _ Hr).
  change (named (Elem (tx "sampler") attrs ch) "sampler") with true. cbn [negb children_of]. rewrite (inputs_filter _ _ Hins), fold_found.
  apply (pick_sampled scopes ins) in Hin as (nin & Ein & Hfs & Hinf); [|exact Hpl|cbn; tauto]. apply (pick_sampled scopes ins) in Hout as (nout & Eout & count & Hvt & Hvc); [|exact Hpl|cbn; tauto].
  apply (pick_sampled scopes ins) in Hinterp; [|exact Hpl|cbn; tauto]. apply (pick_sampled scopes ins) in Hit; [|exact Hpl|cbn; tauto].
  apply (pick_sampled scopes ins) in Hot; [|exact Hpl|cbn; tauto]. apply (pick_sampled scopes ins) in Htcb; [|exact Hpl|cbn; tauto].
  apply (pick_sampled scopes ins) in Hease; [|exact Hpl|cbn; tauto]. apply (driven_read a ins _ Hpl) in Hdrv.
  cbn [f_in f_out f_itan f_otan f_tcb f_ease f_interp f_driver nothing_found]. rewrite Ein, Eout.
  destruct Hvt as (Hd0 & Hvt'). destruct (accessor_read nout dim count Hd0 (proj1 Hvt')) as (_ & E2 & _). rewrite E2.
  destruct (read_floats a nin (d_times d) [] Hfs) as (times & Et & Htimes). rewrite Et.
  assert (Htn : times <> []) by (intros ->; inversion Htimes as [E|]; congruence).
  destruct (read_values a dim count nout (d_values d) (conj Hd0 Hvt') Hvc) as (cols & Ec & Hcols). rewrite Ec.
  assert (Hw : Forall (fun w => w <> []) (d_words d) /\
    ReadSourceInterpolation (pick (source_of scopes) "INTERPOLATION" ins None) = Some (map InterpolationFromString (d_words d))).
  { destruct (d_words d) as [|w ws]; [rewrite Hinterp; split; [constructor|reflexivity]|]. destruct Hinterp as (ni & -> & Hi). split; [now apply (words_filled ni)|now apply read_interpolations]. }
  destruct Hw as (Hwords & Ei). rewrite Ei. destruct times as [|t0 times']; [congruence|]. set (times := t0 :: times') in *. rewrite map_length.
  set (is := map InterpolationFromString (d_words d) ++ repeat (InterpolationFromString []) (List.length times - List.length (d_words d))).
  destruct (all_keys_spec times is (d_values d) dim cols) as (cs & Ecs & Hlcs & Hcs); [unfold is; rewrite app_length, map_length, repeat_length; lia|exact Hcols|]. rewrite Ecs.
  destruct (load_tangents_spec a set_in_1d set_in (d_in d) dim cs (pick (source_of scopes) "IN_TANGENT" ins None) Hd0 Hlcs) as (cs1 & E1 & S1 & L1).
  { destruct (d_in d); exact Hit. }
  rewrite E1. destruct (load_tangents_spec a set_out_1d set_out (d_out d) dim cs1 (pick (source_of scopes) "OUT_TANGENT" ins None) Hd0 L1) as (cs2 & E3 & S2 & L2).
  { destruct (d_out d); exact Hot. }
  rewrite E3. destruct (load_tcbs_spec a 3 set_tcb (d_tcb d) dim cs2 (pick (source_of scopes) "TCB" ins None) ltac:(lia) L2) as (cs3 & E4 & S3 & L3).
  { destruct (d_tcb d) as [rows|]; [|exact Htcb]. destruct Htcb as (m & Em & Hm). exists m, (List.length rows). auto. }
  rewrite E4. destruct (load_tcbs_spec a 2 set_ease (d_ease d) dim cs3 (pick (source_of scopes) "EASE_IN_OUT" ins None) ltac:(lia) L3) as (cs4 & E5 & S4 & L4).
  { destruct (d_ease d) as [rows|]; [|exact Hease]. destruct Hease as (m & Em & c & Hm & Hc). exists m, c. auto. }
  rewrite E5, (infinities_read nin _ _ _ Hinf), Hdrv. cbn [option_map]. eexists. split; [reflexivity|].
  split; [reflexivity|]. split; [reflexivity|]. cbn [curves]. split; [now rewrite map_length|]. intros i x Hx. rewrite nth_error_map in Hx.
  destruct (nth_error cs4 i) as [ks4|] eqn:Ek; [|discriminate]. injection Hx as <-. unfold curve_is. cbn [keys pre_infinity post_infinity driver].
  destruct (tcb_back _ _ _ _ _ _ _ S4 Ek) as (ks3 & Ek3 & Q3 & P3). destruct (tcb_back _ _ _ _ _ _ _ S3 Ek3) as (ks2 & Ek2 & Q2 & P2).
  destruct (tangent_back _ _ _ _ _ _ _ S2 Ek2) as (ks1 & Ek1 & Q1 & P1). destruct (tangent_back _ _ _ _ _ _ _ S1 Ek1) as (ks0 & Ek0 & Q0 & P0).
  destruct (Hcs i ks0 Ek0) as (Q & P). split; [rewrite (Forall2_len _ _ _ Htimes); lia|]. split; [|auto]. intros j k4 Hk4.
  destruct (P3 j k4 Hk4) as (k3 & Hk3 & T4). destruct (P2 j k3 Hk3) as (k2 & Hk2 & T3). destruct (P1 j k2 Hk2) as (k1 & Hk1 & T2). destruct (P0 j k1 Hk1) as (k0 & Hk0 & T1).
  destruct (P j k0 Hk0) as (t & z & v & A1 & A2 & A3 & ->). apply (key_done d times i j t v Htimes A1 A3 Hwords z k1 k2 k3 k4); auto.
Qed.
