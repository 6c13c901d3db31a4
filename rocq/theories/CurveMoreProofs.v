From Coq Require Import List QArith Qabs Lqa Lia Arith Sorted Bool.
From Verif Require Import CurveModel CurveSpec CurveProofs.
Import ListNotations.
Local Open Scope Q_scope.

(** *** keys are hit; linear curves stay between the keys *)
Lemma increasing_nth ks : increasing ks -> forall i j a b, nth_error ks i = Some a -> nth_error ks j = Some b ->
  input a < input b -> (i < j)%nat.
Proof.
  intros S i j a b A B L. destruct (lt_eq_lt_dec i j) as [[H|H]|H]; auto.
  - subst. rewrite A in B. inversion B; subst. lra.
  - pose proof (sorted_nth _ _ S j i b a H B A). cbn in *. lra.
Qed.
Lemma increasing_inj ks : increasing ks -> forall a b, In a ks -> In b ks -> input a == input b -> a = b.
Proof.
  intros S a b A B E. apply In_nth_error in A. apply In_nth_error in B. destruct A as [i A], B as [j B].
  destruct (lt_eq_lt_dec i j) as [[H|H]|H].
  - pose proof (sorted_nth _ _ S i j a b H A B). cbn in *. lra.
  - subst. congruence.
  - pose proof (sorted_nth _ _ S j i b a H B A). cbn in *. lra.
Qed.
Lemma nth_split_pair {A} (l : list A) s e r : nth_error (l ++ s :: e :: r) (length l) = Some s /\ nth_error (l ++ s :: e :: r) (S (length l)) = Some e.
Proof.
  split; [rewrite nth_error_app2 by lia; rewrite Nat.sub_diag; reflexivity|].
  rewrite nth_error_app2 by lia. replace (S (length l) - length l)%nat with 1%nat by lia. reflexivity.
Qed.
Lemma value_at_key ks x v k : increasing ks -> value_at ks x v -> In k ks -> x == input k ->
  (forall l s r, ks = l ++ s :: k :: r -> interp s = LINEAR \/ (interp k = LINEAR /\ (interp s = BEZIER \/ interp s = TCB))) ->
  v == output k.
Proof.
  intros S [(k0 & r & E & Ex & Ev)|(l & s & e & r & E & Hx & On)] Hk Exk Lin.
  - assert (k = k0) by (apply (increasing_inj ks S); auto; [rewrite E; left; auto | lra]). subst k; auto.
  - assert (e = k).
    { apply In_nth_error in Hk. destruct Hk as [j Hj].
      destruct (nth_split_pair l s e r) as [N1 N2]. rewrite <- E in N1, N2.
      assert (length l < j)%nat by (eapply increasing_nth; eauto; lra).
      destruct (Nat.eq_dec j (Datatypes.S (length l))) as [->|]; [congruence|].
      assert (input e < input k) by (eapply (sorted_nth _ _ S (Datatypes.S (length l)) j); eauto; lia). lra. }
    subst e. specialize (Lin l s r E). 
    assert (OL : on_line s k x v).
    { unfold on_segment in On. destruct Lin as [L|[L1 [L2|L2]]].
      - rewrite L in On. exact On.
      - rewrite L1, L2 in On. exact On.
      - rewrite L1, L2 in On. exact On. }
    unfold on_line in OL. rewrite Exk in OL.
    assert ((v - output k) * (input k - input s) == 0) by lra.
    apply Qmult_integral in H. destruct H; lra.
Qed.
Lemma on_line_between s e x v : input s < input e -> input s <= x <= input e -> on_line s e x v ->
  (output s <= v <= output e) \/ (output e <= v <= output s).
Proof.
  unfold on_line. intros H [X1 X2] O.
  set (d := input e - input s) in *. assert (D : 0 < d) by (unfold d; lra).
  assert (P : 0 < / d) by (apply Qinv_lt_0_compat; auto).
  set (u := (x - input s) * / d).
  assert (XD : x - input s <= d) by (unfold d; lra). clearbody d.
  assert (U : 0 <= u <= 1).
  { unfold u. split; [apply Qmult_le_0_compat; [lra | apply Qlt_le_weak; exact P]|].
    assert (X : (x - input s) * / d <= d * / d) by (apply Qmult_le_compat_r; [exact XD | apply Qlt_le_weak; exact P]).
    rewrite Qmult_inv_r in X by lra. exact X. }
  assert (V : v - output s == u * (output e - output s)).
  { unfold u. setoid_replace ((x - input s) * / d * (output e - output s)) with (((x - input s) * (output e - output s)) * / d) by ring.
    rewrite <- O. field. lra. }
  destruct (Qlt_le_dec (output s) (output e)).
  - left. assert (0 <= u * (output e - output s)) by (apply Qmult_le_0_compat; lra).
    assert (0 <= (1 - u) * (output e - output s)) by (apply Qmult_le_0_compat; lra). lra.
  - right. assert (0 <= u * (output s - output e)) by (apply Qmult_le_0_compat; lra).
    assert (0 <= (1 - u) * (output s - output e)) by (apply Qmult_le_0_compat; lra). lra.
Qed.

(** *** multi-dimensional curves *)
Lemma linear_search_m_ok ks q : forall c it r, (it + c <= length ks)%nat -> linear_search_m c ks q it = r ->
  (it <= r <= it + c)%nat /\ (forall j k, (it <= j < r)%nat -> nth_error ks j = Some k -> input k <= q) /\
  (r = (it + c)%nat \/ exists k, nth_error ks r = Some k /\ q < input k).
Proof.
  induction c as [|c IH]; cbn [linear_search_m]; intros it r L H.
  - subst r. split; [lia|]. split; [intros; lia | left; lia].
  - destruct (nth_error ks it) as [k|] eqn:E; [|apply nth_error_None in E; lia].
    destruct (flt q (input k)) eqn:F.
    + subst r. split; [lia|]. split; [intros; lia|]. right. exists k. split; auto. now apply flt_true.
    + apply IH in H; [|lia]. destruct H as [H1 [H2 H3]]. split; [lia|]. split.
      * intros j k' J Hk. destruct (Nat.eq_dec j it) as [->|].
        -- rewrite E in Hk. inversion Hk; subst. now apply flt_false.
        -- apply (H2 j); [lia | auto].
      * destruct H3 as [-> |H3]; [left; lia | right; auto].
Qed.
Lemma find_key_m_ok ks q : (0 < length ks)%nat ->
  let r := find_key_m ks q in
  (r <= length ks)%nat /\ (r = length ks \/ exists e, nth_error ks r = Some e /\ q < input e) /\
  (r = O \/ exists i s, r = S i /\ nth_error ks i = Some s /\ (ordered ks -> input s <= q)).
Proof.
  intros N. unfold find_key_m.
  destruct (binary_search (length ks) ks (Num q) 0 (length ks)) as [s t] eqn:B.
  assert (BS : (s < t <= length ks)%nat /\ lo_ok ks q s /\ hi_ok ks q t).
  { eapply binary_search_ok in B; [exact B | lia | left; auto | left; auto]. }
  destruct BS as [L [A C]].
  remember (linear_search_m (t - s) ks q s) as r eqn:Er. symmetry in Er. cbv zeta.
  apply linear_search_m_ok in Er; [|lia]. destruct Er as [R1 [R2 R3]].
  split; [lia|]. split.
  - destruct R3 as [R3|R3]; auto. replace r with t by lia. destruct C as [C|C]; auto.
  - destruct r as [|i]; [auto|right]. exists i.
    destruct (nth_error ks i) as [sk|] eqn:Es; [|apply nth_error_None in Es; lia].
    exists sk. split; auto. split; auto. intro S.
    destruct (Nat.eq_dec s (Datatypes.S i)) as [Hs|Hs].
    + destruct A as [A|(k & Hk & Kq)]; [lia|]. 
      assert (input sk <= input k) by (eapply (sorted_nth _ _ S i s); eauto; lia). lra.
    + apply (R2 i); [lia | auto].
Qed.
Lemma multi_safe ks x : EvaluateMulti ks x <> OutOfBounds.
Proof.
  destruct ks as [|k0 [|k1 r]]; try discriminate. unfold EvaluateMulti. set (ks := k0 :: k1 :: r).
  destruct (find_key_m_ok ks x) as (L & H1 & H2); [cbn; lia|]. destruct (find_key_m ks x) as [|i]; [discriminate|].
  destruct (Nat.eqb_spec (S i) (length ks)); [discriminate|].
  destruct H1 as [H1|(e & He & _)]; [lia|]. destruct H2 as [H2|(j & s & E & Hs & _)]; [discriminate|].
  inversion E; subst j. rewrite Hs, He. destruct (interpolate_m s e x); discriminate.
Qed.
Lemma multi_shape ks x k0 : increasing ks -> nth_error ks 0 = Some k0 -> (1 < length ks)%nat ->
  (x < input k0 /\ EvaluateMulti ks x = Value (output k0)) \/
  (input (last ks k0) <= x /\ EvaluateMulti ks x = Value (output (last ks k0))) \/
  (exists l s e r, ks = l ++ s :: e :: r /\ input s <= x < input e /\
     EvaluateMulti ks x = match interpolate_m s e x with Num v => Value v | NaN => NotANumber end).
Proof.
  intros S N0 L1. destruct ks as [|k0' [|k1 r]]; cbn in L1; try lia. cbn in N0. inversion N0; subst k0'.
  unfold EvaluateMulti. set (ks := k0 :: k1 :: r) in *.
  destruct (find_key_m_ok ks x) as (L & H1 & H2); [cbn; lia|]. destruct (find_key_m ks x) as [|i].
  - left. split; auto. destruct H1 as [H1|(e & He & Hx)]; [discriminate|]. cbn in He. inversion He; subst; auto.
  - right. destruct H2 as [H2|(j & s & E & Hs & Ho)]; [discriminate|]. inversion E; subst j.
    specialize (Ho (increasing_ordered _ S)).
    destruct (Nat.eqb_spec (Datatypes.S i) (length ks)) as [Hn|Hn].
    + left. split; auto. pose proof (last_nth ks k0 ltac:(discriminate)) as Hl.
      replace (length ks - 1)%nat with i in Hl by lia. rewrite Hs in Hl. inversion Hl; subst. auto.
    + right. destruct H1 as [H1|(e & He & Hx)]; [lia|]. rewrite Hs, He.
      destruct (nth_split2 ks i s e Hs He) as (p & q & Eq). exists p, s, e, q. auto.
Qed.

(** *** clips *)
Lemma clip_index_app l a : forall x, clip_index (l ++ [a]) x =
  match clip_index l x with Some i => Some i | None => if (a =? x)%nat then Some (length l) else None end.
Proof.
  induction l as [|y l IH]; intro x; cbn [app clip_index length].
  - now destruct (a =? x)%nat.
  - destruct (y =? x)%nat; auto. rewrite IH. destruct (clip_index l x); auto. destruct (a =? x)%nat; auto.
Qed.
Lemma clip_index_lt l : forall x i, clip_index l x = Some i -> nth_error l i = Some x.
Proof.
  induction l as [|y l IH]; intros x i; cbn [clip_index]; [discriminate|].
  destruct (Nat.eqb_spec y x); intro H.
  - inversion H; subst. reflexivity.
  - destruct (clip_index l x) eqn:E; inversion H; subst. cbn. auto.
Qed.
Lemma clip_index_first l : forall x y i j, clip_index l x = Some i -> clip_index l y = Some j -> x <> y -> i <> j.
Proof. intros x y i j A B N E. subst. apply clip_index_lt in A, B. congruence. Qed.
Lemma set_nth_same {A} (l : list A) : forall i a, (i < length l)%nat -> nth_error (set_nth l i a) i = Some a.
Proof. induction l as [|x l IH]; intros [|i] a H; cbn in *; try lia; auto. apply IH. lia. Qed.
Lemma set_nth_other {A} (l : list A) : forall i j a, i <> j -> nth_error (set_nth l i a) j = nth_error l j.
Proof. induction l as [|x l IH]; intros [|i] [|j] a H; cbn; auto; try congruence. Qed.
Lemma set_nth_length {A} (l : list A) : forall i a, length (set_nth l i a) = length l.
Proof. induction l as [|x l IH]; intros [|i] a; cbn; auto. Qed.

(** *** merging *)
Lemma merge_nil cs : merge_keys [] cs = map (fun c => (input c, interp c)) cs.
Proof. destruct cs; reflexivity. Qed.
Lemma merge_nil_r M : merge_keys M [] = M.
Proof. destruct M as [|[m i] M]; reflexivity. Qed.
Lemma merge_cons m mi M c C : merge_keys ((m, mi) :: M) (c :: C) =
  if IsEquivalent m (input c) then (m, if interp_eqb mi (interp c) then mi else BEZIER) :: merge_keys M C
  else if flt m (input c) then (m, mi) :: merge_keys M (c :: C)
  else (input c, interp c) :: merge_keys ((m, mi) :: M) C.
Proof. reflexivity. Qed.
Lemma merge_ind (P : list (Q * interpolation) -> list key -> list (Q * interpolation) -> Prop) :
  (forall C, P [] C (map (fun c => (input c, interp c)) C)) ->
  (forall M, P M [] M) ->
  (forall m mi M c C, IsEquivalent m (input c) = true -> P M C (merge_keys M C) ->
     P ((m, mi) :: M) (c :: C) ((m, if interp_eqb mi (interp c) then mi else BEZIER) :: merge_keys M C)) ->
  (forall m mi M c C, IsEquivalent m (input c) = false -> m < input c -> P M (c :: C) (merge_keys M (c :: C)) ->
     P ((m, mi) :: M) (c :: C) ((m, mi) :: merge_keys M (c :: C))) ->
  (forall m mi M c C, IsEquivalent m (input c) = false -> input c <= m -> P ((m, mi) :: M) C (merge_keys ((m, mi) :: M) C) ->
     P ((m, mi) :: M) (c :: C) ((input c, interp c) :: merge_keys ((m, mi) :: M) C)) ->
  forall M C, P M C (merge_keys M C).
Proof.
  intros H1 H2 H3 H4 H5. induction M as [|[m mi] M IH]; intro C.
  - rewrite merge_nil. auto.
  - induction C as [|c C IHC].
    + rewrite merge_nil_r. auto.
    + rewrite merge_cons. destruct (IsEquivalent m (input c)) eqn:E; auto.
      destruct (flt m (input c)) eqn:F; [apply H4 | apply H5]; auto; [now apply flt_true | now apply flt_false].
Qed.
Lemma equiv_true a b : IsEquivalent a b = true -> a - b < tolerance /\ b - a < tolerance.
Proof. unfold IsEquivalent. rewrite andb_true_iff. intros [A B]. split; apply flt_true; auto. Qed.
Lemma equiv_refl a : IsEquivalent a a = true.
Proof.
  unfold IsEquivalent, flt. destruct (Qlt_le_dec (a - a) tolerance) as [|H]; [reflexivity|].
  exfalso. setoid_replace (a - a) with 0 in H by ring. cbv in H. congruence.
Qed.
Lemma equiv_abs a b : IsEquivalent a b = true -> Qabs (a - b) < tolerance.
Proof. intro H. apply equiv_true in H. apply Qabs_Qlt_condition. lra. Qed.

(** Times in a list that match the given keys one after the other. *)
Inductive embeds : list key -> list Q -> Prop :=
  | emb_nil T : embeds [] T
  | emb_skip C t T : embeds C T -> embeds C (t :: T)
  | emb_take c C t T : IsEquivalent t (input c) = true -> embeds C T -> embeds (c :: C) (t :: T).
Lemma embeds_tail c C T : embeds (c :: C) T -> embeds C T.
Proof.
  induction T as [|t T IH]; intro H; inversion H; subst; apply emb_skip; auto.
Qed.
Lemma embeds_merge M C : embeds C (map fst (merge_keys M C)).
Proof.
  pattern M, C, (merge_keys M C). apply merge_ind; clear M C.
  - induction C as [|c C IH]; cbn; [constructor | apply emb_take; [apply equiv_refl | exact IH]].
  - constructor.
  - intros. cbn. apply emb_take; auto.
  - intros. cbn. apply emb_skip; auto.
  - intros. cbn. apply emb_take; auto. apply equiv_refl.
Qed.
Lemma embeds_keep D M C : embeds D (map fst M) -> embeds D (map fst (merge_keys M C)).
Proof.
  revert D. pattern M, C, (merge_keys M C). apply merge_ind; clear M C.
  - intros C D H. inversion H; subst. constructor.
  - auto.
  - intros m mi M c C _ IH D H. cbn in *. inversion H; subst; [constructor | apply emb_skip | apply emb_take]; auto.
  - intros m mi M c C _ _ IH D H. cbn in *. inversion H; subst; [constructor | apply emb_skip | apply emb_take]; auto.
  - intros m mi M c C _ _ IH D H. cbn. apply emb_skip. apply IH. exact H.
Qed.
Lemma embeds_all curves : forall M c, In (Some c) curves \/ embeds (keys c) (map fst M) ->
  embeds (keys c) (map fst (fold_left (fun merged oc => match oc with None => merged | Some c => merge_keys merged (keys c) end) curves M)).
Proof.
  induction curves as [|oc curves IH]; intros M c H; cbn [fold_left].
  - destruct H as [[]|H]; auto.
  - apply IH. destruct H as [[H|H]|H].
    + subst oc. right. apply embeds_merge.
    + auto.
    + right. destruct oc; auto. apply embeds_keep; auto.
Qed.
Lemma sample_match c T : forall rest, embeds rest T -> forall k, In k rest ->
  exists j t, nth_error T j = Some t /\ Qabs (t - input k) < tolerance /\ nth_error (sample_keys c T rest) j = Some (Value (output k)).
Proof.
  induction T as [|t T IH]; intros rest H k Hk.
  - inversion H; subst. destruct Hk.
  - destruct rest as [|x r]; [destruct Hk|]. cbn [sample_keys].
    destruct (IsEquivalent t (input x)) eqn:E.
    + destruct Hk as [<-|Hk].
      * exists 0%nat, t. cbn. split; auto. split; auto. apply equiv_abs; auto.
      * assert (H' : embeds r T) by (inversion H; subst; [eapply embeds_tail; eauto | auto]).
        destruct (IH r H' k Hk) as (j & t' & A & B & D). exists (S j), t'. cbn. auto.
    + assert (H' : embeds (x :: r) T) by (inversion H; subst; [auto | congruence]).
      destruct (IH (x :: r) H' k Hk) as (j & t' & A & B & D). exists (S j), t'. cbn. auto.
Qed.
Lemma sample_each c T : forall rest, (forall k, In k rest -> In k (keys c)) ->
  length (sample_keys c T rest) = length T /\
  forall j t o, nth_error T j = Some t -> nth_error (sample_keys c T rest) j = Some o ->
   o = Evaluate c t \/ exists k, In k (keys c) /\ Qabs (t - input k) < tolerance /\ o = Value (output k).
Proof.
  induction T as [|t T IH]; intros rest H; cbn [sample_keys].
  - split; auto. intros [|j] t o; discriminate.
  - destruct rest as [|x r].
    + destruct (IH [] H) as [L I]. split; [cbn; auto|]. intros [|j] t' o A B; cbn in *.
      * left. congruence.
      * eapply I; eauto.
    + destruct (IsEquivalent t (input x)) eqn:E.
      * destruct (IH r) as [L I]; [intros; apply H; right; auto|]. split; [cbn; auto|]. intros [|j] t' o A B; cbn in *.
        -- right. exists x. inversion A; inversion B; subst. split; auto. split; auto. apply equiv_abs; auto.
        -- eapply I; eauto.
      * destruct (IH (x :: r) H) as [L I]. split; [cbn; auto|]. intros [|j] t' o A B; cbn in *.
        -- left. congruence.
        -- eapply I; eauto.
Qed.
Lemma merge_from M C : forall t i, In (t, i) (merge_keys M C) ->
  (exists i', In (t, i') M) \/ (exists c, In c C /\ input c = t).
Proof.
  pattern M, C, (merge_keys M C). apply merge_ind; clear M C.
  - intros C t i H. apply in_map_iff in H. destruct H as (c & E & H). inversion E; subst. eauto.
  - eauto.
  - intros m mi M c C _ IH t i [H|H].
    + inversion H; subst. left. eexists. left. reflexivity.
    + destruct (IH t i H) as [(i' & K)|(c' & K & <-)]; [left; exists i'; right; auto | right; exists c'; split; [right|]; auto].
  - intros m mi M c C _ _ IH t i [H|H].
    + inversion H; subst. left. eexists. left. reflexivity.
    + destruct (IH t i H) as [(i' & K)|(c' & K & <-)]; [left; exists i'; right; auto | right; exists c'; split; auto].
  - intros m mi M c C _ _ IH t i [H|H].
    + inversion H; subst. right. exists c. split; [left|]; auto.
    + destruct (IH t i H) as [(i' & K)|(c' & K & <-)]; [left; eauto | right; exists c'; split; [right|]; auto].
Qed.
Lemma merge_all_from curves : forall M t, In t (map fst (fold_left (fun merged oc => match oc with None => merged | Some c => merge_keys merged (keys c) end) curves M)) ->
  In t (map fst M) \/ exists c k, In (Some c) curves /\ In k (keys c) /\ input k = t.
Proof.
  induction curves as [|oc curves IH]; intros M t H; cbn [fold_left] in H; auto.
  apply IH in H. destruct H as [H|(c & k & A & B & D)].
  - destruct oc as [c|]; auto. apply in_map_iff in H. destruct H as ([t' i] & E & H). cbn in E; subst t'.
    apply merge_from in H. destruct H as [(i' & H)|(k & H & E)].
    + left. apply in_map_iff. exists (t, i'). auto.
    + right. exists c, k. split; [left|]; auto.
  - right. exists c, k. split; [right|]; auto.
Qed.
Lemma merge_interp M C i : Forall (fun p => snd p = i) M -> Forall (fun c => interp c = i) C ->
  Forall (fun p => snd p = i) (merge_keys M C).
Proof.
  assert (R : forall i, interp_eqb i i = true) by (intros []; reflexivity).
  pattern M, C, (merge_keys M C). apply merge_ind; clear M C.
  - intros C _ H. apply Forall_forall. intros p Hp. apply in_map_iff in Hp. destruct Hp as (c & <- & Hc). rewrite Forall_forall in H. cbn. auto.
  - auto.
  - intros m mi M c C _ IH H1 H2. inversion H1 as [|? ? A1 A2]; inversion H2 as [|? ? B1 B2]; subst. constructor; auto. cbn in *. rewrite B1, R. auto.
  - intros m mi M c C _ _ IH H1 H2. inversion H1; inversion H2; subst. constructor; auto.
  - intros m mi M c C _ _ IH H1 H2. inversion H1; inversion H2; subst. constructor; auto.
Qed.
(** Keys at least a tolerance apart. *)
Definition apart (ks : list key) : Prop := StronglySorted (fun a b => tolerance <= input b - input a) ks.
Lemma tol_pos : 0 < tolerance. Proof. reflexivity. Qed.
Lemma merge_increasing M C : StronglySorted Qlt (map fst M) -> apart C -> StronglySorted Qlt (map fst (merge_keys M C)).
Proof.
  pose proof tol_pos as TP.
  pattern M, C, (merge_keys M C). apply merge_ind; clear M C.
  - intros C _ H. rewrite map_map. cbn. induction H; cbn; constructor; auto.
    apply Forall_forall. intros x Hx. apply in_map_iff in Hx. destruct Hx as (k & <- & Hk).
    rewrite Forall_forall in H0. specialize (H0 _ Hk). lra.
  - auto.
  - intros m mi M c C E IH H1 H2. cbn in *. inversion H1 as [|? ? H3 H4]; inversion H2 as [|? ? H5 H6]; subst.
    constructor; auto. rewrite Forall_forall in *. intros x Hx. apply in_map_iff in Hx. destruct Hx as ([t i] & <- & Hx).
    apply merge_from in Hx. cbn. destruct Hx as [(i' & Hx)|(k & Hk & <-)].
    + apply H4. apply in_map_iff. exists (t, i'). auto.
    + specialize (H6 k Hk). apply equiv_true in E. lra.
  - intros m mi M c C E L IH H1 H2. cbn in *. inversion H1 as [|? ? H3 H4]; subst.
    constructor; auto. rewrite Forall_forall in *. intros x Hx. apply in_map_iff in Hx. destruct Hx as ([t i] & <- & Hx).
    apply merge_from in Hx. cbn. destruct Hx as [(i' & Hx)|(k & Hk & <-)].
    + apply H4. apply in_map_iff. exists (t, i'). auto.
    + destruct Hk as [<-|Hk]; auto. inversion H2 as [|? ? H5 H6]; subst. rewrite Forall_forall in H6. specialize (H6 k Hk). lra.
  - intros m mi M c C E L IH H1 H2. inversion H2 as [|? ? H5 H6]; subst. cbn [map fst].
    constructor; auto. assert (G : input c < m).
    { destruct (Qlt_le_dec (input c) m); auto. assert (m == input c) by lra.
      unfold IsEquivalent, flt in E. destruct (Qlt_le_dec (m - input c) tolerance), (Qlt_le_dec (input c - m) tolerance); cbn in E; try discriminate; lra. }
    rewrite Forall_forall in *. intros x Hx. apply in_map_iff in Hx. destruct Hx as ([t i] & <- & Hx).
    apply merge_from in Hx. cbn [fst]. destruct Hx as [(i' & Hx)|(k & Hk & <-)].
    + destruct Hx as [Hx|Hx]; [inversion Hx; subst; auto|]. cbn in H1. inversion H1 as [|? ? H3 H4]; subst.
      rewrite Forall_forall in H4. assert (m < t) by (apply H4, in_map_iff; exists (t, i'); auto). lra.
    + specialize (H6 k Hk). lra.
Qed.
Lemma merge_all_increasing curves : forall M, StronglySorted Qlt (map fst M) -> (forall c, In (Some c) curves -> apart (keys c)) ->
  StronglySorted Qlt (map fst (fold_left (fun merged oc => match oc with None => merged | Some c => merge_keys merged (keys c) end) curves M)).
Proof.
  induction curves as [|oc curves IH]; intros M S H; cbn [fold_left]; auto.
  apply IH; [|intros; apply H; right; auto]. destruct oc; auto. apply merge_increasing; auto. apply H. left; auto.
Qed.
Lemma merge_all_interp i curves : forall M, Forall (fun p => snd p = i) M ->
  (forall c, In (Some c) curves -> Forall (fun k => interp k = i) (keys c)) ->
  Forall (fun p => snd p = i) (fold_left (fun merged oc => match oc with None => merged | Some c => merge_keys merged (keys c) end) curves M).
Proof.
  induction curves as [|oc curves IH]; intros M S H; cbn [fold_left]; auto.
  apply IH; [|intros; apply H; right; auto]. destruct oc; auto. apply merge_interp; auto. apply H. left; auto.
Qed.
