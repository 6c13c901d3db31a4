(** C78: floating point numbers and texts. *)
From Coq Require Import List ZArith Bool QArith Qabs Qpower Lia Lqa String.
From Verif Require Import TextModel TextSpec TextProofs FloatModel FloatSpec FloatProofs FloatWrite.
Import ListNotations.
Local Open Scope list_scope.
Local Open Scope Z_scope.

(** *** Reading *)
(** Every decimal notation of a number is read exactly (up to the rounding that is not modelled), and the
    pointer is left on the next word. *)
Theorem C78_read : forall a lead t q sep rest, Forall blank_or_cr lead -> float_text t q -> separator sep rest ->
  exists r, ToFloat a (lead ++ t ++ sep ++ rest) = Some (r, rest) /\ (r == q)%Q.
Proof.
  intros a lead t q sep rest Hl Ht Hs. apply to_float_spec; auto.
  revert Hl. apply Forall_impl. intro c. apply ws4_iff.
Qed.
Print Assumptions C78_read.

Example C78_read_demo : exists r, ToFloat Strict (tx "  -12.50e-03 7") = Some (r, [55]) /\ (r == - 125 # 10000)%Q.
Proof.
  edestruct (C78_read Strict (tx "  ") (tx "-12.50e-03")) with (sep := tx " ") (rest := [55]) as (r & E & Hr).
  - repeat constructor; left; now left.
  - eapply (F_negative (tx "12.50") _ (tx "e-03") (-3)).
    + apply (M_decimal (tx "12") (tx "50")); repeat constructor; unfold is_digit; cbn; lia.
    + apply (X_negative 101 (tx "03")); auto; try discriminate. repeat constructor; unfold is_digit; cbn; lia.
  - split; [repeat constructor; left; now left|]. split; [right; constructor; now left|].
    intros [[H|[H|H]]|H]; discriminate.
  - exists r. split; [exact E|]. rewrite Hr. vm_compute. reflexivity.
Qed.

(** *** Writing, then reading *)
(** What remains of a value after it was written and read back: numbers below [eps] become 0, the others
    keep six digits. *)
Definition kept (eps q r : Q) : Prop :=
  ((Qabs q < eps)%Q -> (r == 0)%Q) /\ ((eps <= Qabs q)%Q -> close6 q r).
Definition machine_eps (eps : Q) : Prop := eps = eps_float \/ eps = eps_double.
(** [q] is not larger than the largest double. *)
Definition in_range (q : Q) : Prop := (Qabs q <= Qpower 10 309)%Q.

Lemma eps_bounds : forall eps, machine_eps eps -> (0 < eps)%Q /\ (Qpower 10 (-400) <= eps)%Q.
Proof.
  assert (H : (Qpower 10 (-400) <= Qpower 10 (-20))%Q) by (apply p10_le; lia).
  intros eps [-> | ->]; (split; [reflexivity|]); (eapply Qle_trans; [exact H|]); vm_compute; discriminate.
Qed.

Lemma appends_text : forall eps q t, machine_eps eps -> in_range q -> appends eps (Fin q) t ->
  exists r, float_text t r /\ kept eps q r.
Proof.
  intros eps q t He Hq Ha. destruct (eps_bounds eps He) as (Hp & Hl). cbn [appends] in Ha.
  destruct (Qle_bool eps (Qabs q)) eqn:E; cbn [negb] in Ha.
  - apply Qle_bool_iff in E. destruct Ha as (u & Hu & ->).
    destruct (formatted_close q u) as (r & Hr & Hc); auto.
    + intro Hz. rewrite Hz in E. change (Qabs 0) with 0%Q in E. lra.
    + eapply Qle_trans; eauto.
    + eapply Qle_trans; [exact Hq|]. apply p10_le. lia.
    + exists r. split; auto. split; [intro; lra|auto].
  - subst t. exists (Qmult (inject_Z (number [48])) (Qpower 10 0)). split.
    + apply (F_positive [48] (inject_Z (number [48])) [] 0); [|constructor].
      constructor; [repeat constructor; unfold is_digit; lia|discriminate].
    + split; [intros _; reflexivity|]. intro H. apply Qle_bool_iff in H. congruence.
Qed.

Theorem C78_round_trip_partial : forall a eps q t lead sep rest, machine_eps eps -> in_range q ->
  appends eps (Fin q) t -> Forall blank_or_cr lead -> separator sep rest ->
  exists r, ToFloat a (lead ++ t ++ sep ++ rest) = Some (r, rest) /\ kept eps q r.
Proof.
  intros a eps q t lead sep rest He Hq Ha Hl Hs. destruct (appends_text eps q t He Hq Ha) as (r & Ht & Hk).
  destruct (C78_read a lead t r sep rest Hl Ht Hs) as (r' & E & Hr). exists r'. split; auto.
  destruct Hk as (K1 & K2). split; intro H.
  - rewrite Hr. auto.
  - destruct (K2 H) as (C1 & C2). split; [rewrite Hr; auto|]. intro H6. rewrite Hr. auto.
Qed.
Print Assumptions C78_round_trip_partial.

(** The hypothesis [appends] can always be met: a text exists for every value. *)
Theorem C78_writable : forall eps f, machine_eps eps -> exists t, appends eps f t.
Proof.
  intros eps f He. destruct f as [q| | |]; cbn [appends]; eauto.
  destruct (Qle_bool eps (Qabs q)) eqn:E; cbn [negb]; eauto.
  apply Qle_bool_iff in E. destruct (eps_bounds eps He) as (Hp & _).
  destruct (formatted_exists q) as (u & Hu).
  - intro Hz. rewrite Hz in E. change (Qabs 0) with 0%Q in E. lra.
  - eauto.
Qed.
Print Assumptions C78_writable.

(** A value of the fixed and one of the scientific notation: the relation holds of the texts "-0.015625"
    and "1.5e8" (the library's "1.5e+08"). *)
Lemma exact_nearest : forall f ds x, List.length ds = 6%nat -> Forall (fun c => digit c = true) ds ->
  100000 <= digits_value ds -> (inject_Z (digits_value ds) * Qpower 10 (x - 5) == Qabs f)%Q -> nearest6 f ds x.
Proof.
  intros f ds x H1 H2 H3 H4. repeat split; auto. intros m e _. rewrite H4.
  setoid_replace (Qabs f - Qabs f)%Q with 0%Q by ring. change (Qabs 0) with 0%Q. apply Qabs_nonneg.
Qed.
Example C78_round_trip_demo :
  appends eps_float (Fin (- 1 # 64)) (tx "-0.015625") /\ appends eps_float (Fin 150000000) (tx "1.5e8") /\
  close6 150000000 150000000 /\ in_range 150000000.
Proof.
  split; [|split; [|split]].
  - exists (tx "-0.015625"). split; [|reflexivity]. exists (tx "156250"), (-2). split; [|reflexivity].
    apply exact_nearest; try reflexivity; repeat constructor. vm_compute; discriminate.
  - exists (tx "1.5e+08"). split; [|reflexivity]. exists (tx "150000"), 8. split; [|reflexivity].
    apply exact_nearest; try reflexivity; repeat constructor. vm_compute; discriminate.
  - split; [vm_compute; discriminate|reflexivity].
  - unfold in_range. apply Qle_trans with (Qpower 10 9); [vm_compute; discriminate|apply p10_le; lia].
Qed.

(** *** Lists, vectors, matrices *)
Lemma text_head : forall t q, float_text t q -> exists c u, t = c :: u /\ ws4 c = false.
Proof.
  assert (G : forall tm m, mantissa tm m -> exists c u, tm = c :: u /\ ws4 c = false).
  { intros tm m [ds Hd Hne|ds fs Hd Hf].
    - destruct ds as [|c ds]; [congruence|]. inversion Hd; subst. exists c, ds. split; auto.
      now apply digit_spec_not_ws.
    - destruct ds as [|c ds]; [exists 46, fs; auto|]. inversion Hd; subst. exists c, (ds ++ [46] ++ fs).
      split; auto. now apply digit_spec_not_ws. }
  intros t q [tm m tx x Hm Hx|tm m tx x Hm Hx].
  - destruct (G tm m Hm) as (c & u & -> & Hc). exists c, (u ++ tx). auto.
  - exists 45, (tm ++ tx). auto.
Qed.

Lemma floats_parse : forall a eps vs, machine_eps eps -> Forall in_range vs -> forall t,
  ToString_floats eps [] (map Fin vs) t ->
  exists rs, parses (ToFloat a) t rs /\ Forall2 (kept eps) vs rs.
Proof.
  intros a eps vs He Hr. induction Hr as [|q vs Hq Hr IH]; intros t Ht.
  - inversion Ht; subst. exists []. split; constructor.
  - cbn [map] in Ht. inversion Ht as [|v vs' t1 u H1 H2]; subst. clear Ht. cbn [app].
    assert (Hu : exists sep rest, u = sep ++ rest /\ separator sep rest /\
       ToString_floats eps [] (map Fin vs) rest /\ (List.length rest <= List.length u)%nat).
    { destruct vs as [|w vs]; inversion H2; subst.
      - exists [], []. repeat split; auto; constructor.
      - exists [32], (t ++ u0). split; [reflexivity|]. split; [|split].
        + split; [repeat constructor; left; now left|]. split; [right; constructor; now left|].
          inversion Hr as [|w' vs' Hw' Hr']; subst. destruct (appends_text eps w t He Hw' H3) as (r & Hrt & _).
          destruct (text_head t r Hrt) as (c & u & -> & Hc). cbn. intro Hb. apply ws4_iff in Hb. congruence.
        + apply (TS_cons eps [] (Fin w) (map Fin vs) t u0); auto.
        + cbn [List.length]. lia. }
    destruct Hu as (sep & rest & -> & Hs & Hts & Hlen). destruct (IH rest Hts) as (rs & Hp & Hk).
    destruct (C78_round_trip_partial a eps q t1 [] sep rest He Hq H1 ltac:(constructor) Hs) as (r & E & Hkr).
    exists (r :: rs). split; [|constructor; auto].
    destruct (appends_text eps q t1 He Hq H1) as (r0 & Hrt & _). destruct (text_head t1 r0 Hrt) as (c & u & -> & Hc).
    apply P_cons with rest; auto.
    + discriminate.
    + cbn [app List.length] in *. rewrite app_length. lia.
Qed.

(** ToString then ToFloatList gives the list back to six digits, whatever the output array contained. *)
Theorem C78_list_partial : forall a eps vs t old, machine_eps eps -> Forall in_range vs ->
  ToString_floats eps [] (map Fin vs) t ->
  exists rs, ToFloatList a t old = Some rs /\ Forall2 (kept eps) vs rs.
Proof.
  intros a eps vs t old He Hr Ht. destruct (floats_parse a eps vs He Hr t Ht) as (rs & Hp & Hk).
  exists rs. split; auto. now apply to_list_spec.
Qed.
Print Assumptions C78_list_partial.

Lemma to_floats_parse : forall a t rs, parses (ToFloat a) t rs -> ToFloats a (List.length rs) t = Some (rs, []).
Proof.
  induction 1 as [|s v s' vs Hne Hrd Hl Hp IH]; [reflexivity|]. cbn [List.length ToFloats].
  rewrite Hrd, IH. reflexivity.
Qed.

(** ToString then ToMatrix gives every component of the matrix back, in its place. *)
Theorem C78_matrix_partial : forall a eps m t mx, machine_eps eps -> (forall i j, in_range (m i j)) ->
  ToString_matrix eps (fun i j => Fin (m i j)) t ->
  exists mx', ToMatrix a t mx = Some (mx', []) /\
    forall i j, (i < 4)%nat -> (j < 4)%nat -> kept eps (m i j) (mx' i j).
Proof.
  intros a eps m t mx He Hr Ht. unfold ToString_matrix in Ht.
  set (vs := [m 0 0; m 1 0; m 2 0; m 3 0; m 0 1; m 1 1; m 2 1; m 3 1;
    m 0 2; m 1 2; m 2 2; m 3 2; m 0 3; m 1 3; m 2 3; m 3 3]%nat).
  change (matrix_order (fun i j => Fin (m i j))) with (map Fin vs) in Ht.
  destruct (floats_parse a eps vs He) with (t := t) as (rs & Hp & Hk); auto.
  { unfold vs. repeat constructor; apply Hr. }
  pose proof (to_floats_parse a t rs Hp) as E.
  assert (Hlen : List.length rs = 16%nat) by (change 16%nat with (List.length vs); clear -Hk; induction Hk; cbn; congruence).
  rewrite Hlen in E. destruct t as [|c t].
  { inversion Hp; subst; [discriminate Hlen|congruence]. }
  unfold ToMatrix. rewrite E. eexists. split; [reflexivity|]. intros i j Hi Hj. cbv beta.
  rewrite (proj2 (Nat.ltb_lt i 4)), (proj2 (Nat.ltb_lt j 4)) by auto. cbn [andb].
  assert (Hv : m i j = nth (4 * j + i) vs 0%Q).
  { destruct i as [|[|[|[|i]]]]; try lia; (destruct j as [|[|[|[|j]]]]; try lia; reflexivity). }
  rewrite Hv. assert (Hn : (4 * j + i < List.length vs)%nat) by (cbn [List.length vs]; lia).
  clear -Hk Hn. revert Hn. generalize (4 * j + i)%nat. induction Hk; intros n Hn.
  - cbn in Hn. lia.
  - destruct n; cbn; auto. apply IHHk. cbn in Hn. lia.
Qed.
Print Assumptions C78_matrix_partial.

(** Vectors of two, three and four components; three numbers read as a four component vector get w = 1. *)
Theorem C78_vectors_partial : forall a eps vs t, machine_eps eps -> Forall in_range vs ->
  ToString_vector eps (map Fin vs) t ->
  (forall x y, vs = [x; y] -> exists x' y', ToVector2 a t = Some (Some (x', y'), []) /\
      kept eps x x' /\ kept eps y y') /\
  (forall x y z, vs = [x; y; z] -> exists x' y' z', ToVector3 a t = Some (Some (x', y', z'), []) /\
      ToVector4 a t = Some (Some (x', y', z', 1%Q), []) /\ kept eps x x' /\ kept eps y y' /\ kept eps z z') /\
  (forall x y z w, vs = [x; y; z; w] -> exists x' y' z' w', ToVector4 a t = Some (Some (x', y', z', w'), []) /\
      kept eps x x' /\ kept eps y y' /\ kept eps z z' /\ kept eps w w').
Proof.
  intros a eps vs t He Hr Ht. destruct (floats_parse a eps vs He Hr t Ht) as (rs & Hp & Hk).
  pose proof (to_floats_parse a t rs Hp) as E.
  repeat split; intros; subst vs;
    repeat match goal with H : Forall2 _ (_ :: _) _ |- _ => inversion H; clear H; subst
                         | H : Forall2 _ [] _ |- _ => inversion H; clear H; subst end;
    (destruct t as [|c t]; [inversion Hp; congruence|]); cbn [List.length] in E.
  - exists y0, y1. unfold ToVector2. rewrite E. auto.
  - exists y0, y1, y2. unfold ToVector3, ToVector4. rewrite E. auto.
  - exists y0, y1, y2, y3. unfold ToVector4.
    inversion Hp as [|s0 v0 s1 vs0 _ R0 _ P0]; subst. inversion P0 as [|s0' v0 s2 vs0 _ R1 _ P1]; subst.
    inversion P1 as [|s0' v0 s3 vs0 _ R2 _ P2]; subst. inversion P2 as [|s0' v0 s4 vs0 N3 R3 _ P3]; subst.
    inversion P3; subst.
    assert (E3 : ToFloats a 3 (c :: t) = Some ([y0; y1; y2], s3)).
    { cbn [ToFloats]. rewrite R0, R1, R2. reflexivity. }
    rewrite E3. destruct s3 as [|d s3]; [congruence|]. rewrite R3. auto 10.
Qed.
Print Assumptions C78_vectors_partial.

Example C78_list_demo : exists t rs, ToString_floats eps_float [] (map Fin [1 # 4; - 1 # 64]) t /\
  t = tx "0.25 -0.015625" /\ ToFloatList Strict t [7%Q; 8%Q; 9%Q] = Some rs /\
  Forall2 Qeq rs [1 # 4; - 1 # 64].
Proof.
  exists (tx "0.25 -0.015625"). eexists. split; [|split; [reflexivity|split; [vm_compute; reflexivity|]]].
  - change (tx "0.25 -0.015625") with ([] ++ tx "0.25" ++ 32 :: tx "-0.015625" ++ []).
    apply (TS_cons eps_float [] (Fin (1 # 4)) [Fin (- 1 # 64)] (tx "0.25") (32 :: tx "-0.015625" ++ [])).
    + exists (tx "0.25"). split; [|reflexivity]. exists (tx "250000"), (-1). split; [|reflexivity].
      apply exact_nearest; try reflexivity; repeat constructor. vm_compute; discriminate.
    + apply AR_cons; [|constructor]. apply C78_round_trip_demo.
  - repeat constructor.
Qed.

(** *** Safety *)
Lemma to_int32_wrapping : forall s, exists x rest, ToInt32 Wrapping s = Some (x, rest) /\
  (List.length rest <= List.length s)%nat.
Proof.
  intro s. unfold ToInt32.
  assert (G : forall t v, exists x rest, int_digits Wrapping v t = Some (x, rest) /\ (List.length rest <= List.length t)%nat).
  { induction t as [|c t IH]; intro v; [cbn; eauto|]. cbn [int_digits]. destruct (digit c); [|eauto].
    rewrite int_step_wrap. destruct (IH (s32 (v * 10 + (c - 48)))) as (x & r & E & H). exists x, r.
    split; auto. cbn [List.length]. lia. }
  pose proof (skip_length ws4 s) as Hl. destruct (skip_while ws4 s) as [|c t].
  - cbn. exists 0, []. split; [reflexivity|cbn; lia].
  - assert (H2 : forall k u, (List.length u <= List.length s)%nat ->
      exists x rest, match int_digits Wrapping 0 u with
        | Some (val, s3) => match norm Wrapping (val * k) with
            | Some v => Some (v, skip_while ws3 (skip_while (fun c => negb (ws3 c)) s3))
            | None => None end
        | None => None end = Some (x, rest) /\ (List.length rest <= List.length s)%nat).
    { intros k u Hu. destruct (G u 0) as (v & r & E & H). rewrite E. cbn [norm]. do 2 eexists.
      split; [reflexivity|]. pose proof (skip_length ws3 (skip_while (fun c => negb (ws3 c)) r)).
      pose proof (skip_length (fun c => negb (ws3 c)) r). lia. }
    destruct (c =? 45); apply H2; cbn [List.length] in *; lia.
Qed.

Lemma num_loop_total : forall s v d, ~ In 73 s ->
  exists v' d' x s', num_loop Wrapping v d s = Some (v', d', x, false, s') /\ exists n, s' = skipn n s.
Proof.
  induction s as [|c s IH]; intros v d H; [do 4 eexists; split; [reflexivity|exists O; reflexivity]|].
  cbn [num_loop].
  assert (Hi : ~ In 73 s) by (intro; apply H; now right).
  assert (G : forall v d, exists v' d' x s', num_loop Wrapping v d s = Some (v', d', x, false, s') /\
    exists n, s' = skipn n (c :: s)).
  { intros v0 d0. destruct (IH v0 d0 Hi) as (v' & d' & x & s' & E & n & Hn). exists v', d', x, s'.
    split; auto. exists (S n). exact Hn. }
  destruct (c =? 46); [apply G|]. destruct (digit c); [apply G|].
  destruct ((c =? 101) || (c =? 69)).
  - destruct (to_int32_wrapping s) as (x & rest & E & Hl). rewrite E. do 4 eexists. split; [reflexivity|].
    unfold back_one. eexists. reflexivity.
  - destruct (Z.eqb_spec c 73) as [-> |N]; [destruct H; now left|].
    do 4 eexists. split; [reflexivity|]. exists O. reflexivity.
Qed.

Lemma next_length : forall s, (List.length (next s) <= List.length s)%nat.
Proof.
  intro s. unfold next. pose proof (skip_length ws4 (skip_while (fun c => negb (ws4 c)) s)).
  pose proof (skip_length (fun c => negb (ws4 c)) s). lia.
Qed.

Lemma skip_in : forall p s c, In c (skip_while p s) -> In c s.
Proof.
  intros p s c H. destruct (skip_split p s) as (u & E & _). rewrite E. apply in_app_iff. now right.
Qed.
Lemma skipn_in : forall n (s : list Z) c, In c (skipn n s) -> In c s.
Proof.
  intros n s c H. rewrite <- (firstn_skipn n s). apply in_app_iff. now right.
Qed.

(** A text without the letter 'I' is read without ever leaving the text, and the pointer advances. *)
Theorem C78_safe : forall s, ~ In 73 s -> s <> [] ->
  exists q s', ToFloat Wrapping s = Some (q, s') /\ (List.length s' < List.length s)%nat /\ ~ In 73 s'.
Proof.
  intros s H Hne. unfold ToFloat. destruct s as [|c0 s0] eqn:Es; [congruence|]. rewrite <- Es in *. clear Hne.
  assert (Hp : (0 < List.length s)%nat) by (subst; cbn; lia). clear Es c0 s0.
  pose proof (skip_length ws4 s) as Hl. pose proof (skip_stops ws4 s) as Hst.
  assert (Hi : ~ In 73 (skip_while ws4 s)) by (intro Hx; apply H; eapply skip_in; eauto).
  assert (G : forall k u, ~ In 73 u -> ((List.length u < List.length s)%nat \/ stops ws4 u /\ (List.length u <= List.length s)%nat) ->
    exists q s', match num_loop Wrapping 0 0 u with
      | None => None
      | Some (val, decimals, exponent, infinity, s) =>
          match (if infinity : bool then test_inf s else Some s) with
          | None => None
          | Some s => Some (make_value val k decimals exponent, skip_while ws4 (skip_while (fun c => negb (ws4 c)) s))
          end
      end = Some (q, s') /\ (List.length s' < List.length s)%nat /\ ~ In 73 s').
  { intros k u Hu Hor. destruct (num_loop_total u 0 0 Hu) as (v' & d' & x & s' & E & n & ->). rewrite E.
    do 2 eexists. split; [reflexivity|]. fold (next (skipn n u)). split.
    - pose proof (next_length (skipn n u)) as Hn. rewrite skipn_length in Hn.
      destruct Hor as [|(Hs & Hle)]; [lia|]. destruct n as [|n].
      + cbn [skipn] in *. destruct u as [|c u]; [cbn; lia|]. unfold next. cbn [skip_while]. cbn in Hs. rewrite Hs.
        cbn [negb]. pose proof (next_length u) as Hn'. unfold next in Hn'. cbn [List.length] in *. lia.
      + destruct u as [|c u]; [rewrite skipn_nil in *; cbn; lia|]. cbn [List.length] in *. lia.
    - intro Hin. unfold next in Hin. apply skip_in, skip_in, skipn_in in Hin. contradiction. }
  destruct (skip_while ws4 s) as [|c t].
  - apply G; auto.
  - destruct (c =? 45); apply G; auto.
    intro Hx. apply Hi. now right.
Qed.
Print Assumptions C78_safe.
Example C78_safe_demo : ~ In 73 (tx "12abc -e .5.6") /\ ToFloatList Wrapping (tx "12abc -e .5.6") [] <> None.
Proof. split; [cbn; intuition discriminate|vm_compute; discriminate]. Qed.

(** Reading a list from such a text always ends, with the same result whatever the array contained. *)
Theorem C78_list_safe : forall s, ~ In 73 s -> exists rs, forall old, ToFloatList Wrapping s old = Some rs.
Proof.
  assert (G : forall n s, (List.length s <= n)%nat -> ~ In 73 s -> exists rs, parses (ToFloat Wrapping) s rs).
  { induction n as [|n IH]; intros s Hn Hi.
    - destruct s; [|cbn in Hn; lia]. exists []. constructor.
    - destruct s as [|c t] eqn:Es; [exists []; constructor|]. rewrite <- Es in *.
      assert (Hne : s <> []) by (subst; discriminate).
      destruct (C78_safe s Hi Hne) as (q & s' & E & Hl & Hi'). destruct (IH s') as (rs & Hp); auto; [lia|].
      exists (q :: rs). now apply P_cons with s'. }
  intros s Hi. destruct (G (List.length s) s ltac:(lia) Hi) as (rs & Hp). exists rs. intro old.
  now apply to_list_spec.
Qed.
Print Assumptions C78_list_safe.

(** *** Refuted parts *)
(** Small numbers are lost: every non-zero number below the epsilon is written as "0" and comes back as 0. *)
Theorem C78_small_refuted : forall a eps q t, machine_eps eps -> (0 < Qabs q)%Q -> (Qabs q < eps)%Q ->
  appends eps (Fin q) t -> exists r, ToFloat a t = Some (r, []) /\ (r == 0)%Q /\ ~ (r == q)%Q.
Proof.
  intros a eps q t He Hq Hs Ha. cbn [appends] in Ha.
  assert (E : Qle_bool eps (Qabs q) = false).
  { destruct (Qle_bool eps (Qabs q)) eqn:E; auto. apply Qle_bool_iff in E. lra. }
  rewrite E in Ha. cbn in Ha. subst t. eexists. split; [reflexivity|]. split; [reflexivity|].
  intro Hz. rewrite <- Hz in Hq. vm_compute in Hq. discriminate.
Qed.
Example C78_small_demo : (0 < Qabs (1 # 100000000))%Q /\ (Qabs (1 # 100000000) < eps_float)%Q.
Proof. split; reflexivity. Qed.

(** Infinities and NaN come back as the number 0. *)
Theorem C78_infinity_refuted : forall a eps f t, f = PInf \/ f = NInf \/ f = NaN -> appends eps f t ->
  exists r, ToFloat a t = Some (r, []) /\ (r == 0)%Q.
Proof.
  intros a eps f t [-> |[-> | ->]] Ha; cbn in Ha; subst t; (eexists; split; [reflexivity|reflexivity]).
Qed.
(** An 'I' near the end of the text makes the reader step over the terminator. *)
Theorem C78_overread_refuted : forall a, ToFloat a (tx "I") = None /\ ToFloat a (tx "1 -IN") <> None /\
  ToFloat a (tx "-IN") = None /\ ToFloatList a (tx "1 -IN") [] = None.
Proof. intro a. repeat split; try reflexivity. discriminate. Qed.
(** A plus sign is not understood: neither in front of the number (read as 0) nor in the exponent
    (read as exponent 0), though xs:float allows both. *)
Theorem C78_plus_refuted : forall a, exists r1 r2, ToFloat a (tx "+1.5") = Some (r1, []) /\ (r1 == 0)%Q /\
  ToFloat a (tx "1.5e+08") = Some (r2, []) /\ (r2 == 3 # 2)%Q.
Proof.
  intros [|]; do 2 eexists; (split; [vm_compute; reflexivity|]); (split; [reflexivity|]);
    (split; [vm_compute; reflexivity|reflexivity]).
Qed.
(** A number with an exponent, followed by a carriage return alone, swallows the next number. *)
Theorem C78_cr_refuted : exists l1 l2,
  ToFloatList Strict (tx "1e5" ++ [13] ++ tx "2 3") [] = Some l1 /\ Forall2 Qeq l1 [100000%Q; 3%Q] /\
  ToFloatList Strict (tx "15" ++ [13] ++ tx "2 3") [] = Some l2 /\ Forall2 Qeq l2 [15%Q; 2%Q; 3%Q].
Proof. do 2 eexists. split; [vm_compute; reflexivity|]. split; [repeat constructor|].
  split; [vm_compute; reflexivity|repeat constructor]. Qed.
Print Assumptions C78_small_refuted.
Print Assumptions C78_infinity_refuted.
Print Assumptions C78_overread_refuted.
Print Assumptions C78_plus_refuted.
Print Assumptions C78_cr_refuted.
