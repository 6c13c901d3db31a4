(** Lemmas about the floating point writers: the texts of [append] are decimal texts of close numbers. *)
From Coq Require Import List ZArith Bool QArith Qabs Qround Qpower Lia Lqa.
From Verif Require Import TextModel TextSpec TextProofs FloatModel FloatSpec FloatProofs.
Import ListNotations.
Local Open Scope Z_scope.

(** *** Powers of ten *)
Notation P10 := (Qpower 10).
Lemma p10_pos : forall x, (0 < P10 x)%Q.
Proof. intro x. apply Qpower_0_lt. reflexivity. Qed.
Lemma p10_le : forall x y, x <= y -> (P10 x <= P10 y)%Q.
Proof. intros. apply Qpower_le_compat_l; auto. discriminate. Qed.
Lemma p10_plus : forall x y, (P10 (x + y) == P10 x * P10 y)%Q.
Proof. intros. apply Qpower_plus. discriminate. Qed.
Lemma p10_nat : forall n, (P10 (Z.of_nat n) == inject_Z (10 ^ Z.of_nat n))%Q.
Proof. intro n. rewrite Zpower_Qpower by lia. reflexivity. Qed.
Lemma p10_5 : forall x, (P10 x == inject_Z 100000 * P10 (x - 5))%Q.
Proof.
  intro x. replace x with (5 + (x - 5)) at 1 by lia. rewrite p10_plus.
  change (P10 5) with (inject_Z 100000). reflexivity.
Qed.
Lemma p10_6 : forall x, (P10 (x + 1) == inject_Z 1000000 * P10 (x - 5))%Q.
Proof.
  intro x. replace (x + 1) with (6 + (x - 5)) at 1 by lia. rewrite p10_plus.
  change (P10 6) with (inject_Z 1000000). reflexivity.
Qed.
Lemma p10_up : forall x, (P10 (x + 1) == 10 * P10 x)%Q.
Proof. intro x. rewrite p10_plus. change (P10 1) with 10%Q. ring. Qed.

(** *** The decimal exponent of a positive number *)
Lemma exponent_in : forall q k lo, (P10 lo <= q)%Q -> (q < P10 (lo + Z.of_nat k))%Q ->
  exists e, (P10 e <= q)%Q /\ (q < P10 (e + 1))%Q.
Proof.
  intros q. induction k as [|k IH]; intros lo H1 H2.
  - rewrite Z.add_0_r in H2. lra.
  - destruct (Qlt_le_dec q (P10 (lo + 1))) as [H|H]; [eauto|].
    apply (IH (lo + 1)); auto. replace (lo + 1 + Z.of_nat k) with (lo + Z.of_nat (S k)) by lia. exact H2.
Qed.
Lemma lt_pow10 : forall n, Z.of_nat n < 10 ^ Z.of_nat n.
Proof.
  induction n as [|n IH]; [reflexivity|]. rewrite pow_succ. lia.
Qed.
Lemma decimal_exponent : forall q, (0 < q)%Q -> exists e, (P10 e <= q)%Q /\ (q < P10 (e + 1))%Q.
Proof.
  intros q Hq.
  assert (Hhi : exists n, (q < P10 (Z.of_nat n))%Q).
  { exists (Z.to_nat (Qceiling q)). pose proof (Qle_ceiling q) as Hc. rewrite p10_nat.
    pose proof (lt_pow10 (Z.to_nat (Qceiling q))) as Hl.
    assert (0 < Qceiling q) by (rewrite Zlt_Qlt; change (inject_Z 0) with 0%Q; lra).
    rewrite Z2Nat.id in * by lia. rewrite Zlt_Qlt in Hl. lra. }
  assert (Hlo : exists n, (P10 (- Z.of_nat n) <= q)%Q).
  { assert (Hi : (0 < / q)%Q) by (now apply Qinv_lt_0_compat).
    exists (Z.to_nat (Qceiling (/ q))). pose proof (Qle_ceiling (/ q)) as Hc.
    pose proof (lt_pow10 (Z.to_nat (Qceiling (/ q)))) as Hl.
    assert (0 < Qceiling (/ q)) by (rewrite Zlt_Qlt; change (inject_Z 0) with 0%Q; lra).
    rewrite Qpower_opp, p10_nat. rewrite Z2Nat.id in * by lia. rewrite Zlt_Qlt in Hl.
    apply Qle_shift_inv_r.
    - lra.
    - assert (E : (1 == q * / q)%Q) by (rewrite Qmult_inv_r; lra). rewrite E.
      rewrite (Qmult_comm q), (Qmult_comm q). apply Qmult_le_compat_r; lra. }
  destruct Hhi as (n & Hn), Hlo as (m & Hm).
  apply (exponent_in q (n + m)%nat (- Z.of_nat m) Hm).
  replace (- Z.of_nat m + Z.of_nat (n + m)) with (Z.of_nat n) by lia. exact Hn.
Qed.

(** *** Nearest six digit decimal *)
Lemma nearest_int : forall y n, (Qabs (inject_Z (Qfloor (y + (1 # 2))) - y) <= Qabs (inject_Z n - y))%Q.
Proof.
  intros y n. pose proof (Qfloor_le (y + (1 # 2))) as H1. pose proof (Qlt_floor (y + (1 # 2))) as H2.
  set (m := Qfloor (y + (1 # 2))) in *. rewrite inject_Z_plus in H2. change (inject_Z 1) with 1%Q in H2.
  destruct (Z.lt_trichotomy n m) as [H|[H|H]].
  - assert (Hn : (inject_Z n + 1 <= inject_Z m)%Q).
    { change 1%Q with (inject_Z 1). rewrite <- inject_Z_plus, <- Zle_Qle. lia. }
    apply Qabs_case; apply Qabs_case; intros; lra.
  - subst n. lra.
  - assert (Hn : (inject_Z m + 1 <= inject_Z n)%Q).
    { change 1%Q with (inject_Z 1). rewrite <- inject_Z_plus, <- Zle_Qle. lia. }
    apply Qabs_case; apply Qabs_case; intros; lra.
Qed.
Lemma half_int : forall y, (Qabs (inject_Z (Qfloor (y + (1 # 2))) - y) <= 1 # 2)%Q.
Proof.
  intros y. pose proof (Qfloor_le (y + (1 # 2))) as H1. pose proof (Qlt_floor (y + (1 # 2))) as H2.
  rewrite inject_Z_plus in H2. change (inject_Z 1) with 1%Q in H2.
  apply Qabs_case; intros; lra.
Qed.

Lemma abs_scale : forall u a y, (0 < u)%Q -> (Qabs (a * u - y * u) == Qabs (a - y) * u)%Q.
Proof.
  intros u a y Hu. rewrite <- (Qabs_pos u) at 3 by lra. rewrite <- Qabs_Qmult.
  apply Qabs_wd. ring.
Qed.

Lemma round6 : forall q, (0 < q)%Q -> exists m e,
  100000 <= m < 1000000 /\ (Qabs (inject_Z m * P10 (e - 5) - q) <= q / 200000)%Q /\
  forall m' e', 100000 <= m' < 1000000 ->
    (Qabs (inject_Z m * P10 (e - 5) - q) <= Qabs (inject_Z m' * P10 (e' - 5) - q))%Q.
Proof.
  intros q Hq. destruct (decimal_exponent q Hq) as (e & He1 & He2).
  pose proof (p10_pos (e - 5)) as Hu. set (u := P10 (e - 5)) in *.
  set (y := (q / u)%Q). assert (Eq : (q == y * u)%Q) by (unfold y; field; lra).
  assert (Hy1 : (inject_Z 100000 <= y)%Q).
  { unfold y. apply Qle_shift_div_l; auto. unfold u. rewrite <- p10_5. exact He1. }
  assert (Hy2 : (y < inject_Z 1000000)%Q).
  { unfold y. apply Qlt_shift_div_r; auto. unfold u. rewrite <- p10_6. exact He2. }
  pose proof (nearest_int y) as Hn. pose proof (half_int y) as Hh.
  set (m0 := Qfloor (y + (1 # 2))) in *.
  assert (Hm0 : 100000 <= m0 <= 1000000).
  { split; unfold m0.
    - assert (H : (inject_Z 100000 <= y + (1 # 2))%Q) by lra. apply Qfloor_resp_le in H.
      rewrite Qfloor_Z in H. exact H.
    - apply Z.lt_succ_r. rewrite Zlt_Qlt. pose proof (Qfloor_le (y + (1 # 2))).
      change (inject_Z (Z.succ 1000000)) with 1000001%Q. change (inject_Z 1000000) with 1000000%Q in Hy2. lra. }
  assert (Hval : (Qabs (inject_Z m0 * u - q) <= q / 200000)%Q).
  { rewrite Eq at 1. rewrite abs_scale by auto.
    assert (H : (Qabs (inject_Z m0 - y) * u <= (1 # 2) * u)%Q) by (apply Qmult_le_compat_r; lra).
    assert (H' : (inject_Z 100000 * u <= q)%Q) by (rewrite Eq; apply Qmult_le_compat_r; lra).
    change (inject_Z 100000) with 100000%Q in H'. unfold Qdiv. change (/ 200000)%Q with (1 # 200000). lra. }
  assert (Hnear : forall m' e', 100000 <= m' < 1000000 ->
    (Qabs (inject_Z m0 * u - q) <= Qabs (inject_Z m' * P10 (e' - 5) - q))%Q).
  { assert (Hint : forall n, (Qabs (inject_Z m0 * u - q) <= Qabs (inject_Z n * u - q))%Q).
    { intro n. rewrite Eq. rewrite !abs_scale by auto. apply Qmult_le_compat_r; [apply Hn|lra]. }
    intros m' e' Hm'. pose proof (p10_pos (e' - 5)) as Hu'.
    destruct (Z.lt_trichotomy e' e) as [H|[H|H]].
    - eapply Qle_trans; [apply (Hint 100000)|].
      assert (H1 : (inject_Z m' * P10 (e' - 5) <= inject_Z 100000 * u)%Q).
      { apply Qle_trans with (inject_Z 1000000 * P10 (e' - 5))%Q.
        - apply Qmult_le_compat_r; [|lra]. rewrite <- Zle_Qle. lia.
        - rewrite <- p10_6. unfold u. rewrite <- p10_5. apply p10_le. lia. }
      assert (H2 : (inject_Z 100000 * u <= q)%Q) by (rewrite Eq; apply Qmult_le_compat_r; lra).
      apply Qabs_case; apply Qabs_case; intros; lra.
    - subst e'. apply Hint.
    - eapply Qle_trans; [apply (Hint 1000000)|].
      assert (H1 : (inject_Z 1000000 * u <= inject_Z m' * P10 (e' - 5))%Q).
      { apply Qle_trans with (inject_Z 100000 * P10 (e' - 5))%Q.
        - rewrite <- p10_5. unfold u. rewrite <- p10_6. apply p10_le. lia.
        - apply Qmult_le_compat_r; [|lra]. rewrite <- Zle_Qle. lia. }
      assert (H2 : (q <= inject_Z 1000000 * u)%Q) by (rewrite Eq; apply Qmult_le_compat_r; lra).
      apply Qabs_case; apply Qabs_case; intros; lra. }
  destruct (Z.eq_dec m0 1000000) as [E|E].
  - exists 100000, (e + 1). split; [lia|].
    assert (Ev : (inject_Z 100000 * P10 (e + 1 - 5) == inject_Z m0 * u)%Q).
    { rewrite E. replace (e + 1 - 5) with (e - 5 + 1) by lia. rewrite p10_up. unfold u.
      change (inject_Z 100000) with 100000%Q. change (inject_Z 1000000) with 1000000%Q. ring. }
    split; [rewrite Ev; exact Hval|]. intros. rewrite Ev. now apply Hnear.
  - exists m0, e. split; [lia|]. split; auto.
Qed.

(** *** Digits *)
Lemma digits_exist : forall n m, 0 <= m < 10 ^ Z.of_nat n ->
  exists ds, length ds = n /\ Forall (fun c => digit c = true) ds /\ value_from 0 ds = m.
Proof.
  induction n as [|n IH]; intros m Hm.
  - exists []. cbn in *. repeat split; auto. lia.
  - rewrite pow_succ in Hm. destruct (IH (m / 10)) as (ds & Hl & Hd & Hv).
    { split; [apply Z.div_pos; lia|]. apply Z.div_lt_upper_bound; lia. }
    exists (ds ++ [48 + m mod 10]). rewrite app_length. cbn [length]. split; [lia|]. split.
    + apply Forall_app. split; auto. constructor; auto. apply digit_range.
      pose proof (Z.mod_pos_bound m 10). lia.
    + rewrite value_app1, Hv. pose proof (Z.div_mod m 10). lia.
Qed.
Lemma value_bound : forall ds v, Forall (fun c => digit c = true) ds ->
  v * 10 ^ Z.of_nat (length ds) <= value_from v ds < (v + 1) * 10 ^ Z.of_nat (length ds).
Proof.
  induction ds as [|c ds IH]; intros v H; [cbn; lia|]. inversion H; subst. cbn [length value_from fold_left].
  rewrite pow_succ. apply digit_range in H2. specialize (IH (v * 10 + (c - 48)) H3). unfold value_from in IH.
  pose proof (Z.pow_pos_nonneg 10 (Z.of_nat (length ds)) ltac:(lia) ltac:(lia)). nia.
Qed.
Lemma value_app : forall a b v, value_from v (a ++ b) = value_from (value_from v a) b.
Proof. intros. unfold value_from. apply fold_left_app. Qed.
Lemma value_zeros_from : forall k v, value_from v (repeat 48 k) = v * 10 ^ Z.of_nat k.
Proof.
  induction k as [|k IH]; intro v; [cbn; lia|]. rewrite pow_succ. cbn [repeat value_from fold_left].
  fold (value_from (v * 10 + (48 - 48)) (repeat 48 k)). rewrite IH. lia.
Qed.

Lemma trim_split : forall ds, exists k, ds = trim ds ++ repeat 48 k.
Proof.
  induction ds as [|c ds (k & IH)]; [exists O; reflexivity|]. cbn [trim].
  destruct (trim ds) as [|d t] eqn:E.
  - cbn in IH. destruct (Z.eqb_spec c 48) as [-> |N].
    + exists (S k). cbn. congruence.
    + exists k. cbn. congruence.
  - exists k. cbn. cbn in IH. congruence.
Qed.

Lemma mantissa_fraction : forall ds fs, Forall (fun c => digit c = true) ds -> ds <> [] ->
  Forall (fun c => digit c = true) fs ->
  exists m, mantissa (ds ++ fraction fs) m /\
    (m == inject_Z (value_from 0 (ds ++ fs)) * P10 (- Z.of_nat (length fs)))%Q.
Proof.
  intros ds fs Hd Hne Hf. destruct (trim_split fs) as (k & E).
  assert (Hlen : length fs = (length (trim fs) + k)%nat) by (rewrite E at 1; now rewrite app_length, repeat_length).
  assert (Hval : (inject_Z (value_from 0 (ds ++ fs)) * P10 (- Z.of_nat (length fs)) ==
    inject_Z (value_from 0 (ds ++ trim fs)) * P10 (- Z.of_nat (length (trim fs))))%Q).
  { rewrite Hlen. rewrite E at 1. rewrite app_assoc, (value_app (ds ++ trim fs)), value_zeros_from.
    rewrite inject_Z_mult, <- p10_nat. rewrite Nat2Z.inj_add, Z.opp_add_distr, p10_plus.
    rewrite <- Qmult_assoc. rewrite (Qmult_comm (P10 (Z.of_nat k))), <- (Qmult_assoc (P10 _)), <- p10_plus.
    replace (- Z.of_nat k + Z.of_nat k) with 0 by lia. change (P10 0) with 1%Q. ring. }
  unfold fraction. destruct (trim fs) as [|c t] eqn:Et.
  - exists (inject_Z (value_from 0 ds)). rewrite app_nil_r in *. split.
    + apply M_integer; auto. now apply bool_digits.
    + rewrite Hval. change (P10 (- Z.of_nat (length []))) with 1%Q. ring.
  - exists (inject_Z (number (ds ++ (c :: t))) / inject_Z (10 ^ Z.of_nat (length (c :: t))))%Q. split.
    + apply (M_decimal ds (c :: t)); [now apply bool_digits|]. apply bool_digits.
      rewrite E in Hf. apply Forall_app in Hf. apply Hf.
    + rewrite Hval. rewrite Qpower_opp, p10_nat. reflexivity.
Qed.

(** *** The filter of FloatToString *)
Definition plain (c : Z) : Prop := c <> 43 /\ c <> 101.
Lemma filter_plain : forall t u, Forall plain t -> filter_loop false true (t ++ u) = t ++ filter_loop false true u.
Proof.
  induction 1 as [|c t (H1 & H2) _ IH]; [reflexivity|]. cbn [app filter_loop].
  rewrite (proj2 (Z.eqb_neq c 43)), (proj2 (Z.eqb_neq c 101)) by auto. now rewrite IH.
Qed.
Lemma filter_id : forall t, Forall plain t -> filter_loop false true t = t.
Proof. intros t H. rewrite <- (app_nil_r t) at 1. rewrite filter_plain by auto. cbn. apply app_nil_r. Qed.
Lemma filter_done : forall t, Forall (fun c => digit c = true) t -> filter_loop true false t = t.
Proof.
  induction 1 as [|c t H _ IH]; [reflexivity|]. cbn [filter_loop]. apply digit_range in H.
  rewrite (proj2 (Z.eqb_neq c 43)) by lia. now rewrite IH.
Qed.
Lemma filter_leading : forall t, Forall (fun c => digit c = true) t -> 0 < value_from 0 t ->
  Forall (fun c => digit c = true) (filter_loop true true t) /\ filter_loop true true t <> [] /\
  value_from 0 (filter_loop true true t) = value_from 0 t.
Proof.
  induction 1 as [|c t H Ht IH]; intro Hv; [cbn in Hv; lia|]. cbn [filter_loop].
  pose proof (proj1 (digit_range c) H). rewrite (proj2 (Z.eqb_neq c 43)) by lia.
  destruct (Z.eqb_spec c 48) as [-> |N].
  - apply IH. exact Hv.
  - rewrite filter_done by auto. repeat split; auto. discriminate.
Qed.
Lemma plain_digits : forall t, Forall (fun c => digit c = true) t -> Forall plain t.
Proof. intro t. apply Forall_impl. intros c H. apply digit_range in H. unfold plain. lia. Qed.
Lemma trim_forall : forall (P : Z -> Prop) t, Forall P t -> Forall P (trim t).
Proof.
  intros P t H. destruct (trim_split t) as (k & E). rewrite E in H. apply Forall_app in H. apply H.
Qed.
Lemma plain_fraction : forall t, Forall (fun c => digit c = true) t -> Forall plain (fraction t).
Proof.
  intros t H. unfold fraction. apply trim_forall, plain_digits in H.
  destruct (trim t); auto. constructor; auto. unfold plain. lia.
Qed.

Lemma two_digits_spec : forall n, 0 <= n -> Forall (fun c => digit c = true) (two_digits n) /\
  two_digits n <> [] /\ value_from 0 (two_digits n) = n.
Proof.
  intros n Hn. unfold two_digits. destruct (dec_spec n Hn) as (H1 & H2 & H3).
  destruct (n <? 10); repeat split; auto. discriminate.
Qed.

(** *** The text of six digits and an exponent *)
Lemma layout_text : forall ds x, length ds = 6%nat -> Forall (fun c => digit c = true) ds ->
  -2147483599 <= x <= 2147483599 ->
  exists tm m tx e, (forall sg, Forall plain sg -> FloatToString (sg ++ layout ds x) = sg ++ tm ++ tx) /\
    mantissa tm m /\ exponent tx e /\ (m * P10 e == inject_Z (value_from 0 ds) * P10 (x - 5))%Q.
Proof.
  intros ds x Hl Hd Hx. unfold layout.
  destruct (Z.ltb_spec x (-4)) as [H1|H1]; [|destruct (Z.leb_spec 6 x) as [H2|H2]]; cbn [orb].
  1,2: assert (H1l : Forall (fun c => digit c = true) (firstn 1 ds))
    by (rewrite <- (firstn_skipn 1 ds) in Hd; apply Forall_app in Hd; apply Hd);
    assert (H2l : Forall (fun c => digit c = true) (skipn 1 ds))
    by (rewrite <- (firstn_skipn 1 ds) in Hd; apply Forall_app in Hd; apply Hd);
    destruct (mantissa_fraction (firstn 1 ds) (skipn 1 ds)) as (m & Hm & Em); auto;
    [destruct ds; [discriminate Hl|discriminate]|];
    rewrite firstn_skipn, skipn_length, Hl in Em;
    change (- Z.of_nat (6 - 1)) with (-5) in Em;
    destruct (two_digits_spec (Z.abs x) ltac:(lia)) as (T1 & T2 & T3).
  - rewrite (proj2 (Z.ltb_lt x 0)) by lia.
    exists (firstn 1 ds ++ fraction (skipn 1 ds)), m, (101 :: 45 :: two_digits (Z.abs x)), x. repeat split; auto.
    + intros sg Hsg. unfold FloatToString. rewrite 3 filter_plain; auto using plain_digits, plain_fraction.
      rewrite <- !app_assoc.
      change (filter_loop false true ([101] ++ [45] ++ two_digits (Z.abs x)))
        with (101 :: 45 :: filter_loop true false (two_digits (Z.abs x))).
      now rewrite filter_done.
    + replace x with (- number (two_digits (Z.abs x))) at 2 by (change number with (value_from 0); lia).
      apply X_negative; auto. now apply bool_digits. change number with (value_from 0). lia.
    + rewrite Em. replace (x - 5) with (-5 + x) by lia. rewrite p10_plus. ring.
  - rewrite (proj2 (Z.ltb_ge x 0)) by lia.
    destruct (filter_leading (two_digits (Z.abs x)) T1 ltac:(lia)) as (F1 & F2 & F3).
    exists (firstn 1 ds ++ fraction (skipn 1 ds)), m, (101 :: filter_loop true true (two_digits (Z.abs x))), x.
    repeat split; auto.
    + intros sg Hsg. unfold FloatToString. rewrite 3 filter_plain; auto using plain_digits, plain_fraction.
      rewrite <- !app_assoc. reflexivity.
    + replace x with (number (filter_loop true true (two_digits (Z.abs x)))) at 2
        by (change number with (value_from 0); lia).
      apply X_positive; auto. now apply bool_digits. change number with (value_from 0). lia.
    + rewrite Em. replace (x - 5) with (-5 + x) by lia. rewrite p10_plus. ring.
  - destruct (Z.ltb_spec x 0) as [H3|H3].
    + assert (Hz : Forall (fun c => digit c = true) (repeat 48 (Z.to_nat (- x - 1)) ++ ds)).
      { apply Forall_app. split; auto. apply Forall_forall. intros c Hc. apply repeat_spec in Hc. now subst. }
      destruct (mantissa_fraction [48] (repeat 48 (Z.to_nat (- x - 1)) ++ ds)) as (m & Hm & Em); auto.
      { discriminate. }
      exists ([48] ++ fraction (repeat 48 (Z.to_nat (- x - 1)) ++ ds)), m, [], 0. repeat split; auto.
      * intros sg Hsg. rewrite app_nil_r. unfold FloatToString.
        apply filter_id. repeat (apply Forall_app; split; auto using plain_fraction). repeat constructor; lia.
      * constructor.
      * rewrite Em. rewrite app_length, repeat_length, Hl. change ([48] ++ ?l) with (repeat 48 1 ++ l).
        rewrite !value_zeros. change (P10 0) with 1%Q.
        replace (- Z.of_nat (Z.to_nat (- x - 1) + 6)) with (x - 5) by lia. ring.
    + set (n := Z.to_nat (x + 1)). assert (Hn : (1 <= n <= 6)%nat) by lia.
      assert (H1l : Forall (fun c => digit c = true) (firstn n ds))
        by (rewrite <- (firstn_skipn n ds) in Hd; apply Forall_app in Hd; apply Hd).
      assert (H2l : Forall (fun c => digit c = true) (skipn n ds))
        by (rewrite <- (firstn_skipn n ds) in Hd; apply Forall_app in Hd; apply Hd).
      destruct (mantissa_fraction (firstn n ds) (skipn n ds)) as (m & Hm & Em); auto.
      { intro E. apply (f_equal (@length Z)) in E. rewrite firstn_length, Hl in E. cbn in E. lia. }
      rewrite firstn_skipn, skipn_length, Hl in Em.
      exists (firstn n ds ++ fraction (skipn n ds)), m, [], 0. repeat split; auto.
      * intros sg Hsg. rewrite app_nil_r. unfold FloatToString.
        apply filter_id. repeat (apply Forall_app; split; auto using plain_fraction, plain_digits).
      * constructor.
      * rewrite Em. change (P10 0) with 1%Q.
        replace (- Z.of_nat (6 - n)) with (x - 5) by lia. ring.
Qed.

(** *** append *)
Lemma formatted_close : forall f u, ~ (f == 0)%Q -> (P10 (-400) <= Qabs f)%Q -> (Qabs f <= P10 400)%Q ->
  formatted f u -> exists r, float_text (FloatToString u) r /\ close6 f r.
Proof.
  intros f u Hf Hlo Hhi (ds & x & (Hl & Hd & Hge & Hnear) & ->).
  change (digits_value ds) with (value_from 0 ds) in *.
  pose proof (value_bound ds 0 Hd) as (_ & Hlt). rewrite Hl in Hlt.
  change ((0 + 1) * 10 ^ Z.of_nat 6) with 1000000 in Hlt.
  assert (Hpos : (0 < Qabs f)%Q).
  { pose proof (Qabs_nonneg f). destruct (Qlt_le_dec 0 (Qabs f)); auto. exfalso. apply Hf.
    revert H q. apply Qabs_case; intros; lra. }
  destruct (round6 (Qabs f) Hpos) as (m & e & Hm & Hr & _).
  pose proof (Qle_trans _ _ _ (Hnear m e Hm) Hr) as Herr.
  set (w := (inject_Z (value_from 0 ds) * P10 (x - 5))%Q) in *.
  assert (Hw : (Qabs f / 2 <= w)%Q /\ (w <= Qabs f * 2)%Q).
  { revert Herr. unfold Qdiv. change (/ 200000)%Q with (1 # 200000). change (/ 2)%Q with (1 # 2).
    apply Qabs_case; intros; split; lra. }
  pose proof (p10_pos (x - 5)) as Hp.
  assert (Hx1 : (P10 x <= w)%Q).
  { rewrite p10_5. apply Qmult_le_compat_r; [|lra]. now rewrite <- Zle_Qle. }
  assert (Hx2 : (w <= P10 (x + 1))%Q).
  { rewrite p10_6. apply Qmult_le_compat_r; [|lra]. rewrite <- Zle_Qle. lia. }
  assert (Hxr : -2147483599 <= x <= 2147483599).
  { split.
    - assert (H : (P10 (-401) <= P10 (x + 1))%Q).
      { apply Qle_trans with w; auto. apply Qle_trans with (Qabs f / 2)%Q; [|apply Hw].
        pose proof (p10_up (-401)) as E. change (-401 + 1) with (-400) in E. rewrite E in Hlo.
        pose proof (p10_pos (-401)) as Hp401.
        revert Hlo Hp401. generalize (P10 (-401)). intros z Hz Hz0. unfold Qdiv. change (/ 2)%Q with (1 # 2). lra. }
      apply Qpower_le_compat_l_inv in H; [lia|reflexivity].
    - assert (H : (P10 x <= P10 401)%Q).
      { apply Qle_trans with w; auto. apply Qle_trans with (Qabs f * 2)%Q; [apply Hw|].
        pose proof (p10_up 400) as E. change (400 + 1) with 401 in E. rewrite E.
        pose proof (p10_pos 400) as Hp400.
        revert Hhi Hp400. generalize (P10 400). intros z Hz Hz0. lra. }
      apply Qpower_le_compat_l_inv in H; [lia|reflexivity]. }
  destruct (layout_text ds x Hl Hd Hxr) as (tm & mm & tx & xx & Htext & Hmant & Hexp & Hval).
  fold w in Hval.
  assert (Hsix : six_digits f -> (w == Qabs f)%Q).
  { intros (m1 & e1 & Hm1 & E1). specialize (Hnear m1 e1 Hm1).
    rewrite <- E1 in Hnear at 1. revert Hnear.
    setoid_replace (Qabs f - Qabs f)%Q with 0%Q by ring. change (Qabs 0) with 0%Q.
    apply Qabs_case; intros; lra. }
  destruct (Qle_bool 0 f) eqn:Es.
  - apply Qle_bool_iff in Es. assert (Ea : (Qabs f == f)%Q) by (now apply Qabs_pos).
    exists (mm * P10 xx)%Q. rewrite (Htext [] ltac:(constructor)). split; [exact (F_positive tm mm tx xx Hmant Hexp)|].
    split.
    + rewrite Hval. rewrite <- Ea at 1. exact Herr.
    + intro H6. rewrite Hval, Hsix, Ea by auto. reflexivity.
  - assert (Hneg : (f < 0)%Q).
    { destruct (Qlt_le_dec f 0); auto. apply Qle_bool_iff in q. congruence. }
    assert (Ea : (Qabs f == - f)%Q) by (apply Qabs_neg; lra).
    exists (- mm * P10 xx)%Q. rewrite (Htext [45] ltac:(repeat constructor; lia)).
    split; [exact (F_negative tm mm tx xx Hmant Hexp)|]. split.
    + setoid_replace (- mm * P10 xx - f)%Q with (- (mm * P10 xx - (- f)))%Q by ring.
      rewrite Qabs_opp, Hval, <- Ea. exact Herr.
    + intro H6. setoid_replace (- mm * P10 xx)%Q with (- (mm * P10 xx))%Q by ring.
      rewrite Hval, Hsix, Ea by auto. ring.
Qed.

Lemma formatted_exists : forall f, ~ (f == 0)%Q -> exists u, formatted f u.
Proof.
  intros f Hf.
  assert (Hpos : (0 < Qabs f)%Q).
  { destruct (Qlt_le_dec 0 (Qabs f)); auto. exfalso. apply Hf. pose proof (Qabs_nonneg f).
    revert H q. apply Qabs_case; intros; lra. }
  destruct (round6 (Qabs f) Hpos) as (m & e & Hm & _ & Hn).
  destruct (digits_exist 6 m) as (ds & Hl & Hd & Hv).
  { change (10 ^ Z.of_nat 6) with 1000000. lia. }
  eexists. exists ds, e. split; [|reflexivity]. unfold nearest6.
  change (digits_value ds) with (value_from 0 ds). rewrite Hv. repeat split; auto. lia.
Qed.
