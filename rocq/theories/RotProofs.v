(** Lemmas for RotProps.v. *)
From Coq Require Import Reals Lra Lia Psatz.
From Verif Require Import MatrixModel MatrixProps QuatModel QuatProps RotModel.
Local Open Scope R_scope.

Lemma cs : forall t, cos t ^ 2 = 1 - sin t ^ 2.
Proof. intro t. pose proof (sin2_cos2 t). unfold Rsqr in *. lra. Qed.

Lemma atan_cos_sin : forall u, 0 < cos (atan u) /\ sin (atan u) = u * cos (atan u) /\ cos (atan u) ^ 2 * (1 + u ^ 2) = 1.
Proof.
  intro u. destruct (atan_bound u) as [A B].
  assert (C : 0 < cos (atan u)) by (apply cos_gt_0; lra).
  assert (T := tan_atan u). unfold tan in T.
  assert (S : sin (atan u) = u * cos (atan u)) by (rewrite <- T at 2; field; lra).
  split; [exact C|]. split; [exact S|].
  pose proof (cs (atan u)) as E. rewrite S in E. lra.
Qed.
Lemma sq_pos_inj : forall a b, 0 < a -> 0 < b -> a ^ 2 = b ^ 2 -> a = b.
Proof. intros a b A B H. assert ((a - b) * (a + b) = 0) by lra. apply Rmult_integral in H0. lra. Qed.

Lemma atan2_spec : forall y x r, 0 < r -> x ^ 2 + y ^ 2 = r ^ 2 ->
  r * cos (atan2 y x) = x /\ r * sin (atan2 y x) = y.
Proof.
  intros y x r R0 H. unfold atan2.
  assert (G : x <> 0 -> (r * cos (atan (y / x))) ^ 2 = x ^ 2).
  { intro N. destruct (atan_cos_sin (y / x)) as (C & S & E).
    replace ((y / x) ^ 2) with (y ^ 2 / x ^ 2) in E by (field; exact N).
    assert (N2 : x ^ 2 <> 0) by (apply pow_nonzero; exact N).
    assert (cos (atan (y / x)) ^ 2 * (x ^ 2 + y ^ 2) = x ^ 2).
    { replace (x ^ 2 + y ^ 2) with (x ^ 2 * (1 + y ^ 2 / x ^ 2)) by (field; exact N).
      replace (_ * (x ^ 2 * _)) with (x ^ 2 * (cos (atan (y / x)) ^ 2 * (1 + y ^ 2 / x ^ 2))) by ring. rewrite E. ring. }
    rewrite H in H0. replace ((r * cos (atan (y / x))) ^ 2) with (cos (atan (y / x)) ^ 2 * r ^ 2) by ring. exact H0. }
  destruct (Rlt_dec 0 x) as [A|A].
  - destruct (atan_cos_sin (y / x)) as (C & S & _).
    assert (E : r * cos (atan (y / x)) = x).
    { apply sq_pos_inj; [apply Rmult_lt_0_compat; assumption|exact A|apply G; lra]. }
    split; [exact E|]. rewrite S. replace (r * (y / x * cos (atan (y / x)))) with (y / x * (r * cos (atan (y / x)))) by ring.
    rewrite E. field. lra.
  - destruct (Rlt_dec x 0) as [B|B].
    + destruct (atan_cos_sin (y / x)) as (C & S & _).
      assert (E : r * cos (atan (y / x)) = - x).
      { apply sq_pos_inj; [apply Rmult_lt_0_compat; assumption|lra|]. rewrite G by lra. ring. }
      assert (S' : r * sin (atan (y / x)) = - y).
      { rewrite S. replace (r * (y / x * cos (atan (y / x)))) with (y / x * (r * cos (atan (y / x)))) by ring.
        rewrite E. field. lra. }
      destruct (Rle_dec 0 y).
      * rewrite neg_cos, neg_sin. lra.
      * unfold Rminus. rewrite cos_plus, sin_plus, cos_neg, sin_neg, cos_PI, sin_PI. lra.
    + assert (x = 0) by lra. subst x. destruct (Rlt_dec 0 y).
      * rewrite cos_PI2, sin_PI2. assert (y = r) by (apply sq_pos_inj; lra). lra.
      * destruct (Rlt_dec y 0).
        -- rewrite cos_neg, sin_neg, cos_PI2, sin_PI2. assert (- y = r) by (apply sq_pos_inj; lra). lra.
        -- assert (y = 0) by lra. subst y. assert (r = 0) by nra. lra.
Qed.
Lemma atan2_bound : forall y x, - PI < atan2 y x <= PI.
Proof.
  intros y x. assert (P := PI_RGT_0). unfold atan2. destruct (atan_bound (y / x)).
  destruct (Rlt_dec 0 x); [lra|]. destruct (Rlt_dec x 0).
  - destruct (Rle_dec 0 y) as [Y|Y].
    + assert (atan (y / x) <= 0).
      { destruct (Req_dec y 0) as [->|N].
        - replace (0 / x) with 0 by (field; lra). rewrite atan_0. lra.
        - assert (y / x < 0) by (unfold Rdiv; assert (/ x < 0) by (apply Rinv_lt_0_compat; lra); assert (0 < y) by lra; nra).
          left. rewrite <- atan_0. apply atan_increasing. exact H1. }
      lra.
    + assert (0 < atan (y / x)).
      { rewrite <- atan_0. apply atan_increasing. unfold Rdiv.
        assert (/ x < 0) by (apply Rinv_lt_0_compat; lra). nra. }
      lra.
  - destruct (Rlt_dec 0 y); [lra|]. destruct (Rlt_dec y 0); lra.
Qed.
(** An angle of one turn is determined by its sine and cosine. *)
Lemma angle_unique : forall a b, - PI < a <= PI -> - PI < b <= PI -> cos a = cos b -> sin a = sin b -> a = b.
Proof.
  intros a b A B C S.
  assert (D : cos (a - b) = 1) by (rewrite cos_minus, C, S; pose proof (sin2_cos2 b); unfold Rsqr in *; lra).
  assert (P := PI_RGT_0).
  assert (Half : sin ((a - b) / 2) = 0).
  { pose proof (half (a - b)) as (_ & H & _). rewrite D in H.
    assert (sin ((a - b) / 2) ^ 2 = 0) by lra. nra. }
  assert (G : forall t, 0 < t < PI -> sin t <> 0) by (intros t T; apply Rgt_not_eq, sin_gt_0; lra).
  destruct (Rtotal_order a b) as [L|[E|L]]; [|exact E|].
  - exfalso. apply (G ((b - a) / 2)); [lra|]. replace ((b - a) / 2) with (- ((a - b) / 2)) by field.
    rewrite sin_neg, Half. ring.
  - exfalso. apply (G ((a - b) / 2)); [lra|exact Half].
Qed.
Lemma equivalent_false : forall s, FLT_TOLERANCE <= s -> IsEquivalent s 0 = false.
Proof.
  intros s H. unfold IsEquivalent. destruct (Rlt_dec (s - 0) FLT_TOLERANCE); [lra|reflexivity].
Qed.
Lemma equivalent_refl : forall s, IsEquivalent s s = true.
Proof.
  intro s. unfold IsEquivalent. assert (T := tolerance_pos). destruct (Rlt_dec (s - s) FLT_TOLERANCE); [|lra].
  destruct (Rlt_dec (s - s) FLT_TOLERANCE); [reflexivity|lra].
Qed.
Lemma equivalent_spec : forall a b, IsEquivalent a b = true <-> Rabs (a - b) < FLT_TOLERANCE.
Proof.
  intros a b. unfold IsEquivalent. split.
  - intro H. destruct (Rlt_dec (a - b) _); [|discriminate]. destruct (Rlt_dec (b - a) _); [|discriminate].
    apply Rabs_def1; lra.
  - intro H. apply Rabs_def2 in H. destruct (Rlt_dec (a - b) _); [|lra]. destruct (Rlt_dec (b - a) _); [reflexivity|lra].
Qed.
Lemma vLength_pos : forall v, v <> V3 0 0 0 -> 0 < vLength v.
Proof.
  intros [x y z] H. unfold vLength. cbn [x3 y3 z3]. apply sqrt_lt_R0.
  destruct (Req_dec x 0) as [->|]; [|nra]. destruct (Req_dec y 0) as [->|]; [|nra].
  destruct (Req_dec z 0) as [->|]; [contradiction|nra].
Qed.
Lemma vLength_sq : forall v, vLength v ^ 2 = x3 v ^ 2 + y3 v ^ 2 + z3 v ^ 2.
Proof. intro v. unfold vLength. rewrite pow2_sqrt; [ring|nra]. Qed.
