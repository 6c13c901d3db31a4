(** C52: angle unwrapping. *)
From Coq Require Import QArith Qabs Qround ZArith SpecFloat Lqa Lia.
From Verif Require Import AngleModel.
Local Open Scope Q_scope.

(** ** Specification *)
(** Two angles are the same up to whole turns of [2 * Pif]. *)
Definition whole_turns (a b : Q) : Prop := exists k : Z, a == b + inject_Z k * (2 * Pif).
(** The three angles of [w] are those of [v] up to whole turns. *)
Definition whole_turns3 (w v : angles) : Prop :=
  match w, v with (a, b, c), (a', b', c') => whole_turns a a' /\ whole_turns b b' /\ whole_turns c c' end.
(** Within a breath (2 * Pif - Pi, half a turn and 9e-8) of [p]. *)
Definition near (p v : Q) : Prop := - Pi <= v - p < 2 * Pif - Pi.
Definition near3 (p v : angles) : Prop :=
  match p, v with (p0, p1, p2), (v0, v1, v2) => near p0 v0 /\ near p1 v1 /\ near p2 v2 end.
(** The square of the distance of two triples of angles. *)
Definition sq (p v : angles) : Q :=
  (fst (fst v) - fst (fst p)) ^ 2 + (snd (fst v) - snd (fst p)) ^ 2 + (snd v - snd p) ^ 2.

(** ** Proofs *)
Ltac num := unfold Pi, Pif in *.
Lemma turns_refl : forall a b, a == b -> whole_turns a b.
Proof. intros a b H. exists 0%Z. rewrite H. change (inject_Z 0) with 0. ring. Qed.

Lemma down_stops : forall n p v fuel, (n < fuel)%nat -> v - p <= Pi + inject_Z (Z.of_nat n) * (2 * Pif) ->
  exists v', down fuel p v = Some v' /\ whole_turns v' v /\ v' - p <= Pi /\ (v' = v \/ Pi - 2 * Pif < v' - p).
Proof.
  induction n as [|n IH]; intros p v [|fuel] L H; try lia; cbn [down].
  - destruct (Qlt_le_dec Pi (v - p)) as [G|G].
    + exfalso. change (inject_Z (Z.of_nat 0)) with 0 in H. lra.
    + exists v. split; [reflexivity|]. split; [apply turns_refl; reflexivity|]. split; [exact G|left; reflexivity].
  - destruct (Qlt_le_dec Pi (v - p)) as [G|G].
    + destruct (IH p (v - Pif * 2) fuel) as (v' & E & (k & T) & B & D); [lia| |].
      * rewrite Nat2Z.inj_succ in H. unfold Z.succ in H. rewrite inject_Z_plus in H. change (inject_Z 1) with 1 in H. lra.
      * exists v'. split; [exact E|]. split.
        { exists (k - 1)%Z. rewrite T. unfold Z.sub. rewrite inject_Z_plus. change (inject_Z (- (1))) with (-(1)). ring. }
        split; [exact B|right]. destruct D as [->|D]; [lra|exact D].
    + exists v. split; [reflexivity|]. split; [apply turns_refl; reflexivity|]. split; [exact G|left; reflexivity].
Qed.
Lemma up_stops : forall n p v fuel, (n < fuel)%nat -> - Pi - inject_Z (Z.of_nat n) * (2 * Pif) <= v - p ->
  exists v', up fuel p v = Some v' /\ whole_turns v' v /\ - Pi <= v' - p /\ (v' = v \/ v' - p < 2 * Pif - Pi).
Proof.
  induction n as [|n IH]; intros p v [|fuel] L H; try lia; cbn [up].
  - destruct (Qlt_le_dec (v - p) (- Pi)) as [G|G].
    + exfalso. change (inject_Z (Z.of_nat 0)) with 0 in H. lra.
    + exists v. split; [reflexivity|]. split; [apply turns_refl; reflexivity|]. split; [exact G|left; reflexivity].
  - destruct (Qlt_le_dec (v - p) (- Pi)) as [G|G].
    + destruct (IH p (v + Pif * 2) fuel) as (v' & E & (k & T) & B & D); [lia| |].
      * rewrite Nat2Z.inj_succ in H. unfold Z.succ in H. rewrite inject_Z_plus in H. change (inject_Z 1) with 1 in H. lra.
      * exists v'. split; [exact E|]. split.
        { exists (k + 1)%Z. rewrite T. rewrite inject_Z_plus. change (inject_Z 1) with 1. ring. }
        split; [exact B|right]. destruct D as [->|D]; [lra|exact D].
    + exists v. split; [reflexivity|]. split; [apply turns_refl; reflexivity|]. split; [exact G|left; reflexivity].
Qed.

Lemma enough_turns : forall q, exists n, forall m, (n <= m)%nat -> q <= inject_Z (Z.of_nat m) * (2 * Pif).
Proof.
  intro q. exists (Z.to_nat (Qceiling q)). intros m L.
  assert (inject_Z (Qceiling q) <= inject_Z (Z.of_nat m)) by (rewrite <- Zle_Qle; lia).
  assert (Q := Qle_ceiling q). assert (0 <= inject_Z (Z.of_nat m)) by (change 0 with (inject_Z 0); rewrite <- Zle_Qle; lia).
  num. lra.
Qed.
Lemma pi_facts : 0 < Pi /\ Pi < Pif.
Proof. num. split; reflexivity. Qed.

Lemma turns_trans : forall a b c, whole_turns a b -> whole_turns b c -> whole_turns a c.
Proof. intros a b c (k & H) (j & G). exists (k + j)%Z. rewrite H, G, inject_Z_plus. ring. Qed.


Lemma abs_cases : forall x, (0 <= x /\ Qabs x == x) \/ (x < 0 /\ Qabs x == - x).
Proof.
  intro x. destruct (Qlt_le_dec x 0) as [H|H].
  - right. split; [exact H|]. apply Qabs_neg. lra.
  - left. split; [exact H|]. apply Qabs_pos. exact H.
Qed.
Lemma turn_cases : forall k, k = 0%Z \/ 1 <= inject_Z k \/ inject_Z k <= -(1).
Proof.
  intro k. assert (k = 0 \/ 1 <= k \/ k <= -1)%Z as [H|[H|H]] by lia; [left; exact H|right; left|right; right].
  - change 1 with (inject_Z 1). rewrite <- Zle_Qle. exact H.
  - change (-(1)) with (inject_Z (-1)). rewrite <- Zle_Qle. exact H.
Qed.

Lemma distanceSq_sq : forall p v, distanceSq p v == sq p v.
Proof. intros [[p0 p1] p2] [[v0 v1] v2]. unfold distanceSq, sq, fst, snd. ring. Qed.

(** ** Theorems *)
(** AngleApproach returns for every pair of angles; the result is the angle moved by whole turns, within half a
    turn (up to the excess of the float constant over the double one) of the previous angle; an angle that is within
    half a turn already is returned as it is; and no other whole number of turns comes closer by more than that
    excess. *)
Theorem C52_approach_partial : forall p v, exists fuel0 v',
  (forall fuel, (fuel0 <= fuel)%nat -> AngleApproach fuel p v = Some v') /\
  whole_turns v' v /\ near p v' /\
  (Qabs (v - p) <= Pi -> v' = v) /\
  (2 * Pif - Pi <= Qabs (v - p) -> Qabs (v' - p) <= Qabs (v - p)) /\
  (forall w, whole_turns w v -> Qabs (v' - p) <= Qabs (w - p) + 2 * (Pif - Pi)).
Proof.
  intros p v. destruct pi_facts as [P1 P2].
  destruct (enough_turns (v - p)) as (n & Hn).
  destruct (enough_turns (- (v - p))) as (m & Hm).
  set (b := Nat.max n m).
  assert (B1 : v - p <= inject_Z (Z.of_nat b) * (2 * Pif)) by (apply Hn; unfold b; lia).
  assert (B2 : - (v - p) <= inject_Z (Z.of_nat b) * (2 * Pif)) by (apply Hm; unfold b; lia).
  assert (B0 : 0 <= inject_Z (Z.of_nat b) * (2 * Pif)).
  { apply Qmult_le_0_compat; [change 0 with (inject_Z 0); rewrite <- Zle_Qle; lia|lra]. }
  destruct (down_stops b p v (S b)) as (v1 & E1 & T1 & U1 & D1); [lia|lra|].
  assert (L1 : - Pi - inject_Z (Z.of_nat b) * (2 * Pif) <= v1 - p).
  { destruct D1 as [->|D1]; [lra|]. 
    destruct b as [|b'] eqn:Eb.
    - change (inject_Z (Z.of_nat 0)) with 0 in *. cbn [down] in E1.
      destruct (Qlt_le_dec Pi (v - p)); [discriminate|]. injection E1 as <-. lra.
    - assert (1 <= inject_Z (Z.of_nat (S b'))) by (change 1 with (inject_Z 1); rewrite <- Zle_Qle; lia).
      assert (1 * (2 * Pif) <= inject_Z (Z.of_nat (S b')) * (2 * Pif)) by (apply Qmult_le_compat_r; lra). lra. }
  destruct (up_stops b p v1 (S b)) as (v2 & E2 & T2 & U2 & D2); [lia|exact L1|].
  exists (S b), v2. split.
  - intros fuel L. unfold AngleApproach.
    destruct (down_stops b p v fuel) as (w1 & F1 & _); [lia|lra|].
    assert (w1 = v1).
    { assert (M : forall f g x, (f <= g)%nat -> forall r, down f p x = Some r -> down g p x = Some r).
      { clear. intros f. induction f as [|f IH]; intros [|g] x L r H; try discriminate; try lia. cbn [down] in *.
        destruct (Qlt_le_dec Pi (x - p)); [apply IH; [lia|exact H]|exact H]. }
      apply (M _ fuel) in E1; [|lia]. congruence. }
    subst w1. rewrite F1.
    assert (M : forall f g x, (f <= g)%nat -> forall r, up f p x = Some r -> up g p x = Some r).
    { clear. intros f. induction f as [|f IH]; intros [|g] x L r H; try discriminate; try lia. cbn [up] in *.
      destruct (Qlt_le_dec (x - p) (- Pi)); [apply IH; [lia|exact H]|exact H]. }
    exact (M _ fuel _ L _ E2).
  - assert (N : near p v2).
    { split; [exact U2|]. destruct D2 as [->|D2]; [lra|exact D2]. }
    assert (T : whole_turns v2 v) by (eapply turns_trans; eauto).
    split; [exact T|]. split; [exact N|]. split; [|split].
    + intro A. apply Qabs_Qle_condition in A.
      cbn [down] in E1. destruct (Qlt_le_dec Pi (v - p)); [lra|]. injection E1 as E1. subst v1.
      cbn [up] in E2. destruct (Qlt_le_dec (v - p) (- Pi)); [lra|]. injection E2 as E2. symmetry; exact E2.
    + intro A. destruct N as [N1 N2]. destruct (abs_cases (v2 - p)) as [[? ->]|[? ->]]; lra.
    + intros w (k & W). destruct T as (j & T). destruct N as [N1 N2].
      assert (D : w - p == v2 - p + inject_Z (k - j) * (2 * Pif)).
      { rewrite W, T. unfold Z.sub. rewrite inject_Z_plus, inject_Z_opp. ring. }
      destruct (turn_cases (k - j)) as [Z0|[Z1|Z1]].
      * rewrite Z0 in D. change (inject_Z 0) with 0 in D.
        assert (w - p == v2 - p) as -> by (rewrite D; ring). lra.
      * assert (1 * (2 * Pif) <= inject_Z (k - j) * (2 * Pif)) by (apply Qmult_le_compat_r; lra).
        destruct (abs_cases (v2 - p)) as [[? ->]|[? ->]]; destruct (abs_cases (w - p)) as [[? ->]|[? ->]]; lra.
      * assert (inject_Z (k - j) * (2 * Pif) <= -(1) * (2 * Pif)) by (apply Qmult_le_compat_r; lra).
        destruct (abs_cases (v2 - p)) as [[? ->]|[? ->]]; destruct (abs_cases (w - p)) as [[? ->]|[? ->]]; lra.
Qed.

(** "To within half a turn" does not hold exactly: the angle Pif ends up at Pif, which is more than FMath::Pi (and
    more than pi) away from 0. *)
Theorem C52_half_turn_refuted : exists p v v', (forall fuel, (2 <= fuel)%nat -> AngleApproach fuel p v = Some v') /\
  Pi < Qabs (v' - p).
Proof.
  exists 0, Pif, (Pif - Pif * 2 + Pif * 2). split; [|reflexivity].
  intros [|[|f]] L; try lia. reflexivity.
Qed.

(** "Never farther" does not hold exactly either: an angle that is over half a turn away by less than the difference
    of the constants is moved farther away. *)
Theorem C52_farther_refuted : exists p v v', (forall fuel, (2 <= fuel)%nat -> AngleApproach fuel p v = Some v') /\
  Qabs (v - p) < Qabs (v' - p).
Proof.
  exists 0, (- (Pi + Pif) * (1 # 2)), (- (Pi + Pif) * (1 # 2) + Pif * 2). split; [|reflexivity].
  intros [|[|f]] L; try lia. reflexivity.
Qed.

(** PatchEuler returns for all angles; the result is one of the two ways of writing the rotation, both within half a
    turn (up to the excess) of the previous angles, and it is not farther from the previous angles than either. *)
Theorem C52_patch_partial : forall p v, exists fuel0 v1 alt r,
  (forall fuel, (fuel0 <= fuel)%nat -> PatchEuler fuel p v = Some r) /\
  whole_turns3 v1 v /\ near3 p v1 /\
  whole_turns3 alt (let '(a, b, c) := v in (a + Pif, Pif - b, c + Pif)) /\ near3 p alt /\
  (r = v1 \/ r = alt) /\
  sq p r <= sq p v1 /\ sq p r <= sq p alt.
Proof.
  intros [[p0 p1] p2] [[v0 v1] v2].
  destruct (C52_approach_partial p0 v0) as (f0 & a0 & A0 & T0 & N0 & _).
  destruct (C52_approach_partial p1 v1) as (f1 & a1 & A1 & T1 & N1 & _).
  destruct (C52_approach_partial p2 v2) as (f2 & a2 & A2 & T2 & N2 & _).
  destruct (C52_approach_partial p0 (a0 + Pif)) as (g0 & b0 & B0 & S0 & M0 & _).
  destruct (C52_approach_partial p1 (Pif - a1)) as (g1 & b1 & B1 & S1 & M1 & _).
  destruct (C52_approach_partial p2 (a2 + Pif)) as (g2 & b2 & B2 & S2 & M2 & _).
  exists (f0 + f1 + f2 + g0 + g1 + g2)%nat, (a0, a1, a2), (b0, b1, b2),
    (if Qlt_le_dec (distanceSq (p0, p1, p2) (b0, b1, b2)) (distanceSq (p0, p1, p2) (a0, a1, a2))
     then (b0, b1, b2) else (a0, a1, a2)).
  split.
  { intros fuel L. unfold PatchEuler, approach3, alternative.
    rewrite A0, A1, A2 by lia. rewrite B0, B1, B2 by lia. reflexivity. }
  split; [cbn; auto|]. split; [cbn; auto|]. split.
  { cbn. split; [|split].
    - apply turns_trans with (a0 + Pif); [exact S0|]. destruct T0 as (k & T0). exists k. rewrite T0. ring.
    - apply turns_trans with (Pif - a1); [exact S1|]. destruct T1 as (k & T1). exists (- k)%Z.
      rewrite T1, inject_Z_opp. ring.
    - apply turns_trans with (a2 + Pif); [exact S2|]. destruct T2 as (k & T2). exists k. rewrite T2. ring. }
  split; [cbn; auto|].
  rewrite <- !distanceSq_sq.
  destruct (Qlt_le_dec _ _) as [L|L]; (split; [auto|]); split; lra.
Qed.

(** PatchEuler can return angles that are farther from the previous ones than the angles it was given. *)
Theorem C52_patch_refuted : exists p v r, (forall fuel, (3 <= fuel)%nat -> PatchEuler fuel p v = Some r) /\
  sq p v < sq p r.
Proof.
  exists (0, 0, 0), (- (Pi + Pif) * (1 # 2), 0, 0), (- (Pi + Pif) * (1 # 2) + Pif * 2, 0, 0).
  split; [|reflexivity]. intros [|[|[|f]]] L; try lia. reflexivity.
Qed.

(** In float arithmetic the loop does not end for large angles: once a turn is less than half a unit in the last
    place, subtracting it changes nothing. *)
Theorem C52_float_hang_refuted : forall p v,
  (above (SFsub 24 128 v p) Pi = true /\ SFsub 24 128 v twoPif = v) ->
  forall fuel, AngleApproach_f fuel p v = None.
Proof.
  intros p v [H E] fuel. unfold AngleApproach_f.
  assert (D : down_f fuel p v = None); [|rewrite D; reflexivity].
  induction fuel as [|f IH]; [reflexivity|]. cbn [down_f]. rewrite H, E. exact IH.
Qed.

(** ** Examples *)
(** Twenty radians to within half a turn of one: three turns are taken off. *)
Example C52_demo : exists v', AngleApproach 10 1 20 = Some v' /\ v' == 20 - 3 * (2 * Pif) /\ Qabs (v' - 1) < Pi.
Proof. eexists. split; [reflexivity|]. split; reflexivity. Qed.
(** The other way of writing (0.1, 3, 0.2) is closer to (3, 0, 3). *)
Example C52_patch_demo : exists r, PatchEuler 10 (3, 0, 3) (1#10, 3, 1#5) = Some r /\
  r = ((1#10) + Pif, Pif - 3, (1#5) + Pif).
Proof. eexists. split; reflexivity. Qed.
(** 134217744 radians (2^27 + 16) and infinity meet the hypotheses of the hanging theorem, with previous angle 0. *)
Example C52_hang_demo :
  above (SFsub 24 128 (S754_finite false 8388609 4) (S754_zero false)) Pi = true /\
  SFsub 24 128 (S754_finite false 8388609 4) twoPif = S754_finite false 8388609 4 /\
  above (SFsub 24 128 (S754_infinity false) (S754_zero false)) Pi = true /\
  SFsub 24 128 (S754_infinity false) twoPif = S754_infinity false.
Proof. repeat split; vm_compute; reflexivity. Qed.
(** Float arithmetic on an ordinary angle: 20 comes down to 1.1504... as in exact arithmetic. *)
Example C52_float_demo : exists v', AngleApproach_f 10 (S754_finite false 8388608 (-23)) (S754_finite false 10485760 (-19)) = Some v' /\
  Qabs (value v' - (20 - 3 * (2 * Pif))) < 1 # 1000000.
Proof. eexists. split; [vm_compute; reflexivity|]. reflexivity. Qed.

Print Assumptions C52_approach_partial.
Print Assumptions C52_half_turn_refuted.
Print Assumptions C52_farther_refuted.
Print Assumptions C52_patch_partial.
Print Assumptions C52_patch_refuted.
Print Assumptions C52_float_hang_refuted.
