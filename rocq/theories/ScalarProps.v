(** Property C46: Clamp and Wrap. *)
From Coq Require Import ZArith Bool Lia.
From Verif Require Import TextModel TextProofs ScalarModel.
Local Open Scope Z_scope.

Theorem C46_clamp : forall v mn mx, mn <= mx ->
  mn <= Clamp v mn mx <= mx /\ (mn <= v <= mx -> Clamp v mn mx = v) /\
  (v < mn -> Clamp v mn mx = mn) /\ (mx < v -> Clamp v mn mx = mx).
Proof.
  intros v mn mx H. unfold Clamp.
  destruct (Z.ltb_spec mx v), (Z.ltb_spec v mn); lia.
Qed.
Print Assumptions C46_clamp.

(** [wraps v mn mx r]: [r] lies in the interval, is [v] itself if [v] does, and differs from [v] by a
    multiple of the interval length. *)
Definition wraps (v mn mx r : Z) : Prop :=
  mn <= r <= mx /\ (mn <= v <= mx -> r = v) /\ exists k, v - r = k * (mx - mn).

Lemma wrap_value_hi : forall v mn mx, mn < mx < v -> wraps v mn mx (mn + (v - mx) mod (mx - mn)).
Proof.
  intros v mn mx H. pose proof (Z.mod_pos_bound (v - mx) (mx - mn) ltac:(lia)).
  split; [lia|]. split; [lia|]. exists ((v - mx) / (mx - mn) + 1).
  pose proof (Z.div_mod (v - mx) (mx - mn) ltac:(lia)). lia.
Qed.
Lemma wrap_value_lo : forall v mn mx, v < mn < mx -> wraps v mn mx (mx - (mn - v) mod (mx - mn)).
Proof.
  intros v mn mx H. pose proof (Z.mod_pos_bound (mn - v) (mx - mn) ltac:(lia)).
  split; [lia|]. split; [lia|]. exists (- ((mn - v) / (mx - mn)) - 1).
  pose proof (Z.div_mod (mn - v) (mx - mn) ltac:(lia)). lia.
Qed.

(** The int version, for every value and interval whose lengths and distances are ints. *)
Theorem C46_wrap_int : forall v mn mx, mn < mx ->
  -2147483648 <= v <= 2147483647 -> -2147483648 <= mn -> mx <= 2147483647 ->
  mx - mn <= 2147483647 -> v - mx <= 2147483647 -> mn - v <= 2147483647 ->
  exists r, Wrap_int v mn mx = Some r /\ wraps v mn mx r.
Proof.
  intros v mn mx H Hv Hmn Hmx Hd H1 H2. unfold Wrap_int.
  assert (I : forall z, -2147483648 <= z <= 2147483647 -> int_op z = Some z).
  { intros z Hz. unfold int_op. rewrite (proj2 (in_int32_iff z)) by lia. reflexivity. }
  destruct (Z.ltb_spec mx v).
  - rewrite (I (v - mx)), (I (mx - mn)) by lia. cbn [bind]. unfold int_rem.
    rewrite (proj2 (Z.eqb_neq (mx - mn) 0)) by lia. rewrite Z.rem_mod_nonneg by lia.
    pose proof (Z.mod_pos_bound (v - mx) (mx - mn) ltac:(lia)).
    rewrite (I ((v - mx) mod (mx - mn))) by lia. cbn [bind]. rewrite I by lia.
    eexists. split; [reflexivity|]. apply wrap_value_hi; lia.
  - destruct (Z.ltb_spec v mn).
    + rewrite (I (mn - v)), (I (mx - mn)) by lia. cbn [bind]. unfold int_rem.
      rewrite (proj2 (Z.eqb_neq (mx - mn) 0)) by lia. rewrite Z.rem_mod_nonneg by lia.
      pose proof (Z.mod_pos_bound (mn - v) (mx - mn) ltac:(lia)).
      rewrite (I ((mn - v) mod (mx - mn))) by lia. cbn [bind]. rewrite I by lia.
      eexists. split; [reflexivity|]. apply wrap_value_lo; lia.
    + exists v. split; auto. split; [lia|]. split; [auto|]. exists 0. lia.
Qed.
Print Assumptions C46_wrap_int.

(** The uint32 version, for every value and interval. *)
Theorem C46_wrap_uint32 : forall v mn mx, 0 <= v < 2 ^ 32 -> 0 <= mn < mx -> mx < 2 ^ 32 ->
  exists r, Wrap_uint32 v mn mx = Some r /\ wraps v mn mx r.
Proof.
  intros v mn mx Hv Hmn Hmx. change (2 ^ 32) with 4294967296 in *. unfold Wrap_uint32.
  assert (U : forall z, 0 <= z < 4294967296 -> u32 z = z) by (intros; unfold u32; apply Z.mod_small; lia).
  destruct (Z.ltb_spec mx v).
  - rewrite (U (mx - mn)), (U (v - mx)) by lia. rewrite (proj2 (Z.eqb_neq (mx - mn) 0)) by lia.
    pose proof (Z.mod_pos_bound (v - mx) (mx - mn) ltac:(lia)). rewrite U by lia.
    eexists. split; [reflexivity|]. apply wrap_value_hi; lia.
  - destruct (Z.ltb_spec v mn).
    + rewrite (U (mx - mn)), (U (mn - v)) by lia. rewrite (proj2 (Z.eqb_neq (mx - mn) 0)) by lia.
      pose proof (Z.mod_pos_bound (mn - v) (mx - mn) ltac:(lia)). rewrite U by lia.
      eexists. split; [reflexivity|]. apply wrap_value_lo; lia.
    + exists v. split; auto. split; [lia|]. split; [auto|]. exists 0. lia.
Qed.
Print Assumptions C46_wrap_uint32.

(** The generic loop terminates for every value. *)
Lemma wrap_down_spec : forall fuel v mn mx, mn < mx -> v - mx <= Z.of_nat fuel ->
  exists r k, wrap_down fuel v mx (mx - mn) = Some r /\ v - r = k * (mx - mn) /\ r <= mx /\
    (v <= mx -> r = v) /\ (mx < v -> mn <= r).
Proof.
  induction fuel as [|f IH]; intros v mn mx H Hf; cbn [wrap_down]; destruct (Z.ltb_spec mx v).
  - lia.
  - exists v, 0. repeat split; auto; lia.
  - destruct (IH (v - (mx - mn)) mn mx) as (r & k & E & Ek & Hr & H1 & H2); [lia|lia|].
    exists r, (k + 1). split; auto. split; [lia|]. split; auto. split; [lia|]. intros _.
    destruct (Z.le_gt_cases (v - (mx - mn)) mx); [rewrite H1 by auto; lia|auto with zarith].
  - exists v, 0. repeat split; auto; lia.
Qed.
Lemma wrap_up_spec : forall fuel v mn mx, mn < mx -> v <= mx -> mn - v <= Z.of_nat fuel ->
  exists r k, wrap_up fuel v mn (mx - mn) = Some r /\ v - r = k * (mx - mn) /\ mn <= r <= mx /\
    (mn <= v -> r = v).
Proof.
  induction fuel as [|f IH]; intros v mn mx H Hv Hf; cbn [wrap_up]; destruct (Z.ltb_spec v mn).
  - lia.
  - exists v, 0. repeat split; auto; lia.
  - destruct (IH (v + (mx - mn)) mn mx) as (r & k & E & Ek & Hr & H1); [lia|lia|lia|].
    exists r, (k - 1). split; auto. split; [lia|]. split; auto. lia.
  - exists v, 0. repeat split; auto; lia.
Qed.
Theorem C46_wrap_generic : forall v mn mx, mn < mx ->
  exists r, Wrap_loop (Z.to_nat (Z.abs v + Z.abs mn + Z.abs mx)) v mn mx = Some r /\ wraps v mn mx r.
Proof.
  intros v mn mx H. unfold Wrap_loop. set (fuel := Z.to_nat (Z.abs v + Z.abs mn + Z.abs mx)).
  destruct (wrap_down_spec fuel v mn mx) as (r1 & k1 & E1 & K1 & R1 & S1 & T1); [lia|unfold fuel; lia|].
  rewrite E1. cbn [bind].
  destruct (wrap_up_spec fuel r1 mn mx) as (r2 & k2 & E2 & K2 & R2 & S2); [lia|lia| |].
  { unfold fuel. destruct (Z.le_gt_cases v mx); [rewrite S1 by lia; lia|specialize (T1 ltac:(lia)); lia]. }
  exists r2. split; auto. split; auto. split.
  - intros Hv. rewrite S2; [apply S1; lia|]. rewrite S1; lia.
  - exists (k1 + k2). lia.
Qed.
Print Assumptions C46_wrap_generic.

Example C46_demo : Wrap_int 361 0 360 = Some 1 /\ Wrap_int (-725) 0 360 = Some 355 /\
  Wrap_uint32 4294967295 10 17 = Some 10 /\ Wrap_loop 2000 1000 (-3) 4 = Some (-1) /\
  (* an empty interval divides by zero *) Wrap_int 5 3 3 = None.
Proof. repeat split; vm_compute; reflexivity. Qed.
