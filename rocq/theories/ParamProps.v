(** C81: the animation helper of a value of a list parameter stays with the value.
    C82: evaluating an animation of a list parameter changes exactly its own value. *)
From Coq Require Import List ZArith Bool Arith Lia.
From Verif Require Import ParamModel ParamSpec ParamProofs ParamSteps ParamRun.
Import ListNotations.

Lemma in_helpers : forall s n h i c, In (h, Z.of_nat (n + i), c) (helpers n s) <-> exists x, nth_error s i = Some (x, Some (h, c)).
Proof.
  induction s as [|(x, [(h0, c0)|]) s IH]; intros n h i c; cbn [helpers].
  - split; [intros []|]. intros (x & H). destruct i; discriminate.
  - cbn [In]. destruct i as [|i]; cbn [nth_error].
    + rewrite Nat.add_0_r. split.
      * intros [H|H]; [injection H as -> ->; eauto|]. apply helpers_bounds in H. lia.
      * intros (y & H). injection H as _ -> ->. now left.
    + rewrite <- Nat.add_succ_comm, IH. split; [|auto]. intros [H|H]; auto. injection H as _ H _. lia.
  - destruct i as [|i]; cbn [nth_error].
    + split; [|intros (y & H); discriminate]. intro H. apply helpers_bounds in H. lia.
    + now rewrite <- Nat.add_succ_comm, IH.
Qed.

Lemma R_in : forall p s i h c, R p s -> (In (h, Z.of_nat i, c) (map (fun a => (aid a, element a, curve a)) (animateds p)) <-> exists x, nth_error (fst s) i = Some (x, Some (h, c))).
Proof. intros p s i h c HR. change (map _ (animateds p)) with (map proj (animateds p)). rewrite (R_helpers _ _ HR). apply (in_helpers (fst s) 0). Qed.

Lemma R_animated : forall p s i, R p s -> i < length (fst s) -> (IsAnimated i p = true <-> animated_at (fst s) i).
Proof.
  intros p (s, k) i HR Hi. cbn [fst] in *. destruct (nth_error s i) as [(x, o)|] eqn:En; [|apply nth_error_None in En; lia].
  destruct (nth_error_split _ _ En) as (a & b & -> & <-). destruct (search_at _ _ _ _ _ _ HR) as (l1 & l2 & E & E1 & E2 & Es & Ei).
  unfold IsAnimated, animated_at. rewrite Es, E, Ei, En. rewrite nth_error_app2 by auto. rewrite Nat.sub_diag.
  destruct o as [(h, c)|]; cbn [helpers] in E2.
  - destruct l2 as [|y l2]; [discriminate|]. cbn [map] in E2. injection E2 as Eh Ee Ec E2. cbn [nth_error]. rewrite Ee, Z.eqb_refl, Ec. cbn [andb].
    split; [intros ->; eauto|]. intros (y' & h' & H). congruence.
  - split; [|intros (y & h & H); discriminate]. destruct l2 as [|y l2]; [discriminate|]. cbn [nth_error].
    pose proof (proj_from _ _ _ (Z.of_nat (S (length a))) E2 ltac:(lia)) as F. inversion F; subst. intro H. apply andb_prop in H as (H & _). apply Z.eqb_eq in H. lia.
Qed.
Lemma R_any : forall p s, R p s -> (IsAnimatedAny p = true <-> exists i, animated_at (fst s) i).
Proof.
  intros p s HR. unfold IsAnimatedAny. rewrite existsb_exists. split.
  - intros (a & Ha & Hc). apply (in_map proj) in Ha. pose proof Ha as Hb. rewrite (R_helpers _ _ HR) in Hb. unfold proj in Ha, Hb.
    apply helpers_bounds in Hb. rewrite <- (Z2Nat.id (element a)), Hc in Ha by lia. apply (R_in _ _ _ _ _ HR) in Ha as (x & Ha).
    exists (Z.to_nat (element a)), x, (aid a). exact Ha.
  - intros (i & x & h & H). assert (Hin : exists x, nth_error (fst s) i = Some (x, Some (h, true))) by eauto.
    apply (R_in _ _ _ _ _ HR) in Hin. apply in_map_iff in Hin as (a & Ea & Ha). exists a. split; auto. congruence.
Qed.

(** Every history in which no animation is evaluated and resize(count, value) does not shorten the list runs, leaves
    the values the history gives, and leaves helpers exactly at the values they were asked for - however the values
    have moved: asking again for the helper of a value returns the same one, and the value counts as animated
    exactly if its helper was given a curve.
    Missing for the full claim: shortening by resize(count, value), [C81_resize_refuted]. *)
Theorem C81_follow_partial : forall os s, changes (fun s o => grows s o /\ ~ evaluates o) no_slots os s ->
  exists p, run empty_param os = Some p /\ values p = map fst (fst s) /\
    (forall i h c, (exists x, nth_error (fst s) i = Some (x, Some (h, c))) <->
                   In (h, Z.of_nat i, c) (map (fun a => (aid a, element a, curve a)) (animateds p))) /\
    (forall a, In a (animateds p) -> (0 <= element a < Z.of_nat (length (fst s)))%Z) /\
    (forall i x h c, nth_error (fst s) i = Some (x, Some (h, c)) -> GetAnimated i p = Some (p, h)) /\
    (forall i, i < length (fst s) -> (IsAnimated i p = true <-> animated_at (fst s) i)) /\
    (IsAnimatedAny p = true <-> exists i, animated_at (fst s) i).
Proof.
  intros os s H. destruct (run_follow os empty_param no_slots s (proj1 empty_start) H) as (p & E & HI).
  pose proof (I_R _ _ HI) as HR. exists p. split; auto. split; [apply HR|]. split; [|split; [|split; [|split]]].
  - intros i h c. symmetry. now apply R_in.
  - intros a Ha. apply (in_map proj) in Ha. rewrite (R_helpers _ _ HR) in Ha. apply helpers_bounds in Ha. lia.
  - intros i x h c Hn. destruct s as (s, k). cbn [fst] in Hn. destruct (nth_error_split _ _ Hn) as (a & b & -> & <-). eapply helper_old_spec; eauto.
  - intros i Hi. now apply R_animated.
  - now apply R_any.
Qed.
Print Assumptions C81_follow_partial.

(** The history of the example: four values, helpers on the fourth and the second, a value put before them, a value
    removed between them, and growth by resize. *)
Definition C81_history : list op :=
  [PushBack 1; PushBack 2; PushBack 3; PushBack 4; GetHelper 3; GetHelper 1; Curve 1; PushFront 9; Erase 3; ResizeValue 6 7]%Z.
Example C81_demo : changes (fun s o => grows s o /\ ~ evaluates o) no_slots C81_history
    ([plain 9%Z; plain 1%Z; (Some 2%Z, Some (1, true)); (Some 4%Z, Some (0, false)); plain 7%Z; plain 7%Z], 2) /\
  match run empty_param C81_history with
  | Some p => map (fun a => (aid a, element a, curve a)) (animateds p) = [(1, 2%Z, true); (0, 3%Z, false)] /\
              GetAnimated 2 p = Some (p, 1) /\ map (fun i => IsAnimated i p) (seq 0 6) = [false; false; true; false; false; false]
  | None => False
  end.
Proof.
  split; [|vm_compute; repeat split].
  unfold C81_history, no_slots.
  eapply Cs_cons; [apply C_push_back|cbn; lia|cbn; tauto|]. eapply Cs_cons; [apply C_push_back|cbn; lia|cbn; tauto|].
  eapply Cs_cons; [apply C_push_back|cbn; lia|cbn; tauto|]. eapply Cs_cons; [apply C_push_back|cbn; lia|cbn; tauto|].
  eapply Cs_cons; [apply (C_helper_new [plain 1; plain 2; plain 3]%Z (Some 4%Z) [] 0)|cbn; lia|cbn; tauto|].
  eapply Cs_cons; [apply (C_helper_new [plain 1]%Z (Some 2%Z) [plain 3%Z; (Some 4%Z, Some (0, false))] 1)|cbn; lia|cbn; tauto|].
  eapply Cs_cons; [apply (C_curve [plain 1]%Z (Some 2%Z) 1 false [plain 3%Z; (Some 4%Z, Some (0, false))] 2)|cbn; lia|cbn; tauto|].
  eapply Cs_cons; [apply C_push_front|cbn; lia|cbn; tauto|].
  eapply Cs_cons; [apply (C_erase [plain 9%Z; plain 1%Z; (Some 2%Z, Some (1, true))] (plain 3%Z) [(Some 4%Z, Some (0, false))] 2)|cbn; lia|cbn; tauto|].
  eapply Cs_cons; [apply C_resize_value|cbn; lia|cbn; split; [lia|tauto]|]. apply Cs_nil.
Qed.

(** Shortening by resize(count, value) passes the (negative) difference as the start of the removed values and the
    old size as their number: the helper of a value that stays is lost, and with it its curve. *)
Theorem C81_resize_refuted : exists os s,
  changes (fun _ o => ~ evaluates o) no_slots os s /\ nth_error (fst s) 0 = Some (Some 1%Z, Some (0, true)) /\
  match run empty_param os with
  | Some p => values p = map fst (fst s) /\ IsAnimated 0 p = false /\ animateds p = []
  | None => False
  end.
Proof.
  exists [PushBack 1%Z; PushBack 2%Z; GetHelper 0; Curve 0; ResizeValue 1 0%Z], ([(Some 1%Z, Some (0, true))], 1).
  split; [|split; [reflexivity|vm_compute; repeat split]]. unfold no_slots.
  eapply Cs_cons; [apply C_push_back|cbn; lia|cbn; tauto|]. eapply Cs_cons; [apply C_push_back|cbn; lia|cbn; tauto|].
  eapply Cs_cons; [apply (C_helper_new [] (Some 1%Z) [plain 2%Z] 0)|cbn; lia|cbn; tauto|].
  eapply Cs_cons; [apply (C_curve [] (Some 1%Z) 0 false [plain 2%Z] 1)|cbn; lia|cbn; tauto|].
  eapply Cs_cons; [apply C_resize_value|cbn; lia|cbn; tauto|]. apply Cs_nil.
Qed.
Print Assumptions C81_resize_refuted.

(** ... and the helper of a value that goes may stay, with a negative place. *)
Theorem C81_resize_stale_refuted : exists os s,
  changes (fun _ o => ~ evaluates o) no_slots os s /\ (forall i x h c, nth_error (fst s) i <> Some (x, Some (h, c))) /\
  match run empty_param os with
  | Some p => values p = map fst (fst s) /\ map element (animateds p) = [(-1)%Z] /\ IsAnimatedAny p = true
  | None => False
  end.
Proof.
  exists [PushBack 1%Z; PushBack 2%Z; PushBack 3%Z; GetHelper 2; Curve 0; ResizeValue 2 0%Z], ([plain 1%Z; plain 2%Z], 1).
  split; [|split; [|vm_compute; repeat split]].
  - unfold no_slots.
    eapply Cs_cons; [apply C_push_back|cbn; lia|cbn; tauto|]. eapply Cs_cons; [apply C_push_back|cbn; lia|cbn; tauto|].
    eapply Cs_cons; [apply C_push_back|cbn; lia|cbn; tauto|].
    eapply Cs_cons; [apply (C_helper_new [plain 1%Z; plain 2%Z] (Some 3%Z) [] 0)|cbn; lia|cbn; tauto|].
    eapply Cs_cons; [apply (C_curve [plain 1%Z; plain 2%Z] (Some 3%Z) 0 false [] 1)|cbn; lia|cbn; tauto|].
    eapply Cs_cons; [apply C_resize_value|cbn; lia|cbn; tauto|]. apply Cs_nil.
  - intros [|[|[|i]]] x h c; unfold plain; cbn; try congruence; destruct i; discriminate.
Qed.
Print Assumptions C81_resize_stale_refuted.

(** Histories with evaluations at any point run and leave exactly the values the history gives - each evaluation
    changed the value whose helper was evaluated and no other - if resize(count, value) does not shorten the list and
    no insertion or removal leaves one value with a helper in place while it moves another.
    Missing for the full claim: such insertions and removals, [C82_evaluate_refuted] and [C82_erase_refuted]. *)
Theorem C82_evaluate_partial : forall os s, changes (fun s o => grows s o /\ calm s o) no_slots os s ->
  exists p, run empty_param os = Some p /\ values p = map fst (fst s) /\
    (forall i x h c, nth_error (fst s) i = Some (x, Some (h, c)) -> GetAnimated i p = Some (p, h)) /\
    (forall i x h v, nth_error (fst s) i = Some (x, Some (h, true)) ->
       exists p', Evaluate h v p = Some p' /\ nth_error (values p') i = Some (Some v) /\
                  forall j, j <> i -> nth_error (values p') j = nth_error (values p) j).
Proof.
  intros os s H. destruct empty_start as (H0 & H1). destruct (run_calm os empty_param no_slots s H0 H1 H) as (p & E & HI & Hr).
  pose proof (I_R _ _ HI) as HR. exists p. split; auto. split; [apply HR|]. split.
  - intros i x h c Hn. destruct s as (s, k). cbn [fst] in Hn. destruct (nth_error_split _ _ Hn) as (a & b & -> & <-). eapply helper_old_spec; eauto.
  - intros i x h v Hn. destruct s as (s, k). cbn [fst] in Hn. destruct (nth_error_split _ _ Hn) as (a & b & -> & <-).
    destruct (eval_spec p a x h b k v HI Hr) as (p' & E' & HI' & _). exists p'. split; auto.
    rewrite (R_values _ _ (I_R _ _ HI')), (R_values _ _ HR). cbn [fst]. rewrite !map_app. cbn [map fst]. split.
    + rewrite <- (map_length fst a), nth_error_app2, Nat.sub_diag by auto. reflexivity.
    + intros j Hj. destruct (Nat.lt_ge_cases j (length a)) as [Hl|Hl].
      * rewrite !nth_error_app1 by (rewrite map_length; auto). reflexivity.
      * rewrite !nth_error_app2 by (rewrite map_length; auto). rewrite map_length. destruct (j - length a) as [|n] eqn:En; [lia|]. reflexivity.
Qed.
Print Assumptions C82_evaluate_partial.

Definition C82_history : list op :=
  [PushBack 1; PushBack 2; PushBack 3; GetHelper 2; GetHelper 1; Curve 1; Curve 0; InsertList 1 [7; 8]; Eval 1 20; EraseRange 0 2; Eval 0 30]%Z.
Example C82_demo : changes (fun s o => grows s o /\ calm s o) no_slots C82_history
    ([plain 8%Z; (Some 20%Z, Some (1, true)); (Some 30%Z, Some (0, true))], 2) /\
  match run empty_param C82_history with
  | Some p => values p = [Some 8; Some 20; Some 30]%Z
  | None => False
  end.
Proof.
  split; [|vm_compute; repeat split].
  unfold C82_history, no_slots.
  eapply Cs_cons; [apply C_push_back|cbn; lia|cbn; tauto|]. eapply Cs_cons; [apply C_push_back|cbn; lia|cbn; tauto|].
  eapply Cs_cons; [apply C_push_back|cbn; lia|cbn; tauto|].
  eapply Cs_cons; [apply (C_helper_new [plain 1; plain 2]%Z (Some 3%Z) [] 0)|cbn; lia|cbn; tauto|].
  eapply Cs_cons; [apply (C_helper_new [plain 1]%Z (Some 2%Z) [(Some 3%Z, Some (0, false))] 1)|cbn; lia|cbn; tauto|].
  eapply Cs_cons; [apply (C_curve [plain 1]%Z (Some 2%Z) 1 false [(Some 3%Z, Some (0, false))] 2)|cbn; lia|cbn; tauto|].
  eapply Cs_cons; [apply (C_curve [plain 1%Z; (Some 2%Z, Some (1, true))] (Some 3%Z) 0 false [] 2)|cbn; lia|cbn; tauto|].
  eapply Cs_cons; [apply (C_insert_list [plain 1]%Z [(Some 2%Z, Some (1, true)); (Some 3%Z, Some (0, true))] 2 [7; 8]%Z)|cbn; lia|cbn; split; auto; left; repeat constructor|].
  eapply Cs_cons; [apply (C_eval [plain 1; plain 7; plain 8]%Z (Some 2%Z) 1 [(Some 3%Z, Some (0, true))] 2)|cbn; lia|cbn; tauto|].
  eapply Cs_cons; [apply (C_erase_range [] [plain 1; plain 7]%Z [plain 8%Z; (Some 20%Z, Some (1, true)); (Some 3%Z, Some (0, true))] 2)|cbn; lia|cbn; split; auto; left; constructor|].
  eapply Cs_cons; [apply (C_eval [plain 8%Z; (Some 20%Z, Some (1, true))] (Some 3%Z) 0 [] 2)|cbn; lia|cbn; tauto|]. apply Cs_nil.
Qed.

(** Whether the addresses in the helpers are still right is asked of the first helper only.  If the first animated
    value stays in place while a later one moves, the later helper goes on writing to the old place. *)
Theorem C82_evaluate_refuted : exists os s, changes grows no_slots os s /\ map fst (fst s) = [Some 1; Some 5; Some 20]%Z /\
  match run empty_param os with
  | Some p => values p = [Some 1; Some 20; Some 2]%Z
  | None => False
  end.
Proof.
  exists [PushBack 1; PushBack 2; GetHelper 0; GetHelper 1; Curve 1; Insert 1 5; Eval 1 20]%Z,
    ([(Some 1%Z, Some (0, false)); plain 5%Z; (Some 20%Z, Some (1, true))], 2).
  split; [|split; [reflexivity|vm_compute; repeat split]]. unfold no_slots.
  eapply Cs_cons; [apply C_push_back|cbn; lia|cbn; tauto|]. eapply Cs_cons; [apply C_push_back|cbn; lia|cbn; tauto|].
  eapply Cs_cons; [apply (C_helper_new [] (Some 1%Z) [plain 2%Z] 0)|cbn; lia|cbn; tauto|].
  eapply Cs_cons; [apply (C_helper_new [(Some 1%Z, Some (0, false))] (Some 2%Z) [] 1)|cbn; lia|cbn; tauto|].
  eapply Cs_cons; [apply (C_curve [(Some 1%Z, Some (0, false))] (Some 2%Z) 1 false [] 2)|cbn; lia|cbn; tauto|].
  eapply Cs_cons; [apply (C_insert [(Some 1%Z, Some (0, false))] [(Some 2%Z, Some (1, true))] 2 5%Z)|cbn; lia|cbn; tauto|].
  eapply Cs_cons; [apply (C_eval [(Some 1%Z, Some (0, false)); plain 5%Z] (Some 2%Z) 1 [] 2)|cbn; lia|cbn; tauto|]. apply Cs_nil.
Qed.
Print Assumptions C82_evaluate_refuted.

(** The same after a removal: the write goes behind the last value. *)
Theorem C82_erase_refuted : exists os s, changes grows no_slots os s /\ map fst (fst s) = [Some 1; Some 20]%Z /\ run empty_param os = None.
Proof.
  exists [PushBack 1; PushBack 5; PushBack 2; GetHelper 0; GetHelper 2; Curve 1; Erase 1; Eval 1 20]%Z,
    ([(Some 1%Z, Some (0, false)); (Some 20%Z, Some (1, true))], 2).
  split; [|split; [reflexivity|vm_compute; repeat split]]. unfold no_slots.
  eapply Cs_cons; [apply C_push_back|cbn; lia|cbn; tauto|]. eapply Cs_cons; [apply C_push_back|cbn; lia|cbn; tauto|].
  eapply Cs_cons; [apply C_push_back|cbn; lia|cbn; tauto|].
  eapply Cs_cons; [apply (C_helper_new [] (Some 1%Z) [plain 5%Z; plain 2%Z] 0)|cbn; lia|cbn; tauto|].
  eapply Cs_cons; [apply (C_helper_new [(Some 1%Z, Some (0, false)); plain 5%Z] (Some 2%Z) [] 1)|cbn; lia|cbn; tauto|].
  eapply Cs_cons; [apply (C_curve [(Some 1%Z, Some (0, false)); plain 5%Z] (Some 2%Z) 1 false [] 2)|cbn; lia|cbn; tauto|].
  eapply Cs_cons; [apply (C_erase [(Some 1%Z, Some (0, false))] (plain 5%Z) [(Some 2%Z, Some (1, true))] 2)|cbn; lia|cbn; tauto|].
  eapply Cs_cons; [apply (C_eval [(Some 1%Z, Some (0, false))] (Some 2%Z) 1 [] 2)|cbn; lia|cbn; tauto|]. apply Cs_nil.
Qed.
Print Assumptions C82_erase_refuted.
