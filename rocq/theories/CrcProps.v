(** Property C10: CRC32. *)
From Coq Require Import List NArith Bool Lia.
From Verif Require Import CrcModel CrcSpec.
Import ListNotations.
Local Open Scope N_scope.

Lemma shift_bit_div2 : forall c, shift_bit c = N.lxor (N.div2 c) (if N.odd c then 3988292384 else 0).
Proof. intro c. unfold shift_bit. rewrite N.div2_div. destruct (N.odd c); rewrite ?N.lxor_0_r; reflexivity. Qed.
Lemma div2_lxor : forall a b, N.div2 (N.lxor a b) = N.lxor (N.div2 a) (N.div2 b).
Proof. intros. rewrite !N.div2_spec. apply N.shiftr_lxor. Qed.
Lemma odd_lxor : forall a b, N.odd (N.lxor a b) = xorb (N.odd a) (N.odd b).
Proof. intros. rewrite <- !N.bit0_odd. apply N.lxor_spec. Qed.

Lemma shift_bit_lxor : forall a b, shift_bit (N.lxor a b) = N.lxor (shift_bit a) (shift_bit b).
Proof.
  intros a b. rewrite !shift_bit_div2, div2_lxor, odd_lxor.
  set (x := N.div2 a). set (y := N.div2 b). generalize 3988292384; intro k.
  destruct (N.odd a), (N.odd b); cbn [xorb]; rewrite ?N.lxor_0_r.
  - rewrite N.lxor_assoc, (N.lxor_comm k), N.lxor_assoc, N.lxor_nilpotent, N.lxor_0_r. reflexivity.
  - rewrite !N.lxor_assoc, (N.lxor_comm k). reflexivity.
  - rewrite N.lxor_assoc. reflexivity.
  - reflexivity.
Qed.
Lemma shift_bit_double : forall n, shift_bit (2 * n) = n.
Proof.
  intro n. rewrite shift_bit_div2. rewrite N.odd_mul. cbn [N.odd andb]. rewrite N.lxor_0_r, N.div2_double. reflexivity.
Qed.

Definition shift8 (c : N) : N :=
  shift_bit (shift_bit (shift_bit (shift_bit (shift_bit (shift_bit (shift_bit (shift_bit c))))))).
Lemma shift8_lxor : forall a b, shift8 (N.lxor a b) = N.lxor (shift8 a) (shift8 b).
Proof. intros. unfold shift8. rewrite !shift_bit_lxor. reflexivity. Qed.
Lemma shift8_high : forall n, shift8 (256 * n) = n.
Proof.
  intro n. unfold shift8.
  replace (256 * n) with (2 * (2 * (2 * (2 * (2 * (2 * (2 * (2 * n)))))))) by lia.
  rewrite !shift_bit_double. reflexivity.
Qed.

Definition ns (k : nat) : list N := map N.of_nat (seq 0 k).
Lemma in_ns : forall k v, v < N.of_nat k -> In v (ns k).
Proof.
  intros k v H. unfold ns. apply in_map_iff. exists (N.to_nat v). split; [lia|]. apply in_seq. lia.
Qed.

Lemma table_spec : forall i, i < 256 -> nth (N.to_nat i) kCRCTable 0 = shift8 i.
Proof.
  intros i Hi.
  assert (E : forallb (fun i => nth (N.to_nat i) kCRCTable 0 =? shift8 i) (ns 256) = true)
    by (vm_compute; reflexivity).
  rewrite forallb_forall in E. apply N.eqb_eq, E, in_ns. lia.
Qed.

Lemma split8 : forall c, c = N.lxor (256 * N.shiftr c 8) (N.land c 255).
Proof.
  intro c. apply N.bits_inj. intro n. rewrite N.lxor_spec. change 256 with (2 ^ 8).
  rewrite N.mul_comm. change 255 with (N.ones 8). rewrite N.land_ones.
  destruct (N.lt_ge_cases n 8).
  - rewrite N.mul_pow2_bits_low by auto. rewrite N.mod_pow2_bits_low by auto.
    destruct (N.testbit c n); reflexivity.
  - rewrite N.mul_pow2_bits_high by auto. rewrite N.shiftr_spec' by lia. rewrite N.mod_pow2_bits_high by auto.
    rewrite N.sub_add by auto. rewrite xorb_false_r. reflexivity.
Qed.

Lemma index_lt : forall c b, b < 256 -> N.lxor (N.land c 255) b < 256.
Proof.
  intros c b Hb. change 255 with (N.ones 8). rewrite N.land_ones.
  assert (c mod 2 ^ 8 < 2 ^ 8) by (apply N.mod_lt; discriminate).
  set (x := c mod 2 ^ 8) in *. destruct (N.eq_dec (N.lxor x b) 0) as [->|Hz]; [reflexivity|].
  change 256 with (2 ^ 8) in *. apply N.log2_lt_pow2; [lia|].
  eapply N.le_lt_trans; [apply N.log2_lxor|].
  apply N.max_lub_lt.
  - destruct (N.eq_dec x 0) as [->|]; [reflexivity|]. apply N.log2_lt_pow2; lia.
  - destruct (N.eq_dec b 0) as [->|]; [reflexivity|]. apply N.log2_lt_pow2; lia.
Qed.

Lemma step_spec : forall c b, b < 256 -> crc_step c b = feed c b.
Proof.
  intros c b Hb. unfold crc_step. rewrite table_spec by (apply index_lt; auto).
  change (feed c b) with (shift8 (N.lxor c b)).
  assert (E : N.lxor c b = N.lxor (256 * N.shiftr c 8) (N.lxor (N.land c 255) b))
    by (rewrite <- N.lxor_assoc, <- split8; reflexivity).
  rewrite E, (shift8_lxor (256 * _)), shift8_high. reflexivity.
Qed.

(** The table-driven code computes the standard CRC-32 of every string. *)
Theorem C10_crc_is_standard : forall s, Forall (fun b => b < 256) s -> CRC32 s = crc32 s.
Proof.
  intros s H. unfold CRC32, crc32. change (2 ^ 32 - 1) with 4294967295. f_equal.
  generalize 4294967295. induction H as [|b s Hb H IH]; intro c; [reflexivity|].
  cbn [fold_left]. rewrite step_spec by auto. apply IH.
Qed.
Print Assumptions C10_crc_is_standard.
(** The published check value of this CRC. *)
Example C10_demo : CRC32 [49; 50; 51; 52; 53; 54; 55; 56; 57] = 3421780262.
Proof. reflexivity. Qed.

(** Injectivity of a step on 32-bit values. *)
Lemma shift_bit_lt : forall c, c < 2 ^ 32 -> shift_bit c < 2 ^ 32.
Proof.
  intros c H. rewrite shift_bit_div2.
  destruct (N.eq_dec (N.lxor (N.div2 c) (if N.odd c then 3988292384 else 0)) 0) as [->|Hz]; [reflexivity|].
  apply N.log2_lt_pow2; [lia|]. eapply N.le_lt_trans; [apply N.log2_lxor|]. apply N.max_lub_lt.
  - destruct (N.eq_dec (N.div2 c) 0) as [->|]; [reflexivity|]. apply N.log2_lt_pow2; [apply N.neq_0_lt_0; assumption|].
    rewrite N.div2_div. apply N.div_lt_upper_bound; [lia|]. apply (N.lt_le_trans _ _ _ H). lia.
  - destruct (N.odd c); reflexivity.
Qed.
Lemma shift_bit_zero : forall c, c < 2 ^ 32 -> shift_bit c = 0 -> c = 0.
Proof.
  intros c H E. rewrite shift_bit_div2 in E. apply N.lxor_eq in E. rewrite N.div2_div in E.
  destruct (N.odd c) eqn:Ho.
  - exfalso. assert (c / 2 < 2147483648) by (apply N.div_lt_upper_bound; lia). lia.
  - rewrite <- N.negb_even in Ho. apply negb_false_iff in Ho. apply N.even_spec in Ho. destruct Ho as (k & ->).
    rewrite N.mul_comm, N.div_mul in E by lia. lia.
Qed.
Lemma lxor_lt : forall a b, a < 2 ^ 32 -> b < 2 ^ 32 -> N.lxor a b < 2 ^ 32.
Proof.
  intros a b Ha Hb. destruct (N.eq_dec (N.lxor a b) 0) as [->|Hz]; [reflexivity|].
  apply N.log2_lt_pow2; [lia|]. eapply N.le_lt_trans; [apply N.log2_lxor|]. apply N.max_lub_lt.
  - destruct (N.eq_dec a 0) as [->|]; [reflexivity|]. apply N.log2_lt_pow2; lia.
  - destruct (N.eq_dec b 0) as [->|]; [reflexivity|]. apply N.log2_lt_pow2; lia.
Qed.
Lemma shift8_lt : forall c, c < 2 ^ 32 -> shift8 c < 2 ^ 32.
Proof. intros c H. unfold shift8. do 8 apply shift_bit_lt. exact H. Qed.
Lemma shift8_zero : forall c, c < 2 ^ 32 -> shift8 c = 0 -> c = 0.
Proof.
  intros c H E. unfold shift8 in E. do 8 (apply shift_bit_zero in E; [|repeat apply shift_bit_lt; exact H]). exact E.
Qed.
Lemma shift8_inj : forall a b, a < 2 ^ 32 -> b < 2 ^ 32 -> shift8 a = shift8 b -> a = b.
Proof.
  intros a b Ha Hb E. apply N.lxor_eq. apply shift8_zero; [apply lxor_lt; auto|].
  rewrite shift8_lxor, E, N.lxor_nilpotent. reflexivity.
Qed.
Lemma lxor_cancel_l : forall c a b, N.lxor c a = N.lxor c b -> a = b.
Proof.
  intros c a b E. apply (f_equal (N.lxor c)) in E. rewrite <- !N.lxor_assoc, N.lxor_nilpotent, !N.lxor_0_l in E. exact E.
Qed.
Lemma lxor_cancel_r : forall c a b, N.lxor a c = N.lxor b c -> a = b.
Proof. intros c a b. rewrite !(N.lxor_comm _ c). apply lxor_cancel_l. Qed.

Lemma feeds_lt : forall s c, Forall (fun b => b < 256) s -> c < 2 ^ 32 -> fold_left feed s c < 2 ^ 32.
Proof.
  induction s as [|b s IH]; intros c Hs Hc; auto. inversion Hs; subst. cbn [fold_left]. apply IH; auto.
  apply shift8_lt, lxor_lt; auto. lia.
Qed.
Lemma feeds_inj : forall s c d, Forall (fun b => b < 256) s -> c < 2 ^ 32 -> d < 2 ^ 32 ->
  fold_left feed s c = fold_left feed s d -> c = d.
Proof.
  induction s as [|b s IH]; intros c d Hs Hc Hd E; auto. inversion Hs; subst. cbn [fold_left] in E.
  assert (b < 2 ^ 32) by lia.
  apply IH in E; auto; try (apply shift8_lt, lxor_lt; auto).
  apply shift8_inj in E; try (apply lxor_lt; auto). apply lxor_cancel_r in E. exact E.
Qed.

(** Any change of a single byte changes the CRC. *)
Theorem C10_single_byte_change : forall pre x y post, Forall (fun b => b < 256) (pre ++ [x; y] ++ post) ->
  x <> y -> CRC32 (pre ++ x :: post) <> CRC32 (pre ++ y :: post).
Proof.
  intros pre x y post H Hxy E. apply Forall_app in H. destruct H as (H1 & H2).
  inversion H2 as [|? ? Hx H3]; subst. inversion H3 as [|? ? Hy H4]; subst.
  rewrite !C10_crc_is_standard in E by (apply Forall_app; auto).
  unfold crc32 in E. apply lxor_cancel_r in E. rewrite !fold_left_app in E. cbn [fold_left] in E.
  set (c := fold_left feed pre (2 ^ 32 - 1)) in *.
  assert (Hc : c < 2 ^ 32) by (apply feeds_lt; auto; reflexivity).
  apply feeds_inj in E; auto; try (apply shift8_lt, lxor_lt; auto; lia).
  apply shift8_inj in E; try (apply lxor_lt; auto; lia). apply lxor_cancel_l in E. auto.
Qed.
Print Assumptions C10_single_byte_change.
Example C10_demo_change : CRC32 [97; 98; 99] <> CRC32 [97; 98; 100].
Proof. apply (C10_single_byte_change [97; 98] 99 100 []); [repeat constructor; lia|discriminate]. Qed.

(** The bytes of a string as one number, least significant first. *)
Fixpoint word (s : list N) : N := match s with [] => 0 | b :: s' => N.lxor b (256 * word s') end.
Fixpoint shifts (k : nat) (c : N) : N := match k with O => c | S k' => shifts k' (shift8 c) end.
Lemma feeds_word : forall s c, fold_left feed s c = shifts (length s) (N.lxor c (word s)).
Proof.
  induction s as [|b s IH]; intro c; cbn [fold_left length shifts word]; [rewrite N.lxor_0_r; reflexivity|].
  rewrite IH. f_equal. change (feed c b) with (shift8 (N.lxor c b)).
  rewrite <- N.lxor_assoc, (shift8_lxor _ (256 * _)), shift8_high. reflexivity.
Qed.
Lemma shifts_inj : forall k a b, a < 2 ^ 32 -> b < 2 ^ 32 -> shifts k a = shifts k b -> a = b.
Proof.
  induction k as [|k IH]; intros a b Ha Hb E; auto. cbn [shifts] in E.
  apply IH in E; auto using shift8_lt. apply shift8_inj; auto.
Qed.
Lemma lxor_low : forall b w, b < 256 -> N.lxor b (256 * w) = b + 256 * w.
Proof.
  intros b w Hb. symmetry. apply N.add_nocarry_lxor. apply N.bits_inj. intro n.
  rewrite N.land_spec, N.bits_0. change 256 with (2 ^ 8). rewrite N.mul_comm.
  destruct (N.lt_ge_cases n 8).
  - rewrite N.mul_pow2_bits_low by auto. apply andb_false_r.
  - destruct (N.eq_dec b 0) as [->|Hz]; [reflexivity|].
    rewrite N.bits_above_log2; [reflexivity|]. eapply N.lt_le_trans; [|eassumption].
    apply N.log2_lt_pow2; [lia|exact Hb].
Qed.
Lemma word_lt : forall s, Forall (fun b => b < 256) s -> word s < 256 ^ N.of_nat (length s).
Proof.
  intros s H. induction H as [|b s Hb H IH]; [reflexivity|]. cbn [word length]. rewrite lxor_low by auto.
  rewrite Nat2N.inj_succ, N.pow_succ_r'. nia.
Qed.
Lemma word_inj : forall xs ys, Forall (fun b => b < 256) xs -> Forall (fun b => b < 256) ys ->
  length xs = length ys -> word xs = word ys -> xs = ys.
Proof.
  induction xs as [|x xs IH]; intros [|y ys] Hx Hy Hl E; cbn in Hl; try discriminate; auto.
  inversion Hx; subst. inversion Hy; subst. cbn [word] in E. rewrite !lxor_low in E by auto.
  assert (x = y /\ word xs = word ys) as (-> & Ew) by lia. f_equal. apply IH; auto.
Qed.

(** Any change confined to four consecutive bytes changes the CRC. *)
Theorem C10_burst_change : forall pre xs ys post, Forall (fun b => b < 256) (pre ++ xs ++ ys ++ post) ->
  length xs = length ys -> (length xs <= 4)%nat -> xs <> ys ->
  CRC32 (pre ++ xs ++ post) <> CRC32 (pre ++ ys ++ post).
Proof.
  intros pre xs ys post H Hl H4 Hxy E. apply Forall_app in H. destruct H as (H1 & H).
  apply Forall_app in H. destruct H as (Hx & H). apply Forall_app in H. destruct H as (Hy & Hp).
  rewrite !C10_crc_is_standard in E by (repeat (apply Forall_app; split); auto).
  unfold crc32 in E. apply lxor_cancel_r in E. rewrite !fold_left_app in E.
  set (c := fold_left feed pre (2 ^ 32 - 1)) in *.
  assert (Hc : c < 2 ^ 32) by (apply feeds_lt; auto; reflexivity).
  apply feeds_inj in E; auto; try (apply feeds_lt; auto).
  rewrite !feeds_word, Hl in E.
  assert (Hw : forall s, Forall (fun b => b < 256) s -> (length s <= 4)%nat -> word s < 2 ^ 32).
  { intros s Hs Hn. eapply N.lt_le_trans; [apply word_lt, Hs|].
    change (2 ^ 32) with (256 ^ 4). apply N.pow_le_mono_r; lia. }
  apply shifts_inj in E; try (apply lxor_lt; auto). 2:{ apply Hw; auto. lia. }
  apply lxor_cancel_l in E. apply Hxy, word_inj; auto.
Qed.
Print Assumptions C10_burst_change.
Example C10_demo_burst : CRC32 [104; 101; 108; 108; 111] <> CRC32 [104; 97; 109; 108; 33].
Proof. apply (C10_burst_change [104] [101; 108; 108; 111] [97; 109; 108; 33] []); [repeat constructor; lia|reflexivity|cbn; lia|discriminate]. Qed.
