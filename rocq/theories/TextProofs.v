(** Lemmas about the text/number conversions. *)
From Coq Require Import List ZArith Bool Lia.
From Verif Require Import TextModel TextSpec.
Import ListNotations.
Local Open Scope Z_scope.

Ltac bools := repeat
  match goal with
  | H : _ && _ = true |- _ => apply andb_true_iff in H; destruct H
  | H : _ || _ = false |- _ => apply orb_false_iff in H; destruct H
  | H : _ || _ = true |- _ => apply orb_true_iff in H; destruct H
  | H : negb _ = true |- _ => apply negb_true_iff in H
  | H : negb _ = false |- _ => apply negb_false_iff in H
  | H : (_ <=? _) = true |- _ => apply Z.leb_le in H
  | H : (_ <=? _) = false |- _ => apply Z.leb_gt in H
  | H : (_ <? _) = true |- _ => apply Z.ltb_lt in H
  | H : (_ <? _) = false |- _ => apply Z.ltb_ge in H
  | H : (_ =? _) = true |- _ => apply Z.eqb_eq in H
  | H : (_ =? _) = false |- _ => apply Z.eqb_neq in H
  end.

Lemma digit_range : forall c, digit c = true <-> 48 <= c <= 57.
Proof. intro c. unfold digit. rewrite andb_true_iff, !Z.leb_le. lia. Qed.

Lemma digit_not_ws : forall c, digit c = true -> ws4 c = false /\ ws3 c = false.
Proof.
  intros c H. apply digit_range in H. unfold ws4, ws3.
  repeat (rewrite (proj2 (Z.eqb_neq _ _)) by lia). auto.
Qed.

Lemma ws3_ws4 : forall c, ws3 c = true -> ws4 c = true.
Proof. intros c H. unfold ws3, ws4 in *. destruct (c =? 32), (c =? 9), (c =? 13), (c =? 10); auto. Qed.

(** *** skip_while *)
Lemma skip_app : forall p a b, Forall (fun c => p c = true) a -> skip_while p (a ++ b) = skip_while p b.
Proof. induction 1 as [|c a H _ IH]; cbn; auto. rewrite H. auto. Qed.

Definition stops (p : Z -> bool) (s : list Z) : Prop :=
  match s with [] => True | c :: _ => p c = false end.

Lemma skip_stop : forall p s, stops p s -> skip_while p s = s.
Proof. intros p [|c s] H; cbn in *; auto. rewrite H. auto. Qed.
Lemma skip_stops : forall p s, stops p (skip_while p s).
Proof. induction s as [|c s IH]; cbn; auto. destruct (p c) eqn:E; cbn; auto. Qed.
Lemma skip_split : forall p s, exists a, s = a ++ skip_while p s /\ Forall (fun c => p c = true) a.
Proof.
  induction s as [|c s IH]; cbn; [exists []; auto|]. destruct (p c) eqn:E.
  - destruct IH as (a & Ha & Hf). exists (c :: a). cbn. split; [congruence|auto].
  - exists []. auto.
Qed.
Lemma skip_length : forall p s, (length (skip_while p s) <= length s)%nat.
Proof. induction s as [|c s IH]; cbn; auto. destruct (p c); cbn; lia. Qed.

(** *** Value of a digit string *)
Definition value_from (v : Z) (ds : list Z) : Z := fold_left (fun v c => v * 10 + (c - 48)) ds v.

Lemma value_mono : forall ds v, Forall (fun c => digit c = true) ds -> 0 <= v -> v <= value_from v ds.
Proof.
  induction ds as [|c ds IH]; intros v Hd Hv; cbn; [unfold value_from; cbn; lia|].
  inversion Hd; subst. apply digit_range in H1. unfold value_from in *. cbn.
  specialize (IH (v * 10 + (c - 48)) H2). lia.
Qed.

Lemma value_zeros : forall k ds, value_from 0 (repeat 48 k ++ ds) = value_from 0 ds.
Proof. induction k as [|k IH]; intro ds; [reflexivity|]. exact (IH ds). Qed.

Lemma value_app1 : forall ds v c, value_from v (ds ++ [c]) = value_from v ds * 10 + (c - 48).
Proof. intros. unfold value_from. rewrite fold_left_app. reflexivity. Qed.

Lemma dec_digits_spec : forall fuel n acc, 0 <= n < 2 ^ Z.of_nat fuel -> (0 < fuel)%nat ->
  exists ds, dec_digits fuel n acc = ds ++ acc /\ ds <> [] /\
    Forall (fun c => digit c = true) ds /\ value_from 0 ds = n.
Proof.
  induction fuel as [|f IH]; intros n acc Hn Hf; [lia|]. cbn [dec_digits].
  destruct (Z.ltb_spec n 10) as [H10|H10].
  - exists [48 + n]. split; [reflexivity|]. split; [discriminate|]. split.
    + constructor; auto. apply digit_range. lia.
    + unfold value_from; cbn [fold_left]. lia.
  - assert (H2 : 2 ^ Z.of_nat (S f) = 2 * 2 ^ Z.of_nat f)
      by (rewrite Nat2Z.inj_succ, Z.pow_succ_r; lia).
    assert (Hq : 0 <= n / 10 < 2 ^ Z.of_nat f).
    { split; [apply Z.div_pos; lia|]. apply Z.div_lt_upper_bound; lia. }
    assert (Hf2 : (0 < f)%nat).
    { destruct f; [|lia]. cbn in Hn. lia. }
    destruct (IH (n / 10) ((48 + n mod 10) :: acc) Hq Hf2) as (ds & E & Hne & Hd & Hv).
    exists (ds ++ [48 + n mod 10]). split; [rewrite E, <- app_assoc; reflexivity|].
    split; [destruct ds; discriminate|]. pose proof (Z.mod_pos_bound n 10 ltac:(lia)). split.
    + apply Forall_app. split; auto. constructor; auto. apply digit_range. lia.
    + rewrite value_app1, Hv. pose proof (Z.div_mod n 10 ltac:(lia)). lia.
Qed.

Lemma dec_spec : forall n, 0 <= n ->
  dec n <> [] /\ Forall (fun c => digit c = true) (dec n) /\ value_from 0 (dec n) = n.
Proof.
  intros n Hn. unfold dec.
  destruct (dec_digits_spec (S (Z.to_nat (Z.log2 n))) n []) as (ds & E & H); [|lia|].
  - split; [lia|]. rewrite Nat2Z.inj_succ, Z2Nat.id by apply Z.log2_nonneg.
    destruct (Z.eq_dec n 0) as [->|]; [reflexivity|]. apply Z.log2_spec. lia.
  - rewrite E, app_nil_r. exact H.
Qed.

Lemma dec_head : forall n, 0 <= n -> exists c t, dec n = c :: t /\ digit c = true.
Proof.
  intros n Hn. destruct (dec_spec n Hn) as (H1 & H2 & _). destruct (dec n) as [|c t]; [congruence|].
  inversion H2; subst. eauto.
Qed.

(** *** Unsigned reader *)
Lemma uint_digits_spec : forall ds rest v, Forall (fun c => digit c = true) ds -> stops digit rest ->
  0 <= v -> value_from v ds < 4294967296 ->
  uint_digits v (ds ++ rest) = (value_from v ds, rest).
Proof.
  induction ds as [|c ds IH]; intros rest v Hd Hs Hv Hb.
  - cbn. destruct rest as [|c rest]; cbn; auto. cbn in Hs. rewrite Hs. reflexivity.
  - inversion Hd; subst. cbn. rewrite H1. apply digit_range in H1.
    assert (E : u32 (v * 10 + c - 48) = v * 10 + (c - 48)).
    { unfold u32. rewrite Z.mod_small; [lia|].
      pose proof (value_mono ds (v * 10 + (c - 48)) H2 ltac:(lia)).
      unfold value_from in *. cbn in Hb. lia. }
    rewrite E. rewrite IH; auto; lia.
Qed.

Definition after (s : list Z) : list Z := skip_while ws3 (skip_while (fun c => negb (ws3 c)) s).

Lemma after_blanks : forall bl rest, Forall (fun c => ws3 c = true) bl -> stops ws3 rest ->
  (bl = [] -> rest = []) -> after (bl ++ rest) = rest.
Proof.
  intros bl rest Hb Hr He. unfold after.
  rewrite (skip_stop (fun c => negb (ws3 c))).
  - rewrite skip_app by auto. apply skip_stop; auto.
  - destruct bl as [|b bl]; cbn; [rewrite He; cbn; auto|].
    inversion Hb; subst. rewrite H1. reflexivity.
Qed.

Lemma to_uint32_spec : forall lead ds tail, Forall (fun c => ws4 c = true) lead ->
  ds <> [] -> Forall (fun c => digit c = true) ds -> stops digit tail ->
  value_from 0 ds < 4294967296 ->
  ToUInt32 (lead ++ ds ++ tail) = (value_from 0 ds, after tail).
Proof.
  intros lead ds tail Hl Hne Hd Hs Hv. unfold ToUInt32.
  destruct (lead ++ ds ++ tail) eqn:E.
  - destruct lead; [destruct ds; [congruence|discriminate]|discriminate].
  - rewrite <- E. rewrite skip_app by auto.
    rewrite (skip_stop ws4).
    + rewrite uint_digits_spec by (auto; lia). reflexivity.
    + destruct ds as [|d ds]; [congruence|]. cbn. inversion Hd; subst.
      apply digit_not_ws in H1. apply H1.
Qed.

(** *** Signed reader *)
Lemma in_int32_iff : forall z, in_int32 z = true <-> -2147483648 <= z <= 2147483647.
Proof. intro z. unfold in_int32. rewrite andb_true_iff, !Z.leb_le. reflexivity. Qed.

Lemma norm_strict : forall z, -2147483648 <= z <= 2147483647 -> norm Strict z = Some z.
Proof. intros z H. cbn. apply in_int32_iff in H. rewrite H. reflexivity. Qed.

Lemma s32_id : forall z, -2147483648 <= z <= 2147483647 -> s32 z = z.
Proof. intros z H. unfold s32. rewrite Z.mod_small; lia. Qed.
Lemma s32_form : forall z, exists k, s32 z = z - 4294967296 * k.
Proof.
  intro z. exists ((z + 2147483648) / 4294967296). unfold s32.
  pose proof (Z.div_mod (z + 2147483648) 4294967296 ltac:(lia)). lia.
Qed.
Lemma s32_shift : forall z k, s32 (z - 4294967296 * k) = s32 z.
Proof.
  intros z k. unfold s32. replace (z - 4294967296 * k + 2147483648)
    with (z + 2147483648 + (- k) * 4294967296) by lia.
  rewrite Z_mod_plus_full. reflexivity.
Qed.
Lemma s32_lin : forall a b c, s32 (s32 a * b + c) = s32 (a * b + c).
Proof.
  intros a b c. destruct (s32_form a) as (k & ->).
  replace ((a - 4294967296 * k) * b + c) with (a * b + c - 4294967296 * (k * b)) by lia.
  apply s32_shift.
Qed.
Lemma s32_idem_add : forall a c, s32 (s32 a + c) = s32 (a + c).
Proof. intros a c. pose proof (s32_lin a 1 c) as H. rewrite !Z.mul_1_r in H. exact H. Qed.

Lemma int_step_wrap : forall v c, int_step Wrapping v c = Some (s32 (v * 10 + (c - 48))).
Proof.
  intros v c. unfold int_step, norm. rewrite s32_idem_add.
  f_equal. replace (s32 (v * 10 + c) - 48) with (s32 (v * 10 + c) + -48) by lia.
  rewrite s32_idem_add. f_equal. lia.
Qed.

Lemma int_digits_wrap : forall ds rest v, Forall (fun c => digit c = true) ds -> stops digit rest ->
  int_digits Wrapping (s32 v) (ds ++ rest) = Some (s32 (value_from v ds), rest).
Proof.
  induction ds as [|c ds IH]; intros rest v Hd Hs.
  - cbn. destruct rest as [|c rest]; cbn; auto. cbn in Hs. rewrite Hs. reflexivity.
  - inversion Hd; subst. cbn [app int_digits]. rewrite H1, int_step_wrap.
    rewrite s32_lin. rewrite IH by auto. reflexivity.
Qed.

Lemma int_digits_strict : forall ds rest v, Forall (fun c => digit c = true) ds -> stops digit rest ->
  0 <= v -> value_from v ds <= 2147483599 ->
  int_digits Strict v (ds ++ rest) = Some (value_from v ds, rest).
Proof.
  induction ds as [|c ds IH]; intros rest v Hd Hs Hv Hb.
  - cbn. destruct rest as [|c rest]; cbn; auto. cbn in Hs. rewrite Hs. reflexivity.
  - inversion Hd; subst. cbn [app int_digits]. rewrite H1. apply digit_range in H1.
    pose proof (value_mono ds (v * 10 + (c - 48)) H2 ltac:(lia)) as Hm.
    change (value_from v (c :: ds)) with (value_from (v * 10 + (c - 48)) ds) in *.
    unfold int_step. rewrite !norm_strict by lia.
    replace (v * 10 + c - 48) with (v * 10 + (c - 48)) by lia.
    apply IH; auto; lia.
Qed.

Lemma append_i32_cases : forall n, exists ds, ds <> [] /\ Forall (fun c => digit c = true) ds /\
  value_from 0 ds = Z.abs n /\ append_i32 n = (if n <? 0 then [45] else []) ++ ds.
Proof.
  intro n. exists (dec (Z.abs n)). destruct (dec_spec (Z.abs n) ltac:(lia)) as (H1 & H2 & H3).
  repeat split; auto. unfold append_i32. destruct (Z.ltb_spec n 0).
  - replace (Z.abs n) with (- n) by lia. reflexivity.
  - replace (Z.abs n) with n by lia. reflexivity.
Qed.

Lemma to_int32_spec : forall a lead n tail, Forall (fun c => ws4 c = true) lead ->
  stops digit tail -> -2147483648 <= n <= 2147483647 ->
  (a = Strict -> -2147483599 <= n <= 2147483599) ->
  ToInt32 a (lead ++ append_i32 n ++ tail) = Some (n, after tail).
Proof.
  intros a lead n tail Hl Hs Hn Ha. unfold ToInt32.
  rewrite skip_app by auto.
  destruct (append_i32_cases n) as (ds & Hne & Hd & Hv & E). rewrite E.
  assert (Hds : exists c t, ds = c :: t /\ digit c = true /\ c <> 45).
  { destruct ds as [|c t]; [congruence|]. inversion Hd; subst. exists c, t.
    repeat split; auto. apply digit_range in H1. lia. }
  rewrite (skip_stop ws4).
  2:{ destruct (n <? 0); cbn; auto. destruct Hds as (c & t & -> & Hc & _). cbn.
      apply digit_not_ws in Hc. apply Hc. }
  assert (Hdig : int_digits a 0 (ds ++ tail) = Some (match a with Strict => Z.abs n
                                                             | Wrapping => s32 (Z.abs n) end, tail)).
  { destruct a.
    - rewrite int_digits_strict; auto; try lia. rewrite Hv; auto. rewrite Hv. specialize (Ha eq_refl). lia.
    - change 0 with (s32 0) at 1. rewrite int_digits_wrap by auto. rewrite Hv. reflexivity. }
  destruct (Z.ltb_spec n 0) as [Hneg|Hpos].
  - cbn [app]. change (45 =? 45) with true. cbn iota. rewrite Hdig.
    destruct a.
    + rewrite norm_strict by lia. replace (Z.abs n * -1) with n by lia. reflexivity.
    + cbn [norm]. pose proof (s32_lin (Z.abs n) (-1) 0) as H. rewrite !Z.add_0_r in H. rewrite H.
      rewrite s32_id by lia. replace (Z.abs n * -1) with n by lia. reflexivity.
  - cbn [app]. destruct Hds as (c & t & Eds & Hc & H45). rewrite Eds in *. cbn [app].
    rewrite (proj2 (Z.eqb_neq c 45)) by auto.
    change (c :: t ++ tail) with ((c :: t) ++ tail). rewrite Hdig.
    destruct a.
    + rewrite norm_strict by lia. replace (Z.abs n * 1) with n by lia. reflexivity.
    + cbn [norm]. rewrite Z.mul_1_r. rewrite s32_id by (rewrite s32_id; lia).
      rewrite s32_id by lia. replace (Z.abs n) with n by lia. reflexivity.
Qed.

(** Every value within 48 of the end of the int32 range overflows in the intermediate
    [val * 10 + c]. *)
Lemma to_int32_strict_overflow : forall n, 2147483600 <= Z.abs n <= 2147483648 ->
  ToInt32 Strict (append_i32 n) = None.
Proof.
  assert (H : forallb (fun k => match ToInt32 Strict (append_i32 (2147483600 + k)),
       ToInt32 Strict (append_i32 (- (2147483600 + k))) with None, None => true | _, _ => false end)
       (map Z.of_nat (seq 0 49)) = true) by (vm_compute; reflexivity).
  rewrite forallb_forall in H. intros n Hn.
  specialize (H (Z.abs n - 2147483600)).
  assert (Hin : In (Z.abs n - 2147483600) (map Z.of_nat (seq 0 49))).
  { apply in_map_iff. exists (Z.to_nat (Z.abs n - 2147483600)). split; [apply Z2Nat.id; lia|].
    apply in_seq. lia. }
  apply H in Hin. replace (2147483600 + (Z.abs n - 2147483600)) with (Z.abs n) in Hin by lia.
  destruct (Z.abs_eq_or_opp n) as [E|E]; rewrite E in Hin.
  - destruct (ToInt32 Strict (append_i32 n)); [discriminate|reflexivity].
  - replace (- - n) with n in Hin by lia.
    destruct (ToInt32 Strict (append_i32 (- n))); [discriminate|].
    destruct (ToInt32 Strict (append_i32 n)); [discriminate|reflexivity].
Qed.

(** *** Hexadecimal *)
(** Specification: [w] hexadecimal digits of [n], most significant first. *)
Fixpoint hex_text (w : nat) (n : Z) : list Z :=
  match w with
  | O => []
  | S k => hex_text k (n / 16) ++ [hex_char (n mod 16)]
  end.

Lemma hex_char_val : forall d, 0 <= d < 16 -> hex_val (hex_char d) = Some d.
Proof.
  intros d H. assert (Hc : d = 0 \/ d = 1 \/ d = 2 \/ d = 3 \/ d = 4 \/ d = 5 \/ d = 6 \/ d = 7 \/
    d = 8 \/ d = 9 \/ d = 10 \/ d = 11 \/ d = 12 \/ d = 13 \/ d = 14 \/ d = 15) by lia.
  repeat (destruct Hc as [->|Hc]; [reflexivity|]). subst. reflexivity.
Qed.
Lemma hex_char_not_x : forall d, 0 <= d < 16 -> hex_char d <> 120 /\ hex_char d <> 88.
Proof. intros d H. unfold hex_char. destruct (Z.leb_spec d 9); lia. Qed.

Definition hex_fold (v : Z) (s : list Z) : Z :=
  fold_left (fun v c => v * 16 + match hex_val c with Some d => d | None => 0 end) s v.

Lemma hex_fold_mono : forall s v, 0 <= v -> v <= hex_fold v s.
Proof.
  induction s as [|c s IH]; intros v Hv; [unfold hex_fold; cbn; lia|].
  unfold hex_fold in *. cbn.
  assert (0 <= match hex_val c with Some d => d | None => 0 end).
  { unfold hex_val. destruct ((48 <=? c) && (c <=? 57)) eqn:E1; bools; [lia|].
    destruct ((65 <=? c) && (c <=? 70)) eqn:E2; bools; [lia|].
    destruct ((97 <=? c) && (c <=? 102)) eqn:E3; bools; lia. }
  specialize (IH (v * 16 + match hex_val c with Some d => d | None => 0 end)). lia.
Qed.

Lemma hex_loop_spec : forall s rest count v, Forall (fun c => hex_val c <> None) s ->
  0 <= v -> hex_fold v s < 4294967296 ->
  (Z.of_nat (length s) <= count) ->
  (Z.of_nat (length s) < count -> stops (fun c => match hex_val c with None => false | _ => true end) rest) ->
  hex_loop count v (s ++ rest) = (hex_fold v s, rest).
Proof.
  induction s as [|c s IH]; intros rest count v Hs Hv Hb Hc Hr.
  - cbn in *. destruct rest as [|c rest]; auto. cbn.
    destruct (Z.leb_spec count 0); auto. specialize (Hr ltac:(lia)). cbn in Hr.
    destruct (hex_val c); [discriminate|reflexivity].
  - inversion Hs; subst. cbn [app hex_loop]. cbn [length] in *.
    rewrite (proj2 (Z.leb_gt count 0)) by lia.
    destruct (hex_val c) as [d|] eqn:E; [|congruence].
    assert (Hm := hex_fold_mono s (v * 16 + d)).
    assert (0 <= d).
    { unfold hex_val in E. destruct ((48 <=? c) && (c <=? 57)) eqn:E1; [injection E as <-; bools; lia|].
      destruct ((65 <=? c) && (c <=? 70)) eqn:E2; [injection E as <-; bools; lia|].
      destruct ((97 <=? c) && (c <=? 102)) eqn:E3; [injection E as <-; bools; lia|discriminate]. }
    unfold hex_fold in *. cbn [fold_left] in *. rewrite E in *.
    unfold u32. rewrite Z.mod_small by lia. apply IH; auto; try lia.
    intro Hlt. apply Hr. lia.
Qed.

Lemma hex_fold_app1 : forall s c v, hex_fold v (s ++ [c]) =
  hex_fold v s * 16 + match hex_val c with Some d => d | None => 0 end.
Proof. intros. unfold hex_fold. rewrite fold_left_app. reflexivity. Qed.

Lemma hex_text_spec : forall w n, 0 <= n < 16 ^ Z.of_nat w ->
  Forall (fun c => hex_val c <> None) (hex_text w n) /\ hex_fold 0 (hex_text w n) = n /\
  length (hex_text w n) = w /\ Forall (fun c => c <> 120 /\ c <> 88) (hex_text w n).
Proof.
  induction w as [|w IH]; intros n Hn.
  - cbn in Hn. cbn. repeat split; auto. lia.
  - assert (H16 : 16 ^ Z.of_nat (S w) = 16 * 16 ^ Z.of_nat w)
      by (rewrite Nat2Z.inj_succ, Z.pow_succ_r; lia).
    assert (Hq : 0 <= n / 16 < 16 ^ Z.of_nat w).
    { split; [apply Z.div_pos; lia|]. apply Z.div_lt_upper_bound; lia. }
    pose proof (Z.mod_pos_bound n 16 ltac:(lia)) as Hm.
    destruct (IH _ Hq) as (I1 & I2 & I3 & I4). cbn [hex_text]. repeat split.
    + apply Forall_app; split; auto. constructor; auto. rewrite hex_char_val by auto. discriminate.
    + rewrite hex_fold_app1, I2, hex_char_val by auto. pose proof (Z.div_mod n 16 ltac:(lia)). lia.
    + rewrite app_length, I3. cbn. lia.
    + apply Forall_app; split; auto. constructor; auto. apply hex_char_not_x; auto.
Qed.

Lemma hex_noprefix : forall count s, (forall x t, s = 48 :: x :: t -> x <> 120 /\ x <> 88) ->
  HexToUInt32 count s = hex_loop count 0 s.
Proof.
  intros count s H. unfold HexToUInt32.
  destruct s as [|c [|x t]]; auto.
  - destruct c as [|p|p]; auto. repeat (destruct p as [p|p|]; auto).
  - destruct (Z.eq_dec c 48) as [->|Hc].
    + destruct (H x t eq_refl) as [H1 H2].
      rewrite (proj2 (Z.eqb_neq x 120)), (proj2 (Z.eqb_neq x 88)) by auto. reflexivity.
    + destruct c as [|p|p]; auto. do 6 (destruct p as [p|p|]; auto). congruence.
Qed.

Lemma hex_text_head : forall w n, (0 < w)%nat -> 0 <= n < 16 ^ Z.of_nat w ->
  forall rest x t, hex_text w n ++ rest = 48 :: x :: t ->
  ((1 < w)%nat \/ stops (fun c => (c =? 120) || (c =? 88)) rest) -> x <> 120 /\ x <> 88.
Proof.
  intros w n Hw Hn rest x t E Hor.
  destruct (hex_text_spec w n Hn) as (_ & _ & Hl & Hx).
  destruct (hex_text w n) as [|a [|b l]] eqn:EH; cbn in Hl; [lia| |].
  - destruct Hor as [|Hs]; [lia|]. cbn in E. injection E as -> ->. cbn in Hs. bools. auto.
  - cbn in E. injection E as -> -> _. inversion Hx as [|? ? _ Hx2]; subst.
    inversion Hx2; subst. auto.
Qed.

(** *** Lists of values *)
Section Lists.
Context {V : Type}.
Variable read : list Z -> option (V * list Z).

Inductive parses : list Z -> list V -> Prop :=
| P_nil : parses [] []
| P_cons : forall s v s' vs, s <> [] -> read s = Some (v, s') -> (length s' < length s)%nat ->
    parses s' vs -> parses s (v :: vs).

Lemma parses_nil_inv : forall s, parses s [] -> s = [].
Proof. inversion 1; auto. Qed.

Lemma upd_mid : forall (a : list V) x b v, upd (a ++ x :: b) (length a) v = a ++ v :: b.
Proof. induction a; intros; cbn; f_equal; auto. Qed.

Lemma fill_spec : forall tail s vs done, parses s vs ->
  exists s', list_fill read (length tail) (length done) (done ++ tail) s =
    Some (length done + min (length tail) (length vs), done ++ firstn (length tail) vs ++ skipn (length vs) tail, s')%nat
    /\ parses s' (skipn (length tail) vs).
Proof.
  induction tail as [|x tail IH]; intros s vs done Hp; cbn [length list_fill].
  - exists s. cbn. rewrite Nat.add_0_r, skipn_nil. auto.
  - destruct Hp as [|s v s' vs Hne Hr Hl Hp].
    + exists []. cbn. rewrite Nat.add_0_r. split; [reflexivity|constructor].
    + destruct s as [|c0 s0]; [congruence|]. rewrite Hr.
      rewrite upd_mid. replace (done ++ v :: tail) with ((done ++ [v]) ++ tail)
        by (rewrite <- app_assoc; reflexivity).
      replace (S (length done)) with (length (done ++ [v])) by (rewrite app_length; cbn; lia).
      destruct (IH s' vs (done ++ [v]) Hp) as (s'' & E & Hp'). rewrite E.
      exists s''. cbn [length firstn skipn]. split.
      * rewrite app_length, <- app_assoc. cbn. do 3 f_equal. lia.
      * exact Hp'.
Qed.

Lemma push_spec : forall s vs, parses s vs -> forall fuel len arr, (length s <= fuel)%nat ->
  list_push read fuel len arr s = Some ((len + length vs)%nat, arr ++ vs).
Proof.
  induction 1 as [|s v s' vs Hne Hr Hl Hp IH]; intros fuel len arr Hf.
  - destruct fuel; cbn; rewrite Nat.add_0_r, app_nil_r; reflexivity.
  - destruct s as [|c0 s0]; [congruence|].
    destruct fuel as [|f]; [cbn in Hf; lia|].
    cbn [list_push]. rewrite Hr. rewrite IH by lia.
    rewrite <- app_assoc. cbn. do 2 f_equal. lia.
Qed.

Lemma to_list_spec : forall s vs old, parses s vs -> ToList read s old = Some vs.
Proof.
  intros s vs old Hp. unfold ToList.
  destruct s as [|c s0] eqn:Es.
  - inversion Hp; subst; [reflexivity|congruence].
  - rewrite <- Es in *. destruct (fill_spec old s vs [] Hp) as (s' & E & Hp'). cbn in E. rewrite E.
    rewrite (push_spec s' _ Hp') by lia.
    f_equal. rewrite skipn_length.
    destruct (Nat.le_gt_cases (length old) (length vs)) as [Hle|Hgt].
    + rewrite (skipn_all2 (n := length vs) old) by auto. rewrite app_nil_r, firstn_skipn.
      apply firstn_all2. lia.
    + rewrite (skipn_all2 (n := length old) vs) by lia. rewrite app_nil_r.
      rewrite (firstn_all2 (n := length old) vs) by lia.
      replace (Nat.min (length old) (length vs) + (length vs - length old))%nat with (length vs) by lia.
      rewrite firstn_app, Nat.sub_diag, firstn_all. cbn. apply app_nil_r.
Qed.
End Lists.

Lemma stops_digit_sep : forall (f : Z -> list Z) (vs : list Z), stops digit (flat_map (fun x => 32 :: f x) vs).
Proof. intros f [|v vs]; cbn; auto. Qed.

Lemma after_sep : forall (f : Z -> list Z) vs, (forall v, In v vs -> exists c t, f v = c :: t /\ ws3 c = false) ->
  after (flat_map (fun x => 32 :: f x) vs) =
  match vs with [] => [] | v :: vs' => f v ++ flat_map (fun x => 32 :: f x) vs' end.
Proof.
  intros f [|v vs] H; [reflexivity|]. cbn [flat_map]. change (32 :: f v) with ([32] ++ f v).
  rewrite <- app_assoc. apply (after_blanks [32]).
  - constructor; auto.
  - destruct (H v (or_introl eq_refl)) as (c & t & -> & Hc). exact Hc.
  - discriminate.
Qed.

Lemma u32s_parse : forall vs, Forall (fun v => 0 <= v < 4294967296) vs ->
  parses (fun s => Some (ToUInt32 s)) (ToString_u32s [] vs) vs.
Proof.
  intros [|v vs] H; [constructor|]. cbn [ToString_u32s].
  revert v H. induction vs as [|w vs IH]; intros v H.
  - inversion H; subst. cbn [flat_map]. rewrite app_nil_r.
    destruct (dec_spec v ltac:(lia)) as (H1 & H4 & H5).
    unfold append_u32.
    apply P_cons with (s' := []); [auto| |destruct (dec v); [congruence|cbn; lia]|constructor].
    pose proof (to_uint32_spec [] (dec v) []) as E. cbn [app] in E. rewrite app_nil_r in E.
    rewrite E; auto; [|cbn; auto|lia]. rewrite H5. reflexivity.
  - inversion H; subst. destruct (dec_spec v ltac:(lia)) as (H1 & H4 & H5).
    assert (Haft : after (flat_map (fun x => 32 :: append_u32 x) (w :: vs)) =
                   append_u32 w ++ flat_map (fun x => 32 :: append_u32 x) vs).
    { apply (after_sep append_u32 (w :: vs)). intros x Hx.
      rewrite Forall_forall in H3. specialize (H3 _ Hx).
      destruct (dec_head x ltac:(lia)) as (c & t & E & Hc). exists c, t. split; auto.
      apply digit_not_ws in Hc; apply Hc. }
    eapply P_cons; [| | |apply IH; exact H3].
    + unfold append_u32. destruct (dec v); [congruence|discriminate].
    + pose proof (to_uint32_spec [] (dec v) (flat_map (fun x => 32 :: append_u32 x) (w :: vs))) as E.
      cbn [app] in E. unfold append_u32 at 1. rewrite E; auto.
      * rewrite H5, Haft. reflexivity.
      * apply stops_digit_sep.
      * lia.
    + cbn [flat_map]. rewrite !app_length. cbn [length]. lia.
Qed.

Lemma i32s_parse : forall a vs, Forall (fun v => -2147483648 <= v <= 2147483647 /\
    (a = Strict -> -2147483599 <= v <= 2147483599)) vs ->
  parses (ToInt32 a) (ToString_i32s [] vs) vs.
Proof.
  intros a [|v vs] H; [constructor|]. cbn [ToString_i32s app].
  assert (Hhead : forall x, exists c t, append_i32 x = c :: t /\ ws3 c = false).
  { intro x. destruct (append_i32_cases x) as (ds & Hne & Hd & _ & ->).
    destruct ds as [|c t]; [congruence|]. inversion Hd; subst. apply digit_not_ws in H2.
    destruct (x <? 0); cbn; eauto. do 2 eexists. split; [reflexivity|]. apply H2. }
  revert v H. induction vs as [|w vs IH]; intros v H.
  - inversion H as [|? ? [H1 H2] H3]; subst. cbn [flat_map]. rewrite app_nil_r.
    apply P_cons with (s' := []).
    + destruct (Hhead v) as (c & t & -> & _). discriminate.
    + pose proof (to_int32_spec a [] v []) as E. cbn [app] in E. rewrite app_nil_r in E.
      rewrite E; auto. cbn; auto.
    + destruct (Hhead v) as (c & t & -> & _). cbn. lia.
    + constructor.
  - inversion H as [|? ? [H1 H2] H3]; subst.
    assert (Haft : after (flat_map (fun x => 32 :: append_i32 x) (w :: vs)) =
                   append_i32 w ++ flat_map (fun x => 32 :: append_i32 x) vs).
    { apply (after_sep append_i32 (w :: vs)). intros x _. apply Hhead. }
    eapply P_cons; [| | |apply IH; exact H3].
    + destruct (Hhead v) as (c & t & -> & _). discriminate.
    + pose proof (to_int32_spec a [] v (flat_map (fun x => 32 :: append_i32 x) (w :: vs))) as E.
      cbn [app] in E. rewrite E; auto.
      * rewrite Haft. reflexivity.
      * apply stops_digit_sep.
    + cbn [flat_map]. rewrite !app_length. cbn [length]. lia.
Qed.

(** *** Agreement with CountValues *)
Lemma count_ws : forall lead s, Forall (fun c => ws4 c = true) lead ->
  count_loop false (lead ++ s) = count_loop false s.
Proof. induction 1 as [|c l H _ IH]; cbn; auto. rewrite H. auto. Qed.
Lemma count_in : forall w s, Forall (fun c => ws4 c = false) w ->
  count_loop true (w ++ s) = count_loop true s.
Proof. induction 1 as [|c l H _ IH]; cbn; auto. rewrite H. auto. Qed.
Lemma count_in_stop : forall s, stops (fun c => negb (ws4 c)) s -> count_loop true s = count_loop false s.
Proof. intros [|c s] H; cbn in *; auto. bools. rewrite H. reflexivity. Qed.

Definition nocr (s : list Z) : Prop := ~ In 13 s.
Lemma nocr_ws : forall c, c <> 13 -> ws3 c = ws4 c.
Proof. intros c H. unfold ws3, ws4. rewrite (proj2 (Z.eqb_neq c 13)) by auto. rewrite orb_false_r. reflexivity. Qed.

(** The tail of a reader: what remains after a word was partly consumed. *)
Lemma count_after : forall w s3, nocr (w ++ s3) -> Forall (fun c => ws4 c = false) w ->
  count_loop true (w ++ s3) = count_loop false (after s3) /\
  stops ws3 (after s3) /\ (length (after s3) <= length s3)%nat /\ nocr (after s3).
Proof.
  intros w s3 Hn Hw. rewrite count_in by auto.
  assert (Hn3 : nocr s3) by (intro Hi; apply Hn, in_or_app; auto).
  unfold after.
  destruct (skip_split (fun c => negb (ws3 c)) s3) as (u & E & Hu).
  destruct (skip_split ws3 (skip_while (fun c => negb (ws3 c)) s3)) as (b & E2 & Hb).
  set (r := skip_while (fun c => negb (ws3 c)) s3) in *.
  assert (Hnr : nocr r) by (rewrite E in Hn3; intro Hi; apply Hn3, in_or_app; auto).
  split; [|split; [|split]].
  - rewrite E. rewrite count_in.
    + rewrite count_in_stop.
      * rewrite E2 at 1. apply count_ws. eapply Forall_impl; [|exact Hb]. apply ws3_ws4.
      * assert (Hst : stops (fun c => negb (ws3 c)) r) by apply skip_stops.
        revert Hst Hnr. generalize r. clear. intros r Hst Hnr. destruct r as [|c r']; cbn in *; auto.
        rewrite <- nocr_ws; auto. intro; subst. apply Hnr. cbn; auto.
    + rewrite Forall_forall in *. intros c Hc. specialize (Hu c Hc). bools.
      rewrite <- nocr_ws; auto. intros ->. apply Hn3. rewrite E. apply in_or_app; auto.
  - apply skip_stops.
  - pose proof (skip_length ws3 r). pose proof (skip_length (fun c => negb (ws3 c)) s3). fold r in H0. lia.
  - intro Hi. apply Hnr. rewrite E2. apply in_or_app; auto.
Qed.

(** Property of a reader: it skips blanks, consumes some non-blank characters, then [after]. *)
Definition reader (read : list Z -> option (Z * list Z)) : Prop :=
  forall s, s <> [] -> exists v w s3, read s = Some (v, after s3) /\
    skip_while ws4 s = w ++ s3 /\ Forall (fun c => ws4 c = false) w.

Lemma uint_digits_suffix : forall s v, exists v' w s3, uint_digits v s = (v', s3) /\ s = w ++ s3 /\
  Forall (fun c => ws4 c = false) w.
Proof.
  induction s as [|c s IH]; intro v; cbn.
  - exists v, [], []. auto.
  - destruct (digit c) eqn:E.
    + destruct (IH (u32 (v * 10 + c - 48))) as (v' & w & s3 & E1 & E2 & E3).
      exists v', (c :: w), s3. rewrite E1, E2. cbn. repeat split; auto.
      constructor; auto. apply digit_not_ws in E; apply E.
    + exists v, [], (c :: s). auto.
Qed.

Lemma reader_uint : reader (fun s => Some (ToUInt32 s)).
Proof.
  intros s Hs. destruct (uint_digits_suffix (skip_while ws4 s) 0) as (v & w & s3 & E1 & E2 & E3).
  exists v, w, s3. split; [|auto]. unfold ToUInt32. destruct s as [|c s]; [congruence|].
  rewrite E1. reflexivity.
Qed.

Lemma int_digits_suffix : forall s v, exists v' w s3, int_digits Wrapping v s = Some (v', s3) /\
  s = w ++ s3 /\ Forall (fun c => ws4 c = false) w.
Proof.
  induction s as [|c s IH]; intro v; cbn [int_digits].
  - exists v, [], []. auto.
  - destruct (digit c) eqn:E.
    + rewrite int_step_wrap.
      destruct (IH (s32 (v * 10 + (c - 48)))) as (v' & w & s3 & E1 & E2 & E3).
      exists v', (c :: w), s3. rewrite E1, E2. cbn. repeat split; auto.
      constructor; auto. apply digit_not_ws in E; apply E.
    + exists v, [], (c :: s). auto.
Qed.

Lemma reader_int : reader (ToInt32 Wrapping).
Proof.
  intros s Hs. unfold ToInt32.
  destruct (skip_while ws4 s) as [|c s1] eqn:E.
  - exists (s32 0), [], []. cbn. auto.
  - destruct (Z.eqb_spec c 45) as [->|Hc].
    + destruct (int_digits_suffix s1 0) as (v & w & s3 & E1 & E2 & E3). rewrite E1. cbn [norm].
      exists (s32 (v * -1)), (45 :: w), s3. split; [reflexivity|]. rewrite E2. split; [reflexivity|].
      constructor; auto.
    + destruct (int_digits_suffix (c :: s1) 0) as (v & w & s3 & E1 & E2 & E3). rewrite E1. cbn [norm].
      exists (s32 (v * 1)), w, s3. split; [reflexivity|]. auto.
Qed.

(** A blank-free start means the reader consumes exactly one counted word. *)
Lemma reader_counts : forall read, reader read -> forall n s, (length s <= n)%nat -> nocr s ->
  (s = [] \/ exists c, In c s /\ ws4 c = false) ->
  exists vs, parses read s vs /\ length vs = count_loop false s.
Proof.
  intros read Hread. induction n as [|n IH]; intros s Hn Hcr Hor.
  - destruct s; [|cbn in Hn; lia]. exists []. split; [constructor|reflexivity].
  - destruct s as [|c0 s0] eqn:Es.
    { exists []. split; [constructor|reflexivity]. }
    rewrite <- Es in *. assert (Hne : s <> []) by (subst; discriminate).
    destruct Hor as [Hx|(c & Hin & Hc)]; [congruence|].
    destruct (Hread s Hne) as (v & w & s3 & Er & Ew & Hw).
    destruct (skip_split ws4 s) as (lead & El & Hlead).
    assert (Hst := skip_stops ws4 s).
    assert (Hnonempty : skip_while ws4 s <> []).
    { intro E0. rewrite E0, app_nil_r in El. subst lead. rewrite Forall_forall in Hlead.
      rewrite (Hlead c Hin) in Hc. discriminate. }
    assert (Hcr' : nocr (w ++ s3)).
    { rewrite <- Ew. intro Hi. apply Hcr. rewrite El. apply in_or_app; auto. }
    destruct (count_after w s3 Hcr' Hw) as (C1 & C2 & C3 & C4).
    (* head of the skipped text is a non-blank *)
    destruct (skip_while ws4 s) as [|d t] eqn:Et; [congruence|]. cbn in Hst.
    assert (Hcount : count_loop false s = S (count_loop false (after s3))).
    { rewrite El, count_ws by auto. cbn. rewrite Hst. f_equal. rewrite <- C1.
      rewrite <- Ew. cbn. rewrite Hst. reflexivity. }
    assert (Hlt : (length (after s3) < length s)%nat).
    { rewrite El, app_length. destruct w as [|w0 w'].
      - cbn in Ew. rewrite <- Ew. unfold after. cbn [skip_while].
        assert (Hd3 : ws3 d = false).
        { destruct (ws3 d) eqn:E3; auto. apply ws3_ws4 in E3. congruence. }
        rewrite Hd3. cbn [negb]. pose proof (skip_length (fun c => negb (ws3 c)) t).
        pose proof (skip_length ws3 (skip_while (fun c => negb (ws3 c)) t)). cbn [length]. lia.
      - rewrite Ew. cbn [app length]. rewrite app_length. lia. }
    destruct (IH (after s3)) as (vs & Hp & Hlen); [lia|exact C4| |].
    + destruct (after s3) as [|d' t'] eqn:Ea; [left; auto|right]. exists d'. split; [cbn; auto|].
      cbn in C2. rewrite <- nocr_ws; auto. intro; subst. apply C4. cbn; auto.
    + exists (v :: vs). split.
      * econstructor; eauto.
      * cbn. rewrite Hlen, Hcount. reflexivity.
Qed.

Lemma count_values_nonneg_first : forall s, (match s with [] => True | c :: _ => 0 < c < 128 end) ->
  CountValues s = count_loop false s.
Proof.
  intros [|c s] H; [reflexivity|]. unfold CountValues, schar.
  rewrite (proj2 (Z.ltb_lt c 128)) by lia. rewrite (proj2 (Z.ltb_lt 0 c)) by lia. reflexivity.
Qed.

(** *** Words *)
(** Specification of the words of a text. *)
Inductive words_ws : list Z -> list (list Z) -> Prop :=
| Ww_nil : forall s, Forall (fun c => ws4 c = true) s -> words_ws s []
| Ww_cons : forall lead w rest ws, Forall (fun c => ws4 c = true) lead -> w <> [] ->
    Forall (fun c => ws4 c = false) w -> stops (fun c => negb (ws4 c)) rest ->
    words_ws rest ws -> words_ws (lead ++ w ++ rest) (w :: ws).

Lemma words_ws_lead : forall s ws b, words_ws s ws -> Forall (fun c => ws4 c = true) b ->
  words_ws (b ++ s) ws.
Proof.
  intros s ws b H Hb. destruct H.
  - constructor. apply Forall_app; auto.
  - rewrite app_assoc. apply Ww_cons; auto. apply Forall_app; auto.
Qed.

Lemma span_spec : forall p s, exists w r, span p s = (w, r) /\ s = w ++ r /\
  Forall (fun c => p c = true) w /\ stops p r.
Proof.
  induction s as [|c s IH]; cbn.
  - exists [], []. cbn; auto.
  - destruct (p c) eqn:E.
    + destruct IH as (w & r & E1 & E2 & E3 & E4). rewrite E1. exists (c :: w), r.
      cbn. repeat split; auto. congruence.
    + exists [], (c :: s). cbn. auto.
Qed.

Lemma words_loop_spec : forall fuel s arr, (length s <= fuel)%nat -> stops ws4 s ->
  exists ws, words_loop fuel (length arr) arr s = Some ((length arr + length ws)%nat, arr ++ ws) /\
    words_ws s ws /\ length ws = count_loop false s.
Proof.
  induction fuel as [|f IH]; intros s arr Hl Hs.
  - destruct s; [|cbn in Hl; lia]. exists []. cbn. rewrite Nat.add_0_r, app_nil_r.
    repeat split; auto. constructor; auto.
  - destruct s as [|c s0] eqn:Es.
    { exists []. cbn. rewrite Nat.add_0_r, app_nil_r. repeat split; auto. constructor; auto. }
    cbn [words_loop]. rewrite <- Es in *.
    destruct (span_spec (fun c => negb (ws4 c)) s) as (w & r & E1 & E2 & E3 & E4). rewrite E1.
    rewrite Nat.ltb_irrefl.
    assert (Hw : w <> []).
    { intro; subst w. cbn in E2. rewrite <- E2, Es in E4. cbn in E4. rewrite Es in Hs. cbn in Hs.
      rewrite Hs in E4. discriminate. }
    assert (Hw' : Forall (fun c => ws4 c = false) w).
    { eapply Forall_impl; [|exact E3]. intros a Ha. cbn in Ha. bools. auto. }
    replace (S (length arr)) with (length (arr ++ [w])) by (rewrite app_length; cbn; lia).
    destruct (IH (skip_while ws4 r) (arr ++ [w])) as (ws & Ew & Hws & Hlen).
    { pose proof (skip_length ws4 r). rewrite E2, app_length in Hl. destruct w; [congruence|].
      cbn in Hl. lia. }
    { apply skip_stops. }
    exists (w :: ws). rewrite Ew. rewrite <- app_assoc, app_length. cbn. split; [do 2 f_equal; lia|].
    destruct (skip_split ws4 r) as (b & Eb & Hb). split.
    + rewrite E2. apply (Ww_cons [] w r ws); auto.
      rewrite Eb. apply words_ws_lead; auto.
    + rewrite Hlen. rewrite E2. destruct w as [|w0 w']; [congruence|].
      cbn. inversion Hw'; subst. rewrite H1. f_equal. rewrite count_in by auto.
      rewrite count_in_stop by auto. rewrite <- (count_ws b (skip_while ws4 r)) by auto. rewrite <- Eb. reflexivity.
Qed.

Lemma to_string_list_spec : forall s, exists ws, ToStringList s [] = Some ws /\ words_ws s ws /\
  length ws = count_loop false s.
Proof.
  intro s. unfold ToStringList.
  destruct (words_loop_spec (length (skip_while ws4 s)) (skip_while ws4 s) []) as (ws & E & Hw & Hl);
    [lia|apply skip_stops|].
  cbn in E. rewrite E. exists ws. split; [rewrite firstn_all; reflexivity|].
  destruct (skip_split ws4 s) as (b & Eb & Hb). split.
  - rewrite Eb. apply words_ws_lead; auto.
  - rewrite Hl. rewrite <- (count_ws b (skip_while ws4 s)) by auto. rewrite <- Eb. reflexivity.
Qed.

(** *** Dates *)
Lemma pad_spec : forall w n, 0 <= n < 10 ^ Z.of_nat w -> (0 < w)%nat ->
  length (pad w n) = w /\ Forall (fun c => digit c = true) (pad w n) /\ value_from 0 (pad w n) = n.
Proof.
  intros w n Hn Hw. unfold pad. destruct (dec_spec n ltac:(lia)) as (H1 & H2 & H3).
  assert (Hlen : (length (dec n) <= w)%nat).
  { (* a number of k digits without leading zero is at least 10^(k-1) *)
    assert (Hd : forall fuel n acc, (0 < fuel)%nat -> 0 <= n < 10 ^ Z.of_nat w -> forall k, (k <= w)%nat ->
       0 <= n < 10 ^ Z.of_nat k -> (0 < k)%nat -> (length (dec_digits fuel n acc) <= k + length acc)%nat).
    { clear. intros fuel. induction fuel as [|f IH]; intros n acc Hf Hn k Hk Hnk Hk0; [cbn; lia|].
      cbn [dec_digits]. destruct (Z.ltb_spec n 10); [cbn; lia|].
      destruct k as [|k]; [lia|].
      assert (H10 : 10 ^ Z.of_nat (S k) = 10 * 10 ^ Z.of_nat k)
        by (rewrite Nat2Z.inj_succ, Z.pow_succ_r; lia).
      assert (Hq : 0 <= n / 10 < 10 ^ Z.of_nat k)
        by (split; [apply Z.div_pos; lia|apply Z.div_lt_upper_bound; lia]).
      destruct f as [|f']; [cbn; lia|].
      assert (Hk1 : (0 < k)%nat) by (destruct k; [cbn in Hnk; lia|lia]).
      assert (Hmono : 10 ^ Z.of_nat k <= 10 ^ Z.of_nat w) by (apply Z.pow_le_mono_r; lia).
      specialize (IH (n / 10) ((48 + n mod 10) :: acc) ltac:(lia) ltac:(lia) k ltac:(lia) Hq Hk1).
      cbn [length] in IH. lia. }
    unfold dec. specialize (Hd (S (Z.to_nat (Z.log2 n))) n [] ltac:(lia) Hn w ltac:(lia) Hn Hw).
    cbn [length] in Hd. lia. }
  split; [rewrite app_length, repeat_length; lia|]. split.
  - apply Forall_app. split; auto. apply Forall_forall. intros c Hc. apply repeat_spec in Hc. subst. reflexivity.
  - rewrite value_zeros. auto.
Qed.

Lemma to_uint32_pad : forall w n c rest, 0 <= n < 10 ^ Z.of_nat w -> (0 < w < 10)%nat ->
  digit c = false -> fst (ToUInt32 (pad w n ++ c :: rest)) = n.
Proof.
  intros w n c rest Hn Hw Hc. destruct (pad_spec w n Hn ltac:(lia)) as (L & D & E).
  pose proof (to_uint32_spec [] (pad w n) (c :: rest)) as H. cbn [app] in H. rewrite H; auto.
  - intro E0. rewrite E0 in L. cbn in L. lia.
  - rewrite E. assert (10 ^ Z.of_nat w <= 10 ^ 9) by (apply Z.pow_le_mono_r; lia).
    change (10 ^ 9) with 1000000000 in *. lia.
Qed.

Lemma len4 : forall (l : list Z), length l = 4%nat -> exists a b c d, l = [a; b; c; d].
Proof. intros [|a [|b [|c [|d [|e l]]]]] H; try discriminate. eauto. Qed.
Lemma len2 : forall (l : list Z), length l = 2%nat -> exists a b, l = [a; b].
Proof. intros [|a [|b [|c l]]] H; try discriminate. eauto. Qed.

Lemma date_round_trip : forall d d0,
  0 <= year d < 10000 -> 0 <= month d < 100 -> 0 <= day d < 100 -> 0 <= hour d < 100 ->
  0 <= minutes d < 100 -> 0 <= seconds d < 100 ->
  length (ToString_date d) = 20%nat /\ ToDateTime (ToString_date d) d0 = d.
Proof.
  intros [y mo da h mi se] d0 H1 H2 H3 H4 H5 H6. cbn [year month day hour minutes seconds] in *.
  assert (P4 : forall n, 0 <= n < 10000 -> exists a b c d, pad 4 n = [a; b; c; d]).
  { intros n Hn. apply len4. apply (pad_spec 4 n); [exact Hn|lia]. }
  assert (P2 : forall n, 0 <= n < 100 -> exists a b, pad 2 n = [a; b]).
  { intros n Hn. apply len2. apply (pad_spec 2 n); [exact Hn|lia]. }
  assert (Q4 := fun n c r Hn => to_uint32_pad 4 n c r Hn ltac:(lia)).
  assert (Q2 := fun n c r Hn => to_uint32_pad 2 n c r Hn ltac:(lia)).
  change (10 ^ Z.of_nat 4) with 10000 in Q4. change (10 ^ Z.of_nat 2) with 100 in Q2.
  destruct (P4 y H1) as (a1 & a2 & a3 & a4 & E1). destruct (P2 mo H2) as (b1 & b2 & E2).
  destruct (P2 da H3) as (c1 & c2 & E3). destruct (P2 h H4) as (d1 & d2 & E4).
  destruct (P2 mi H5) as (e1 & e2 & E5). destruct (P2 se H6) as (f1 & f2 & E6).
  assert (ES : ToString_date {| year := y; month := mo; day := da; hour := h; minutes := mi; seconds := se |}
     = pad 4 y ++ 45 :: pad 2 mo ++ 45 :: pad 2 da ++ 84 :: pad 2 h ++ 58 :: pad 2 mi ++ 58 :: pad 2 se ++ [90]).
  { unfold ToString_date. cbn [year month day hour minutes seconds]. rewrite E1, E2, E3, E4, E5, E6.
    reflexivity. }
  split; [rewrite ES, E1, E2, E3, E4, E5, E6; reflexivity|].
  unfold ToDateTime.
  replace (length (ToString_date _)) with 20%nat by (rewrite ES, E1, E2, E3, E4, E5, E6; reflexivity).
  cbn [Nat.eqb].
  assert (S5 : skipn 5 (ToString_date {| year := y; month := mo; day := da; hour := h; minutes := mi; seconds := se |})
    = pad 2 mo ++ 45 :: pad 2 da ++ 84 :: pad 2 h ++ 58 :: pad 2 mi ++ 58 :: pad 2 se ++ [90])
    by (rewrite ES, E1; reflexivity).
  assert (S8 : skipn 8 (ToString_date {| year := y; month := mo; day := da; hour := h; minutes := mi; seconds := se |})
    = pad 2 da ++ 84 :: pad 2 h ++ 58 :: pad 2 mi ++ 58 :: pad 2 se ++ [90])
    by (rewrite ES, E1, E2; reflexivity).
  assert (S11 : skipn 11 (ToString_date {| year := y; month := mo; day := da; hour := h; minutes := mi; seconds := se |})
    = pad 2 h ++ 58 :: pad 2 mi ++ 58 :: pad 2 se ++ [90])
    by (rewrite ES, E1, E2, E3; reflexivity).
  assert (S14 : skipn 14 (ToString_date {| year := y; month := mo; day := da; hour := h; minutes := mi; seconds := se |})
    = pad 2 mi ++ 58 :: pad 2 se ++ [90])
    by (rewrite ES, E1, E2, E3, E4; reflexivity).
  assert (S17 : skipn 17 (ToString_date {| year := y; month := mo; day := da; hour := h; minutes := mi; seconds := se |})
    = pad 2 se ++ [90])
    by (rewrite ES, E1, E2, E3, E4, E5; reflexivity).
  rewrite S5, S8, S11, S14, S17, ES.
  rewrite (Q4 y 45), (Q2 mo 45), (Q2 da 84), (Q2 h 58), (Q2 mi 58), (Q2 se 90) by (auto; reflexivity).
  reflexivity.
Qed.

(** *** Versions *)
Lemma next_part_digits : forall ds rest, Forall (fun c => digit c = true) ds ->
  next_part (ds ++ 46 :: rest) = rest.
Proof.
  intros ds rest H. unfold next_part. rewrite skip_app.
  - reflexivity.
  - eapply Forall_impl; [|exact H]. intros c Hc. cbn in Hc. apply digit_range in Hc.
    rewrite (proj2 (Z.eqb_neq c 46)) by lia. reflexivity.
Qed.

Lemma uint32_dec : forall n tail, 0 <= n < 4294967296 -> stops digit tail ->
  fst (ToUInt32 (dec n ++ tail)) = n.
Proof.
  intros n tail Hn Hs. destruct (dec_spec n ltac:(lia)) as (H1 & H2 & H3).
  pose proof (to_uint32_spec [] (dec n) tail) as H. cbn [app] in H. rewrite H; auto; lia.
Qed.

Lemma version_parse : forall a b c rest, 0 <= a < 4294967296 -> 0 <= b < 4294967296 ->
  0 <= c < 4294967296 -> stops digit rest ->
  ParseVersionNumbers (dec a ++ [46] ++ dec b ++ [46] ++ dec c ++ rest)
  = {| major := a; minor := b; revision := c |}.
Proof.
  intros a b c rest Ha Hb Hc Hr. unfold ParseVersionNumbers.
  destruct (dec_spec a ltac:(lia)) as (_ & Da & _). destruct (dec_spec b ltac:(lia)) as (_ & Db & _).
  cbn [app]. rewrite (next_part_digits (dec a)) by auto. rewrite (next_part_digits (dec b)) by auto.
  rewrite !uint32_dec; auto; reflexivity.
Qed.

(** *** Qualifiers *)
Lemma qualifier_spec : forall ar i open close rest, (open = 40 \/ open = 91) ->
  (close = 41 \/ close = 93) -> 0 <= i <= 2147483647 -> (ar = Strict -> i <= 2147483599) ->
  ParseQualifier ar (open :: dec i ++ close :: rest) = Some i.
Proof.
  intros ar i open close rest Ho Hc Hi Ha. unfold ParseQualifier. cbn [ParseQualifier_loop length].
  replace ((open =? 40) || (open =? 91)) with true by (destruct Ho as [->| ->]; reflexivity).
  destruct (dec_spec i ltac:(lia)) as (H1 & H2 & H3).
  rewrite skip_app by auto.
  assert (Hcd : digit close = false) by (destruct Hc as [->| ->]; reflexivity).
  cbn [skip_while]. rewrite Hcd.
  replace ((close =? 41) || (close =? 93)) with true by (destruct Hc as [->| ->]; reflexivity).
  pose proof (to_int32_spec ar [] i (close :: rest)) as H. cbn [app] in H.
  unfold append_i32 in H. rewrite (proj2 (Z.ltb_ge i 0)) in H by lia.
  rewrite H; [reflexivity|constructor|exact Hcd|lia|intro E; specialize (Ha E); lia].
Qed.

Lemma qualifier_total : forall fuel s, (length s < fuel)%nat ->
  exists v, ParseQualifier_loop Wrapping fuel s = Some v.
Proof.
  induction fuel as [|f IH]; intros s Hl; [lia|]. cbn [ParseQualifier_loop].
  destruct s as [|c number]; [eauto|].
  destruct ((c =? 40) || (c =? 91)); [|eauto].
  pose proof (skip_length digit number) as Hle.
  destruct (skip_while digit number) as [|d r] eqn:E; [eauto|].
  destruct ((d =? 41) || (d =? 93)).
  - unfold ToInt32. destruct (skip_while ws4 number) as [|c1 s1].
    + cbn. eauto.
    + destruct (c1 =? 45).
      * destruct (int_digits_suffix s1 0) as (v & w & s3 & E1 & _). rewrite E1. cbn. eauto.
      * destruct (int_digits_suffix (c1 :: s1) 0) as (v & w & s3 & E1 & _). rewrite E1. cbn. eauto.
  - apply IH. cbn in *. lia.
Qed.

(** *** Bridges to the specification vocabulary *)
Lemma ws3_blank : forall c, ws3 c = true <-> blank c.
Proof. intro c. unfold ws3, blank. rewrite !orb_true_iff, !Z.eqb_eq. tauto. Qed.
Lemma ws4_blank : forall c, ws4 c = true <-> blank_or_cr c.
Proof. intro c. unfold ws4, blank_or_cr, blank. rewrite !orb_true_iff, !Z.eqb_eq. tauto. Qed.
Lemma ws3_not_blank : forall c, ws3 c = false <-> ~ blank c.
Proof. intro c. rewrite <- ws3_blank. destruct (ws3 c); split; congruence. Qed.
Lemma ws4_not_blank : forall c, ws4 c = false <-> ~ blank_or_cr c.
Proof. intro c. rewrite <- ws4_blank. destruct (ws4 c); split; congruence. Qed.

Lemma forall_ws3 : forall l, Forall blank l -> Forall (fun c => ws3 c = true) l.
Proof. intros l H. eapply Forall_impl; [|exact H]. intros c Hc. apply ws3_blank; auto. Qed.
Lemma forall_ws4 : forall l, Forall blank_or_cr l -> Forall (fun c => ws4 c = true) l.
Proof. intros l H. eapply Forall_impl; [|exact H]. intros c Hc. apply ws4_blank; auto. Qed.

Lemma decimal_value : forall n t, decimal n t -> 0 <= n /\ t <> [] /\
  Forall (fun c => digit c = true) t /\ value_from 0 t = n.
Proof.
  induction 1 as [d Hd|n t d Ht (I1 & I2 & I3 & I4) Hn Hd].
  - repeat split; try lia; try discriminate.
    + constructor; auto. apply digit_range. lia.
    + unfold value_from. cbn [fold_left]. lia.
  - repeat split; try lia.
    + destruct t; discriminate.
    + apply Forall_app. split; auto. constructor; auto. apply digit_range. lia.
    + rewrite value_app1, I4. lia.
Qed.

Lemma dec_digits_decimal : forall fuel n acc, 0 <= n < 2 ^ Z.of_nat fuel -> (0 < fuel)%nat ->
  exists ds, dec_digits fuel n acc = ds ++ acc /\ decimal n ds.
Proof.
  induction fuel as [|f IH]; intros n acc Hn Hf; [lia|]. cbn [dec_digits].
  destruct (Z.ltb_spec n 10) as [H10|H10].
  - exists [48 + n]. split; [reflexivity|]. constructor. lia.
  - assert (H2 : 2 ^ Z.of_nat (S f) = 2 * 2 ^ Z.of_nat f)
      by (rewrite Nat2Z.inj_succ, Z.pow_succ_r; lia).
    assert (Hq : 0 <= n / 10 < 2 ^ Z.of_nat f).
    { split; [apply Z.div_pos; lia|]. apply Z.div_lt_upper_bound; lia. }
    assert (Hf2 : (0 < f)%nat).
    { destruct f; [|lia]. cbn in Hn. lia. }
    destruct (IH (n / 10) ((48 + n mod 10) :: acc) Hq Hf2) as (ds & E & Hd).
    exists (ds ++ [48 + n mod 10]). split; [rewrite E, <- app_assoc; reflexivity|].
    pose proof (Z.mod_pos_bound n 10 ltac:(lia)).
    rewrite (Z.div_mod n 10) at 1 by lia. constructor; auto.
    assert (1 <= n / 10) by (apply Z.div_le_lower_bound; lia). lia.
Qed.

Lemma dec_decimal : forall n, 0 <= n -> decimal n (dec n).
Proof.
  intros n Hn. unfold dec.
  destruct (dec_digits_decimal (S (Z.to_nat (Z.log2 n))) n []) as (ds & E & H); [|lia|].
  - split; [lia|]. rewrite Nat2Z.inj_succ, Z2Nat.id by apply Z.log2_nonneg.
    destruct (Z.eq_dec n 0) as [->|]; [reflexivity|]. apply Z.log2_spec. lia.
  - rewrite E, app_nil_r. exact H.
Qed.

Lemma append_i32_decimal : forall n, signed_decimal n (append_i32 n).
Proof.
  intro n. unfold signed_decimal, append_i32. destruct (Z.ltb_spec n 0).
  - right. split; auto. eexists; split; [reflexivity|]. apply dec_decimal; lia.
  - left. split; auto. apply dec_decimal; lia.
Qed.

Lemma words_bridge : forall s ws, words_ws s ws -> words_of s ws.
Proof.
  induction 1 as [s H|lead w rest ws H1 H2 H3 H4 _ IH].
  - constructor. eapply Forall_impl; [|exact H]. intros c Hc. apply ws4_blank; auto.
  - constructor; auto.
    + eapply Forall_impl; [|exact H1]. intros c Hc. apply ws4_blank; auto.
    + eapply Forall_impl; [|exact H3]. intros c Hc. apply ws4_not_blank; auto.
    + destruct rest as [|c r]; cbn in *; auto. bools. intro Hc. apply Hc, ws4_blank; auto.
Qed.

Lemma hex_digit_val : forall d c, hex_digit d c -> hex_val c = Some d /\ 0 <= d < 16 /\ c <> 120 /\ c <> 88.
Proof.
  intros d c [[H ->]|[H [-> | ->]]]; unfold hex_val; (split; [|lia]).
  - rewrite (proj2 (Z.leb_le 48 _)), (proj2 (Z.leb_le _ 57)) by lia. cbn [andb]. f_equal. lia.
  - rewrite (proj2 (Z.leb_gt _ 57)) by lia. rewrite andb_false_r.
    rewrite (proj2 (Z.leb_le 65 _)), (proj2 (Z.leb_le _ 70)) by lia. cbn [andb]. f_equal. lia.
  - rewrite (proj2 (Z.leb_gt _ 57)) by lia. rewrite andb_false_r.
    rewrite (proj2 (Z.leb_gt _ 70)) by lia. rewrite andb_false_r.
    rewrite (proj2 (Z.leb_le 97 _)), (proj2 (Z.leb_le _ 102)) by lia. cbn [andb]. f_equal. lia.
Qed.
Lemma hex_val_digit : forall c d, hex_val c = Some d -> hex_digit d c.
Proof.
  intros c d H. unfold hex_val, hex_digit in *.
  destruct ((48 <=? c) && (c <=? 57)) eqn:E1; [injection H as <-; bools; lia|].
  destruct ((65 <=? c) && (c <=? 70)) eqn:E2; [injection H as <-; bools; lia|].
  destruct ((97 <=? c) && (c <=? 102)) eqn:E3; [injection H as <-; bools; lia|discriminate].
Qed.

Lemma hex_forall2 : forall ds t, Forall2 hex_digit ds t -> forall v,
  Forall (fun c => hex_val c <> None) t /\ hex_fold v t = fold_left (fun v d => 16 * v + d) ds v /\
  Forall (fun c => c <> 120 /\ c <> 88) t.
Proof.
  induction 1 as [|d c ds t H _ IH]; intro v; [repeat split; constructor|].
  apply hex_digit_val in H. destruct H as (H1 & H2 & H3).
  destruct (IH (16 * v + d)) as (I1 & I2 & I3). repeat split.
  - constructor; auto. congruence.
  - unfold hex_fold in *. cbn [fold_left]. rewrite H1. rewrite <- I2. f_equal. lia.
  - constructor; auto.
Qed.

Lemma hex_value_bound : forall ds v, 0 <= v -> Forall (fun d => 0 <= d < 16) ds ->
  fold_left (fun v d => 16 * v + d) ds v < (v + 1) * 16 ^ Z.of_nat (length ds).
Proof.
  induction ds as [|d ds IH]; intros v Hv H; [cbn; lia|].
  inversion H; subst. cbn [fold_left length].
  specialize (IH (16 * v + d) ltac:(lia) H3).
  rewrite Nat2Z.inj_succ, Z.pow_succ_r by lia.
  assert (0 < 16 ^ Z.of_nat (length ds)) by (apply Z.pow_pos_nonneg; lia). nia.
Qed.

Lemma hex_forall2_range : forall ds t, Forall2 hex_digit ds t -> Forall (fun d => 0 <= d < 16) ds.
Proof. induction 1; constructor; auto. apply hex_digit_val in H. apply H. Qed.
Lemma forall2_length : forall (A B : Type) (P : A -> B -> Prop) l m, Forall2 P l m -> length l = length m.
Proof. induction 1; cbn; auto. Qed.
Lemma forall2_firstn : forall (A B : Type) (P : A -> B -> Prop) n l m, Forall2 P l m ->
  Forall2 P (firstn n l) (firstn n m).
Proof. induction n; intros l m H; [constructor|]. inversion H; subst; cbn; constructor; auto. Qed.

(** Reading at most [count] digits. *)
Lemma hex_read : forall ds t rest count, Forall2 hex_digit ds t -> (length ds <= 8)%nat -> 0 <= count ->
  (Z.of_nat (length ds) < count -> begins_not (fun c => exists d, hex_digit d c) rest) ->
  let n := Nat.min (length ds) (Z.to_nat count) in
  hex_loop count 0 (t ++ rest) = (hex_value (firstn n ds), skipn n t ++ rest).
Proof.
  intros ds t rest count H Hl Hc Hr n.
  pose proof (forall2_length _ _ _ _ _ H) as Hlen.
  assert (Hf : Forall2 hex_digit (firstn n ds) (firstn n t)) by (apply forall2_firstn; auto).
  destruct (hex_forall2 _ _ Hf 0) as (F1 & F2 & _).
  rewrite <- (firstn_skipn n t) at 1. rewrite <- app_assoc.
  assert (Hn : length (firstn n t) = n) by (rewrite firstn_length; unfold n; lia).
  unfold hex_value. rewrite <- F2. apply hex_loop_spec; auto; try lia.
  - rewrite F2.
    pose proof (hex_value_bound (firstn n ds) 0 ltac:(lia) (hex_forall2_range _ _ Hf)) as B.
    rewrite firstn_length in B.
    assert (16 ^ Z.of_nat (Nat.min n (length ds)) <= 16 ^ 8) by (apply Z.pow_le_mono_r; lia).
    change (16 ^ 8) with 4294967296 in *. lia.
  - rewrite Hn. intro Hlt. assert (n = length ds) by (unfold n in *; lia).
    rewrite H0, Hlen, skipn_all. cbn [app]. specialize (Hr ltac:(lia)).
    destruct rest as [|c r]; cbn in *; auto. destruct (hex_val c) as [d|] eqn:E; auto.
    exfalso. apply Hr. exists d. apply hex_val_digit; auto.
Qed.

Lemma appendHex8_digits : forall i, 0 <= i < 256 -> Forall2 hex_digit [i / 16; i mod 16] (appendHex8 i).
Proof.
  intros i Hi. unfold appendHex8.
  assert (0 <= i / 16 < 16) by (split; [apply Z.div_pos; lia|apply Z.div_lt_upper_bound; lia]).
  rewrite (Z.mod_small (i / 16)) by auto.
  pose proof (Z.mod_pos_bound i 16 ltac:(lia)).
  constructor; [|constructor; [|constructor]]; apply hex_val_digit, hex_char_val; lia.
Qed.

Lemma appendHexT_digits : forall size i, 0 <= i ->
  exists ds, Forall2 hex_digit ds (appendHexT size i) /\ length ds = (2 * size)%nat.
Proof.
  induction size as [|k IH]; intros i Hi; [exists []; split; [constructor|reflexivity]|].
  pose proof (Z.mod_pos_bound i 256 ltac:(lia)) as Hm.
  destruct (IH (i / 256)) as (ds & H1 & H2); [apply Z.div_pos; lia|].
  exists ([(i mod 256) / 16; (i mod 256) mod 16] ++ ds). split.
  - apply Forall2_app; auto. apply appendHex8_digits. lia.
  - rewrite app_length. cbn [length]. lia.
Qed.

Lemma hex_prefix_read : forall x s count, (x = 120 \/ x = 88) ->
  HexToUInt32 count (48 :: x :: s) = hex_loop count 0 s.
Proof. intros x s count [-> | ->]; reflexivity. Qed.

Lemma hex_plain_read : forall ds t rest count, Forall2 hex_digit ds t -> (2 <= length ds)%nat ->
  HexToUInt32 count (t ++ rest) = hex_loop count 0 (t ++ rest).
Proof.
  intros ds t rest count H Hl. apply hex_noprefix. intros x u E.
  destruct (hex_forall2 _ _ H 0) as (_ & _ & Hx). pose proof (forall2_length _ _ _ _ _ H) as Hlen.
  destruct t as [|a [|b t']]; cbn in Hlen; try lia. cbn in E. injection E as -> -> _.
  inversion Hx as [|? ? _ Hx2]; subst. inversion Hx2; subst; auto.
Qed.
