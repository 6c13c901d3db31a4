(** Properties C08 and C09: base64. *)
From Coq Require Import List ZArith Bool Lia String.
From Verif Require Import TextModel TextProofs Base64Model Base64Spec Base64Proofs.
Import ListNotations.
Local Open Scope Z_scope.

Lemma s32_small : forall n, 0 <= n < 2147483648 -> s32 n = n.
Proof. intros n H. apply s32_id. lia. Qed.

Lemma ceil3 : forall n, ((n + 2) / 3 * 4)%nat = Z.to_nat (if 0 <? Z.rem (Z.of_nat n) 3 then Z.quot (Z.of_nat n) 3 * 4 + 4 else Z.quot (Z.of_nat n) 3 * 4).
Proof.
  intro n. rewrite Z.quot_div_nonneg, Z.rem_mod_nonneg by lia.
  apply Nat2Z.inj. rewrite Nat2Z.inj_mul, Nat2Z.inj_div, Nat2Z.inj_add.
  change (Z.of_nat 2) with 2. change (Z.of_nat 3) with 3. change (Z.of_nat 4) with 4.
  assert (0 <= Z.of_nat n) by lia. generalize dependent (Z.of_nat n). intros z Hz.
  rewrite Z2Nat.id.
  - destruct (Z.ltb_spec 0 (z mod 3)); Z.to_euclidean_division_equations; lia.
  - destruct (Z.ltb_spec 0 (z mod 3)); Z.to_euclidean_division_equations; lia.
Qed.

Lemma encode_nonempty : forall s, s <> [] -> encode s =
  match EncodeSize (Z.of_nat (List.length s)) with
  | Some n => if n <? 0 then None else encode_loop (List.length s) s O (repeat 0 (Z.to_nat n))
  | None => None
  end.
Proof. intros [|] H; [congruence|reflexivity]. Qed.

(** Every byte sequence below 1.5 GiB is encoded to its RFC 4648 text, of 4*ceil(n/3) characters. *)
Theorem C08_encode_is_base64 : forall bytes, Forall is_byte bytes ->
  Z.of_nat (List.length bytes) < 1610612736 ->
  exists text, encode bytes = Some text /\ base64 bytes text /\
    List.length text = ((List.length bytes + 2) / 3 * 4)%nat.
Proof.
  intros bytes Hb Hl. destruct bytes as [|b0 bs]; [exists []; repeat split; constructor|].
  assert (Hne : b0 :: bs <> []) by discriminate. remember (b0 :: bs) as bytes eqn:Eb. clear Eb b0 bs.
  rewrite encode_nonempty by auto. unfold EncodeSize.
  rewrite s32_small by lia.
  assert (Hq : in_int32 (Z.quot (Z.of_nat (List.length bytes)) 3 * 4) = true).
  { apply in_int32_iff. rewrite Z.quot_div_nonneg by lia. Z.to_euclidean_division_equations. lia. }
  rewrite Hq.
  pose proof (ceil3 (List.length bytes)) as Hc.
  set (n := if 0 <? Z.rem (Z.of_nat (List.length bytes)) 3 then Z.quot (Z.of_nat (List.length bytes)) 3 * 4 + 4
            else Z.quot (Z.of_nat (List.length bytes)) 3 * 4) in *.
  assert (0 <= n).
  { unfold n. rewrite Z.quot_div_nonneg by lia. pose proof (Z.div_pos (Z.of_nat (List.length bytes)) 3).
    destruct (0 <? Z.rem (Z.of_nat (List.length bytes)) 3); lia. }
  rewrite (proj2 (Z.ltb_ge n 0)) by lia.
  destruct (encode_loop_spec (List.length bytes) bytes [] (Z.to_nat n) (List.length bytes)) as (t & H1 & H2 & H3); auto; [lia|].
  exists t. cbn [app List.length] in H3. rewrite H3, <- Hc, H2, Nat.sub_diag. cbn [repeat]. rewrite app_nil_r. auto.
Qed.
Print Assumptions C08_encode_is_base64.

(** The bound is exact: from 1610612736 bytes the int computation of the output size overflows. *)
Theorem C08_encode_limit : forall bytes,
  1610612736 <= Z.of_nat (List.length bytes) < 2 ^ 31 -> encode bytes = None.
Proof.
  intros bytes H. change (2 ^ 31) with 2147483648 in H. destruct bytes as [|b0 bs]; [cbn in H; lia|].
  unfold encode, EncodeSize. rewrite s32_small by lia.
  assert (in_int32 (Z.quot (Z.of_nat (List.length (b0 :: bs))) 3 * 4) = false) as ->; [|reflexivity].
  destruct (in_int32 _) eqn:E; auto. apply in_int32_iff in E.
  rewrite Z.quot_div_nonneg in E by lia. Z.to_euclidean_division_equations. lia.
Qed.
Print Assumptions C08_encode_limit.

Lemma decode_spread : forall bytes text text', base64 bytes text -> spread text' text -> ends_kept text' ->
  bytes <> [] -> (forall p, text = p ++ [61; 61] -> exists p', text' = p' ++ [61; 61]) ->
  Z.of_nat (List.length text') < 2147483648 ->
  decode text' = Some (bytes ++ repeat 0 (3 * (List.length text' / 4 - List.length text / 4))).
Proof.
  intros bytes text text' HB Hs He Hne Hpad Hlen.
  pose proof (base64_length _ _ HB) as HL. pose proof (spread_length _ _ Hs) as HL'.
  assert (Hn1 : (1 <= List.length bytes)%nat) by (destruct bytes; cbn; [congruence|lia]).
  assert (Hq : (1 <= (List.length bytes + 2) / 3)%nat).
  { apply (Nat.div_le_mono 3 (List.length bytes + 2) 3); lia. }
  (* the last two characters *)
  destruct He as [->|(p1 & y & E1 & Hy)]; [cbn in HL'; lia|].
  subst text'. destruct (spread_last _ _ _ Hs Hy) as (t0 & Et0 & Hs0).
  destruct (exists_last (l := t0)) as (t1 & x & Et1).
  { intro; subst. cbn in HL. lia. }
  destruct (exists_last (l := p1)) as (p2 & x' & Ep1).
  { intro; subst. inversion Hs0; subst. destruct t1; discriminate. }
  pose proof (base64_tail _ _ HB t1 x y) as Ht. rewrite Et0, Et1, <- app_assoc in Ht. specialize (Ht eq_refl).
  destruct Ht as (T0 & T2 & T1).
  (* x' = '=' iff x = '=' when y = '=' *)
  assert (Hx : y = 61 -> (x' = 61 <-> x = 61)).
  { intros ->. split.
    - intros ->. rewrite Ep1, Et1 in Hs0. apply spread_last in Hs0; [|left; reflexivity].
      destruct Hs0 as (t2 & E & _). apply app_inj_tail in E. apply E.
    - intros ->. destruct (Hpad t1) as (p' & E).
      + rewrite Et0, Et1, <- app_assoc. reflexivity.
      + rewrite Ep1, <- app_assoc in E. cbn [app] in E.
        change (p' ++ [61; 61]) with (p' ++ [61] ++ [61]) in E.
        change (p2 ++ [x'; 61]) with (p2 ++ [x'] ++ [61]) in E.
        rewrite !app_assoc in E. apply app_inj_tail in E. destruct E as (E & _).
        apply app_inj_tail in E. apply E. }
  set (text' := p1 ++ [y]) in *.
  assert (Hdiv : (List.length text / 4 = (List.length bytes + 2) / 3)%nat)
    by (rewrite HL; apply Nat.div_mul; lia).
  assert (Hdle : (List.length text / 4 <= List.length text' / 4)%nat) by (apply Nat.div_le_mono; lia).
  assert (Hsize : DecodeSize text' = Some (Z.of_nat (3 * (List.length text' / 4) - (3 * ((List.length bytes + 2) / 3) - List.length bytes)))).
  { unfold DecodeSize. rewrite s32_small by lia. rewrite Z.quot_div_nonneg by lia.
    replace (Z.of_nat (List.length text') / 4) with (Z.of_nat (List.length text' / 4)) by (rewrite Nat2Z.inj_div; reflexivity).
    assert (Er : rev text' = y :: x' :: rev p2).
    { unfold text'. rewrite Ep1, !rev_app_distr. reflexivity. }
    rewrite Er.
    pose proof (Nat.div_mod (List.length bytes) 3 ltac:(lia)) as Hm.
    pose proof (Nat.div_mod (List.length bytes + 2) 3 ltac:(lia)) as Hm2.
    pose proof (Nat.mod_upper_bound (List.length bytes + 2) 3 ltac:(lia)) as Hm3.
    destruct (Z.eqb_spec y 61) as [Ey|Ey]; cbn [negb].
    - destruct (Z.eqb_spec x' 61) as [Ex|Ex].
      + specialize (T1 Ey (proj1 (Hx Ey) Ex)). f_equal. lia.
      + assert (x <> 61) by (intro; apply Ex, (Hx Ey); auto). specialize (T2 Ey H). f_equal. lia.
    - specialize (T0 Ey). f_equal. lia. }
  unfold decode. rewrite Hsize. rewrite (proj2 (Z.ltb_ge _ 0)) by lia. rewrite Nat2Z.id.
  pose proof (Nat.div_mod (List.length bytes + 2) 3 ltac:(lia)) as Hm2.
  pose proof (Nat.mod_upper_bound (List.length bytes + 2) 3 ltac:(lia)) as Hm3.
  pose proof (decode_loop_spec _ _ HB text' (List.length text') []
     (3 * (List.length text' / 4) - (3 * ((List.length bytes + 2) / 3) - List.length bytes))%nat Hs) as H.
  cbn [app List.length] in H. rewrite H; auto.
  - do 3 f_equal. lia.
  - right. exists p1, y. auto.
  - lia.
Qed.

(** Decoding what was encoded gives the bytes back. *)
Theorem C08_base64_round_trip : forall bytes, Forall is_byte bytes -> bytes <> [] ->
  Z.of_nat (List.length bytes) <= 1610612733 ->
  exists text, encode bytes = Some text /\ decode text = Some bytes.
Proof.
  intros bytes Hb Hne Hl.
  destruct (C08_encode_is_base64 bytes Hb ltac:(lia)) as (text & H1 & H2 & H3).
  exists text. split; auto.
  rewrite (decode_spread bytes text text); auto.
  - rewrite Nat.sub_diag, Nat.mul_0_r. cbn [repeat]. rewrite app_nil_r. reflexivity.
  - eapply spread_refl; eauto.
  - pose proof (spread_refl _ _ H2) as Hr. pose proof (spread_chars _ _ Hr) as Hc.
    destruct text as [|c t]; [left; auto|]. right.
    destruct (exists_last (l := c :: t)) as (p & y & E); [discriminate|].
    exists p, y. split; auto. rewrite E in Hc. apply Forall_app in Hc. destruct Hc as (_ & Hc).
    inversion Hc; auto.
  - intros p E. eauto.
  - rewrite H3. pose proof (Nat.div_mod (List.length bytes + 2) 3 ltac:(lia)).
    pose proof (Nat.mod_upper_bound (List.length bytes + 2) 3 ltac:(lia)). lia.
Qed.
Print Assumptions C08_base64_round_trip.
Example C08_demo : encode [0; 255; 16; 131; 7] = Some (tx "AP8Qgwc=") /\
  decode (tx "AP8Qgwc=") = Some [0; 255; 16; 131; 7] /\
  Forall is_byte [0; 255; 16; 131; 7].
Proof. split; [reflexivity|]. split; [reflexivity|]. repeat constructor; unfold is_byte; lia. Qed.

(** C09, full statement refuted: decoding nothing, or a text followed by a line break, reads past the
    end of the input; four line breaks add three bytes; a line break inside the padding adds one. *)
Theorem C09_decode_ignores_foreign_refuted :
  ~ (forall bytes text text', base64 bytes text -> spread text' text -> decode text' = Some bytes) /\
  decode [] = None /\
  decode (tx "QUJD" ++ [10]) = None /\
  decode (tx "QUJD" ++ [10; 10; 10; 10] ++ tx "QUJD") = Some [65; 66; 67; 65; 66; 67; 0; 0; 0] /\
  decode (tx "QQ=" ++ [10] ++ tx "=") = Some [65; 0].
Proof.
  split; [|repeat split; reflexivity].
  intro H. specialize (H [] [] [] B64_nil Sp_nil). discriminate.
Qed.
Print Assumptions C09_decode_ignores_foreign_refuted.

(** What holds for texts with inserted characters: if the text does not end with an inserted character and
    none separates a final "==", decode returns the bytes, followed by three zero bytes for every four
    inserted characters (none if fewer than four were inserted). *)
Theorem C09_decode_ignores_foreign_partial : forall bytes text text', base64 bytes text ->
  spread text' text -> bytes <> [] ->
  (exists p c, text' = p ++ [c] /\ base64_char c) ->
  (forall p, text = p ++ [61; 61] -> exists p', text' = p' ++ [61; 61]) ->
  Z.of_nat (List.length text') < 2 ^ 31 ->
  decode text' = Some (bytes ++ repeat 0 (3 * ((List.length text' - List.length text) / 4))) /\
  (List.length text' < List.length text + 4 -> decode text' = Some bytes)%nat.
Proof.
  intros bytes text text' HB Hs Hne He Hp Hl. change (2 ^ 31) with 2147483648 in Hl.
  assert (E : decode text' = Some (bytes ++ repeat 0 (3 * ((List.length text' - List.length text) / 4)))).
  { rewrite (decode_spread bytes text text'); auto; [|right; auto]. do 3 f_equal.
    pose proof (spread_length _ _ Hs) as HL. pose proof (base64_length _ _ HB) as HL2.
    set (k := ((List.length bytes + 2) / 3)%nat) in *. rewrite HL2 in *. rewrite Nat.div_mul by lia.
    replace (List.length text') with ((List.length text' - k * 4) + k * 4)%nat at 1 by lia.
    rewrite Nat.div_add by lia. lia. }
  split; auto. intro H. rewrite E. rewrite Nat.div_small by lia. cbn. rewrite app_nil_r. reflexivity.
Qed.
Print Assumptions C09_decode_ignores_foreign_partial.

(** Memory safety, exactly: decode neither reads nor writes out of bounds if and only if the text ends with
    a base64 character and the number of base64 characters in it is a multiple of four. *)
Theorem C09_decode_safe_iff : forall t q, Z.of_nat (List.length t) < 2 ^ 31 -> spread t q ->
  (exists r, decode t = Some r) <->
  ((exists p c, t = p ++ [c] /\ base64_char c) /\ (List.length q mod 4 = 0)%nat).
Proof.
  intros t q Hl Hs. change (2 ^ 31) with 2147483648 in Hl. split.
  - intros (r & H). unfold decode in H. destruct (DecodeSize t) as [n|] eqn:En; [|discriminate].
    destruct (n <? 0); [discriminate|].
    destruct (decode_loop_needs _ _ _ _ _ _ Hs H) as (He & m & Hm).
    destruct He as [->|He]; [cbn in En; discriminate|].
    split; auto. rewrite Hm, Nat.mul_comm. apply Nat.mod_mul. lia.
  - intros ((p & y & Et & Hy) & Hm).
    assert (exists n, List.length q = (4 * n)%nat) as (n & Hn).
    { exists (List.length q / 4)%nat. apply Nat.div_exact; lia. }
    pose proof (spread_length _ _ Hs) as HL.
    rewrite Et in Hs. destruct (spread_last _ _ _ Hs Hy) as (q0 & Eq & Hs0). rewrite <- Et in Hs.
    destruct n as [|n]; [rewrite Eq, app_length in Hn; cbn in Hn; lia|].
    destruct (exists_last (l := q0)) as (q1 & x & Eq0).
    { intro; subst q0. rewrite Eq in Hn. cbn in Hn. lia. }
    destruct (exists_last (l := p)) as (p1 & x' & Ep).
    { intro; subst p. inversion Hs0; subst. destruct q1; discriminate. }
    pose proof (emitted_bound n q Hn q1 x y) as Hb.
    rewrite Eq, Eq0, <- app_assoc in Hb. specialize (Hb eq_refl).
    replace (q1 ++ [x] ++ [y]) with q in Hb by (rewrite Eq, Eq0, <- app_assoc; reflexivity).
    assert (Hd : (S n <= List.length t / 4)%nat).
    { replace (S n) with ((4 * S n) / 4)%nat by (rewrite Nat.mul_comm; apply Nat.div_mul; lia).
      apply Nat.div_le_mono; lia. }
    assert (Hsz : exists k, DecodeSize t = Some (Z.of_nat k) /\ (3 * n + out_count x y <= k)%nat).
    { unfold DecodeSize. rewrite s32_small by lia. rewrite Z.quot_div_nonneg by lia.
      replace (Z.of_nat (List.length t) / 4) with (Z.of_nat (List.length t / 4)) by (rewrite Nat2Z.inj_div; reflexivity).
      assert (Er : rev t = y :: x' :: rev p1) by (rewrite Et, Ep, !rev_app_distr; reflexivity).
      rewrite Er. unfold out_count. destruct (Z.eqb_spec y 61) as [Ey|Ey]; cbn [negb].
      - destruct (Z.eqb_spec x' 61) as [Ex|Ex].
        + assert (x = 61) as ->.
          { rewrite Ep, Eq0 in Hs0. subst x'. apply spread_last in Hs0; [|left; reflexivity].
            destruct Hs0 as (t2 & E & _). apply app_inj_tail in E. apply E. }
          exists (3 * (List.length t / 4) - 2)%nat. split; [f_equal; lia|]. cbn [Z.eqb Pos.eqb]. lia.
        + exists (3 * (List.length t / 4) - 1)%nat. split; [f_equal; lia|]. destruct (x =? 61); lia.
      - exists (3 * (List.length t / 4))%nat. split; [f_equal; lia|]. lia. }
    destruct Hsz as (k & Ek & Hk). unfold decode. rewrite Ek.
    rewrite (proj2 (Z.ltb_ge _ 0)) by lia. rewrite Nat2Z.id.
    apply (decode_loop_ok (S n) t q); auto.
    + right. eauto.
    + rewrite repeat_length. lia.
Qed.
Print Assumptions C09_decode_safe_iff.
Example C09_demo : decode (tx "QUJD" ++ [13; 10] ++ tx "RA=" ++ tx "=") = Some [65; 66; 67; 68] /\
  spread (tx "QU" ++ [10] ++ tx "JD") (tx "QUJD") /\ base64 [65; 66; 67] (tx "QUJD").
Proof.
  split; [reflexivity|].
  assert (S81 : sym 16 81) by (unfold sym; lia). assert (S85 : sym 20 85) by (unfold sym; lia).
  assert (S74 : sym 9 74) by (unfold sym; lia). assert (S68 : sym 3 68) by (unfold sym; lia).
  split.
  - repeat (apply Sp_keep; [right; eauto|] || apply Sp_nil || apply Sp_drop).
    intros [|(v & H)]; [discriminate|]. unfold sym in H. lia.
  - eapply B64_three; eauto using B64_nil; unfold is_byte; lia.
Qed.
