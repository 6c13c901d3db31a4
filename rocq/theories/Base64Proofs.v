From Coq Require Import List ZArith Bool Lia.
From Verif Require Import TextModel TextProofs Base64Model Base64Spec.
Import ListNotations.
Local Open Scope Z_scope.

Definition zs (n : nat) : list Z := map Z.of_nat (seq 0 n).
Lemma in_zs : forall n v, 0 <= v < Z.of_nat n -> In v (zs n).
Proof.
  intros n v H. unfold zs. apply in_map_iff. exists (Z.to_nat v). split; [lia|]. apply in_seq. lia.
Qed.

Definition sym_char (v : Z) : Z := nth (Z.to_nat v) ALPHABET 0.
Lemma sym_alpha : forall v, 0 <= v < 64 -> sym v (sym_char v).
Proof.
  intros v H. unfold sym.
  assert (E : forallb (fun v => if v <? 26 then sym_char v =? 65 + v else if v <? 52 then sym_char v =? 97 + (v - 26)
     else if v <? 62 then sym_char v =? 48 + (v - 52) else if v =? 62 then sym_char v =? 43 else sym_char v =? 47) (zs 64) = true)
    by (vm_compute; reflexivity).
  rewrite forallb_forall in E. specialize (E v (in_zs 64 v H)). cbv beta in E.
  destruct (Z.ltb_spec v 26); [apply Z.eqb_eq in E; lia|].
  destruct (Z.ltb_spec v 52); [apply Z.eqb_eq in E; lia|].
  destruct (Z.ltb_spec v 62); [apply Z.eqb_eq in E; lia|].
  destruct (Z.eqb_spec v 62); apply Z.eqb_eq in E; lia.
Qed.

Lemma sym_range : forall v c, sym v c -> 0 <= v < 64.
Proof. unfold sym. lia. Qed.
Lemma sym_fun : forall v c, sym v c -> c = sym_char v.
Proof.
  intros v c H. pose proof (sym_alpha v (sym_range _ _ H)) as H2. unfold sym in *. lia.
Qed.

Lemma dealpha_sym : forall v c, sym v c -> dealpha c = Some v /\ kept c = true /\ c <> 61.
Proof.
  intros v c H. rewrite (sym_fun v c H). pose proof (sym_range _ _ H) as Hr.
  assert (E : forallb (fun v => match dealpha (sym_char v) with Some x => x =? v | None => false end &&
     kept (sym_char v) && negb (sym_char v =? 61)) (zs 64) = true) by (vm_compute; reflexivity).
  rewrite forallb_forall in E. specialize (E v (in_zs 64 v Hr)). cbv beta in E.
  apply andb_true_iff in E. destruct E as [E E3]. apply andb_true_iff in E. destruct E as [E1 E2].
  destruct (dealpha (sym_char v)); [|discriminate]. apply Z.eqb_eq in E1. subst z.
  apply negb_true_iff, Z.eqb_neq in E3. auto.
Qed.

Lemma kept_char : forall c, kept c = true <-> base64_char c.
Proof.
  intro c. unfold base64_char. split.
  - unfold kept. rewrite !orb_true_iff, !andb_true_iff, !Z.leb_le, !Z.eqb_eq. unfold sym.
    intros [[[[[H|H]|H]|H]|H]|H]; [right|right|right|right|right|left].
    + exists (c - 48 + 52). lia.
    + exists (c - 65). lia.
    + exists (c - 97 + 26). lia.
    + exists 62. lia.
    + exists 63. lia.
    + auto.
  - intros [->|(v & H)]; [reflexivity|]. apply (dealpha_sym v c H).
Qed.
Lemma kept_not : forall c, kept c = false <-> ~ base64_char c.
Proof. intro c. rewrite <- kept_char. destruct (kept c); split; congruence. Qed.

(** *** Bit level *)
Lemma top6_spec : forall b, 0 <= b < 4294967296 -> top6 b = sym_char (b / 67108864).
Proof.
  intros b Hb. unfold top6, sym_char. do 2 f_equal.
  rewrite Z.shiftr_land. change (Z.shiftr 4227858432 26) with (Z.ones 6).
  rewrite Z.land_ones by lia. rewrite Z.shiftr_div_pow2 by lia.
  change (2 ^ 26) with 67108864. change (2 ^ 6) with 64.
  apply Z.mod_small. split; [apply Z.div_pos; lia|apply Z.div_lt_upper_bound; lia].
Qed.
Lemma shl_spec : forall b k, 0 <= k -> shl b k = (b * 2 ^ k) mod 4294967296.
Proof. intros b k Hk. unfold shl, u32. rewrite Z.shiftl_mul_pow2 by lia. reflexivity. Qed.

Lemma land_64 : forall a v, 0 <= v < 64 -> Z.land (64 * a) v = 0.
Proof.
  intros a v Hv. apply Z.bits_inj'. intros n Hn. rewrite Z.land_spec, Z.bits_0.
  destruct (Z.ltb_spec n 6).
  - change 64 with (2 ^ 6). rewrite Z.mul_comm, Z.mul_pow2_bits_low by lia. reflexivity.
  - destruct (Z.eq_dec v 0) as [->|Hz]; [rewrite Z.bits_0, andb_false_r; reflexivity|].
    rewrite (Z.bits_above_log2 v n), andb_false_r; [reflexivity|lia|].
    apply Z.log2_lt_pow2; [lia|]. assert (2 ^ 6 <= 2 ^ n) by (apply Z.pow_le_mono_r; lia). lia.
Qed.
Lemma lor_add : forall a v, 0 <= v < 64 -> Z.lor (64 * a) v = 64 * a + v.
Proof.
  intros a v Hv. rewrite <- Z.lxor_lor, <- Z.add_nocarry_lxor; auto using land_64.
Qed.

Lemma mod_eq : forall x m q r, 0 <= r < m -> x = m * q + r -> x mod m = r.
Proof. intros x m q r Hr E. symmetry. apply (Z.mod_unique x m q r); [left; lia|lia]. Qed.
Lemma div_eq : forall x m q r, 0 <= r < m -> x = m * q + r -> x / m = q.
Proof. intros x m q r Hr E. symmetry. apply (Z.div_unique x m q r); [left; lia|lia]. Qed.

Lemma split6 : forall n, 0 <= n < 16777216 -> exists v0 v1 v2 v3,
  0 <= v0 < 64 /\ 0 <= v1 < 64 /\ 0 <= v2 < 64 /\ 0 <= v3 < 64 /\
  n = ((v0 * 64 + v1) * 64 + v2) * 64 + v3.
Proof.
  intros n H. exists (n / 262144), (n / 4096 mod 64), (n / 64 mod 64), (n mod 64).
  Z.to_euclidean_division_equations. lia.
Qed.

Lemma enc3 : forall a b c, is_byte a -> is_byte b -> is_byte c ->
  exists v0 v1 v2 v3, (a * 256 + b) * 256 + c = ((v0 * 64 + v1) * 64 + v2) * 64 + v3 /\
    0 <= v0 < 64 /\ 0 <= v1 < 64 /\ 0 <= v2 < 64 /\ 0 <= v3 < 64 /\
    EncodeByteTriple [a; b; c] = Some [sym_char v0; sym_char v1; sym_char v2; sym_char v3].
Proof.
  unfold is_byte. intros a b c Ha Hb Hc.
  destruct (split6 ((a * 256 + b) * 256 + c) ltac:(lia)) as (v0 & v1 & v2 & v3 & H0 & H1 & H2 & H3 & E).
  exists v0, v1, v2, v3. repeat (split; [assumption || lia|]).
  unfold EncodeByteTriple.
  replace (a * 16777216 + b * 65536 + c * 256) with ((((v0 * 64 + v1) * 64 + v2) * 64 + v3) * 256) by lia.
  rewrite !shl_spec by lia. change (2 ^ 6) with 64.
  rewrite (mod_eq ((((v0 * 64 + v1) * 64 + v2) * 64 + v3) * 256 * 64) 4294967296 v0 (((v1 * 64 + v2) * 64 + v3) * 16384)) by lia.
  rewrite (mod_eq (((v1 * 64 + v2) * 64 + v3) * 16384 * 64) 4294967296 v1 ((v2 * 64 + v3) * 1048576)) by lia.
  rewrite (mod_eq ((v2 * 64 + v3) * 1048576 * 64) 4294967296 v2 (v3 * 67108864)) by lia.
  rewrite !top6_spec by lia.
  rewrite (div_eq _ 67108864 v0 (((v1 * 64 + v2) * 64 + v3) * 256)) by lia.
  rewrite (div_eq _ 67108864 v1 ((v2 * 64 + v3) * 16384)) by lia.
  rewrite (div_eq _ 67108864 v2 (v3 * 1048576)) by lia.
  rewrite (div_eq _ 67108864 v3 0) by lia. reflexivity.
Qed.

Lemma enc2 : forall a b, is_byte a -> is_byte b ->
  exists v0 v1 v2, (a * 256 + b) * 4 = (v0 * 64 + v1) * 64 + v2 /\
    0 <= v0 < 64 /\ 0 <= v1 < 64 /\ 0 <= v2 < 64 /\
    EncodeByteTriple [a; b] = Some [sym_char v0; sym_char v1; sym_char v2; 61].
Proof.
  unfold is_byte. intros a b Ha Hb.
  destruct (split6 ((a * 256 + b) * 4) ltac:(lia)) as (z & v0 & v1 & v2 & Hz & H0 & H1 & H2 & E).
  assert (z = 0) by lia. subst z.
  exists v0, v1, v2. repeat (split; [assumption || lia|]).
  unfold EncodeByteTriple.
  replace (a * 16777216 + b * 65536) with (((v0 * 64 + v1) * 64 + v2) * 16384) by lia.
  rewrite !shl_spec by lia. change (2 ^ 6) with 64.
  rewrite (mod_eq (((v0 * 64 + v1) * 64 + v2) * 16384 * 64) 4294967296 v0 ((v1 * 64 + v2) * 1048576)) by lia.
  rewrite (mod_eq ((v1 * 64 + v2) * 1048576 * 64) 4294967296 v1 (v2 * 67108864)) by lia.
  rewrite !top6_spec by lia.
  rewrite (div_eq _ 67108864 v0 ((v1 * 64 + v2) * 16384)) by lia.
  rewrite (div_eq _ 67108864 v1 (v2 * 1048576)) by lia.
  rewrite (div_eq _ 67108864 v2 0) by lia. reflexivity.
Qed.

Lemma enc1 : forall a, is_byte a ->
  exists v0 v1, a * 16 = v0 * 64 + v1 /\ 0 <= v0 < 64 /\ 0 <= v1 < 64 /\
    EncodeByteTriple [a] = Some [sym_char v0; sym_char v1; 61; 61].
Proof.
  unfold is_byte. intros a Ha.
  destruct (split6 (a * 16) ltac:(lia)) as (z & z' & v0 & v1 & Hz & Hz' & H0 & H1 & E).
  assert (z = 0) by lia. assert (z' = 0) by lia. subst z z'.
  exists v0, v1. repeat (split; [assumption || lia|]).
  unfold EncodeByteTriple.
  replace (a * 16777216) with ((v0 * 64 + v1) * 1048576) by lia.
  rewrite !shl_spec by lia. change (2 ^ 6) with 64.
  rewrite (mod_eq ((v0 * 64 + v1) * 1048576 * 64) 4294967296 v0 (v1 * 67108864)) by lia.
  rewrite !top6_spec by lia.
  rewrite (div_eq _ 67108864 v0 (v1 * 1048576)) by lia.
  rewrite (div_eq _ 67108864 v1 0) by lia. reflexivity.
Qed.

Lemma shift_in_sym : forall b v c, sym v c -> 0 <= b < 67108864 / 64 ->
  shift_in (Some (64 * b)) c = Some (64 * (64 * b + v)).
Proof.
  intros b v c H Hb. unfold shift_in. destruct (dealpha_sym v c H) as (E & _). rewrite E.
  pose proof (sym_range _ _ H). change (67108864 / 64) with 1048576 in Hb.
  rewrite lor_add by lia. rewrite shl_spec by lia. f_equal. change (2 ^ 6) with 64.
  rewrite Z.mod_small; lia.
Qed.

Lemma byte_eq : forall x k q r b, 0 <= k -> 0 <= r < 2 ^ (8 * k) -> 0 <= b < 256 ->
  x = 2 ^ (8 * k) * (256 * q + b) + r -> byte_of x k = b.
Proof.
  intros x k q r b Hk Hr Hb E. unfold byte_of.
  rewrite (div_eq x (2 ^ (8 * k)) (256 * q + b) r) by auto. apply (mod_eq _ _ q); lia.
Qed.

Lemma dec3 : forall a b c v0 v1 v2 v3 c0 c1 c2 c3, is_byte a -> is_byte b -> is_byte c ->
  (a * 256 + b) * 256 + c = ((v0 * 64 + v1) * 64 + v2) * 64 + v3 ->
  sym v0 c0 -> sym v1 c1 -> sym v2 c2 -> sym v3 c3 ->
  DecodebyteQuartet c0 c1 c2 c3 = Some [a; b; c].
Proof.
  unfold is_byte. intros a b c v0 v1 v2 v3 c0 c1 c2 c3 Ha Hb Hc E S0 S1 S2 S3. unfold DecodebyteQuartet.
  destruct (dealpha_sym _ _ S3) as (_ & _ & N3). apply Z.eqb_neq in N3. rewrite N3.
  pose proof (sym_range _ _ S0). pose proof (sym_range _ _ S1). pose proof (sym_range _ _ S2). pose proof (sym_range _ _ S3).
  change (Some 0) with (Some (64 * 0)).
  assert (67108864 / 64 = 1048576) as K by reflexivity.
  rewrite (shift_in_sym 0 v0), (shift_in_sym (64 * 0 + v0) v1), (shift_in_sym (64 * (64 * 0 + v0) + v1) v2),
    (shift_in_sym (64 * (64 * (64 * 0 + v0) + v1) + v2) v3) by (auto; rewrite K; lia).
  rewrite shl_spec by lia. change (2 ^ 2) with 4. rewrite Z.mod_small by lia.
  f_equal. f_equal; [|f_equal; [|f_equal]].
  - apply (byte_eq _ 3 0 (b * 65536 + c * 256)); try change (2 ^ (8 * 3)) with 16777216; lia.
  - apply (byte_eq _ 2 a (c * 256)); try change (2 ^ (8 * 2)) with 65536; lia.
  - apply (byte_eq _ 1 (a * 256 + b) 0); try change (2 ^ (8 * 1)) with 256; lia.
Qed.

Lemma dec2 : forall a b v0 v1 v2 c0 c1 c2, is_byte a -> is_byte b ->
  (a * 256 + b) * 4 = (v0 * 64 + v1) * 64 + v2 ->
  sym v0 c0 -> sym v1 c1 -> sym v2 c2 -> DecodebyteQuartet c0 c1 c2 61 = Some [a; b].
Proof.
  unfold is_byte. intros a b v0 v1 v2 c0 c1 c2 Ha Hb E S0 S1 S2. unfold DecodebyteQuartet.
  cbn [Z.eqb Pos.eqb].
  destruct (dealpha_sym _ _ S2) as (_ & _ & N2). apply Z.eqb_neq in N2. rewrite N2.
  pose proof (sym_range _ _ S0). pose proof (sym_range _ _ S1). pose proof (sym_range _ _ S2).
  change (Some 0) with (Some (64 * 0)).
  assert (67108864 / 64 = 1048576) as K by reflexivity.
  rewrite (shift_in_sym 0 v0), (shift_in_sym (64 * 0 + v0) v1), (shift_in_sym (64 * (64 * 0 + v0) + v1) v2)
    by (auto; rewrite K; lia).
  rewrite shl_spec by lia. change (2 ^ 8) with 256. rewrite Z.mod_small by lia.
  f_equal. f_equal; [|f_equal].
  - apply (byte_eq _ 3 0 (b * 65536)); try change (2 ^ (8 * 3)) with 16777216; lia.
  - apply (byte_eq _ 2 a 0); try change (2 ^ (8 * 2)) with 65536; lia.
Qed.

Lemma dec1 : forall a v0 v1 c0 c1, is_byte a ->
  a * 16 = v0 * 64 + v1 -> sym v0 c0 -> sym v1 c1 -> DecodebyteQuartet c0 c1 61 61 = Some [a].
Proof.
  unfold is_byte. intros a v0 v1 c0 c1 Ha E S0 S1. unfold DecodebyteQuartet.
  cbn [Z.eqb Pos.eqb].
  pose proof (sym_range _ _ S0). pose proof (sym_range _ _ S1).
  change (Some 0) with (Some (64 * 0)).
  assert (67108864 / 64 = 1048576) as K by reflexivity.
  rewrite (shift_in_sym 0 v0), (shift_in_sym (64 * 0 + v0) v1) by (auto; rewrite K; lia).
  rewrite shl_spec by lia. change (2 ^ 14) with 16384. rewrite Z.mod_small by lia.
  f_equal. f_equal. apply (byte_eq _ 3 0 0); try change (2 ^ (8 * 3)) with 16777216; lia.
Qed.

(** *** Buffers *)
Lemma store_spec : forall vs done k, (length vs <= k)%nat ->
  store (done ++ repeat 0 k) (length done) vs = Some ((done ++ vs) ++ repeat 0 (k - length vs)).
Proof.
  induction vs as [|v vs IH]; intros done k Hk; cbn [store length] in *.
  - rewrite app_nil_r, Nat.sub_0_r. reflexivity.
  - destruct k as [|k]; [lia|]. cbn [repeat].
    rewrite (proj2 (Nat.ltb_lt _ _)) by (rewrite app_length; cbn; lia).
    rewrite upd_mid. replace (done ++ v :: repeat 0 k) with ((done ++ [v]) ++ repeat 0 k) by (rewrite <- app_assoc; reflexivity).
    replace (S (length done)) with (length (done ++ [v])) by (rewrite app_length; cbn; lia).
    rewrite IH by lia. rewrite <- (app_assoc done [v] vs). reflexivity.
Qed.

Lemma encode_loop_spec : forall n s done k fuel, (length s <= n)%nat -> (length s <= fuel)%nat ->
  Forall is_byte s -> ((length s + 2) / 3 * 4 <= k)%nat ->
  exists t, base64 s t /\ length t = ((length s + 2) / 3 * 4)%nat /\
    encode_loop fuel s (length done) (done ++ repeat 0 k) = Some ((done ++ t) ++ repeat 0 (k - length t)).
Proof.
  induction n as [|n IH]; intros s done k fuel Hn Hf Hb Hk.
  - destruct s; [|cbn in Hn; lia]. exists []. split; [constructor|]. split; [reflexivity|].
    destruct fuel; cbn; rewrite app_nil_r, Nat.sub_0_r; reflexivity.
  - destruct s as [|a [|b [|c s]]].
    + exists []. split; [constructor|]. split; [reflexivity|].
      destruct fuel; cbn; rewrite app_nil_r, Nat.sub_0_r; reflexivity.
    + destruct fuel as [|fuel]; [cbn in Hf; lia|]. inversion Hb; subst.
      destruct (enc1 a) as (v0 & v1 & E & R0 & R1 & Eq); auto.
      exists [sym_char v0; sym_char v1; 61; 61]. split; [econstructor; eauto using sym_alpha|]. split; [reflexivity|].
      cbn [encode_loop length Nat.leb]. rewrite Eq. apply store_spec. cbn in *. lia.
    + destruct fuel as [|fuel]; [cbn in Hf; lia|]. inversion Hb as [|? ? H1 H2]; subst. inversion H2; subst.
      destruct (enc2 a b) as (v0 & v1 & v2 & E & R0 & R1 & R2 & Eq); auto.
      exists [sym_char v0; sym_char v1; sym_char v2; 61]. split; [econstructor; eauto using sym_alpha|]. split; [reflexivity|].
      cbn [encode_loop length Nat.leb]. rewrite Eq. apply store_spec. cbn in *. lia.
    + destruct fuel as [|fuel]; [cbn in Hf; lia|].
      inversion Hb as [|? ? H1 H2]; subst. inversion H2 as [|? ? H3 H4]; subst. inversion H4 as [|? ? H5 H6]; subst.
      destruct (enc3 a b c) as (v0 & v1 & v2 & v3 & E & R0 & R1 & R2 & R3 & Eq); auto.
      assert (Hlen : ((length (a :: b :: c :: s) + 2) / 3 = S ((length s + 2) / 3))%nat).
      { cbn [length]. replace (S (S (S (length s))) + 2)%nat with (1 * 3 + (length s + 2))%nat by lia.
        rewrite Nat.div_add_l by lia. lia. }
      rewrite Hlen in Hk.
      set (q := [sym_char v0; sym_char v1; sym_char v2; sym_char v3]) in *.
      destruct (IH s (done ++ q) (k - 4)%nat fuel) as (t & Ht & Hl & Hr); auto; try (cbn in *; lia).
      exists (q ++ t). split; [|split].
      * unfold q. cbn [app]. econstructor; eauto using sym_alpha.
      * rewrite Hlen. rewrite app_length, Hl. cbn. lia.
      * cbn [encode_loop length Nat.leb firstn skipn]. rewrite Eq. fold q.
        rewrite store_spec by (cbn; lia). change (length q) with 4%nat.
        replace (length done + 4)%nat with (length (done ++ q)) by (rewrite app_length; reflexivity).
        rewrite Hr. rewrite app_length. change (length q) with 4%nat.
        rewrite <- (app_assoc done q t). do 3 f_equal. lia.
Qed.

(** *** Decoding *)
Lemma spread_step : forall t' c t, spread t' (c :: t) -> base64_char c ->
  exists s, next_kept t' = Some (c, s) /\ spread s t /\ (length s < length t')%nat /\
    exists pre, t' = pre ++ s /\ (s = [] -> exists p, t' = p ++ [c]).
Proof.
  intros t' c t H. remember (c :: t) as ct eqn:E. revert c t E.
  induction H as [|d t' t Hd H IH|d t' t Hd H IH]; intros c t1 E Hc; [discriminate| |].
  - injection E as -> ->. cbn [next_kept]. apply kept_char in Hd. rewrite Hd.
    exists t'. split; auto. split; auto. split; [cbn; lia|]. exists [c]. split; [reflexivity|].
    intros ->. exists []. reflexivity.
  - destruct (IH c t1 E Hc) as (s & E1 & E2 & E3 & pre & E4 & E5). apply kept_not in Hd.
    cbn [next_kept]. rewrite Hd. exists s. split; auto. split; auto. split; [cbn; lia|].
    exists (d :: pre). split; [cbn; congruence|]. intro Hs. destruct (E5 Hs) as (p & Ep).
    exists (d :: p). cbn. congruence.
Qed.

(** The text is empty or ends with a meaningful character. *)
Definition ends_kept (t : list Z) : Prop := t = [] \/ exists p c, t = p ++ [c] /\ base64_char c.

Lemma ends_kept_suffix : forall pre s, ends_kept (pre ++ s) -> ends_kept s.
Proof.
  intros pre s H. destruct s as [|x s]; [left; auto|]. right.
  destruct H as [H|(p & c & E & Hc)]; [destruct pre; discriminate|].
  destruct (exists_last (l := x :: s)) as (q & y & Ey); [discriminate|].
  rewrite Ey in E |- *. rewrite app_assoc in E. apply app_inj_tail in E. destruct E as (_ & ->).
  eauto.
Qed.

Lemma spread_nil_ends : forall t, spread t [] -> ends_kept t -> t = [].
Proof.
  intros t H [->|(p & c & -> & Hc)]; auto. exfalso.
  remember (p ++ [c]) as t'. remember [] as e. revert p Heqt'.
  induction H as [|d t' t Hd H IH|d t' t Hd H IH]; intros p Et; subst; try discriminate.
  - destruct p; discriminate.
  - destruct p as [|y p]; cbn in Et; injection Et as <- Et; [auto|]. apply (IH eq_refl p); auto.
Qed.

Lemma sym_char_ok : forall v c, sym v c -> base64_char c.
Proof. intros; right; eauto. Qed.
Lemma pad_ok : base64_char 61. Proof. left; reflexivity. Qed.

Lemma quartet_spec : forall t' c0 c1 c2 c3 t, spread t' (c0 :: c1 :: c2 :: c3 :: t) ->
  base64_char c0 -> base64_char c1 -> base64_char c2 -> base64_char c3 ->
  exists s0 s1 s2 s3, next_kept t' = Some (c0, s0) /\ next_kept s0 = Some (c1, s1) /\
    next_kept s1 = Some (c2, s2) /\ next_kept s2 = Some (c3, s3) /\ spread s3 t /\
    (length s3 < length t')%nat /\ exists pre, t' = pre ++ s3.
Proof.
  intros t' c0 c1 c2 c3 t H K0 K1 K2 K3.
  destruct (spread_step _ _ _ H K0) as (s0 & E0 & H0 & L0 & p0 & P0 & _).
  destruct (spread_step _ _ _ H0 K1) as (s1 & E1 & H1 & L1 & p1 & P1 & _).
  destruct (spread_step _ _ _ H1 K2) as (s2 & E2 & H2 & L2 & p2 & P2 & _).
  destruct (spread_step _ _ _ H2 K3) as (s3 & E3 & H3 & L3 & p3 & P3 & _).
  exists s0, s1, s2, s3. repeat (split; [assumption|]). split; [lia|].
  exists (p0 ++ p1 ++ p2 ++ p3). rewrite P0, P1, P2, P3. rewrite !app_assoc. reflexivity.
Qed.

Lemma decode_loop_spec : forall bytes t, base64 bytes t -> forall t' fuel done k,
  spread t' t -> ends_kept t' -> (length t' <= fuel)%nat -> (length bytes <= k)%nat ->
  decode_loop fuel t' (length done) (done ++ repeat 0 k) =
    Some ((done ++ bytes) ++ repeat 0 (k - length bytes)).
Proof.
  intros bytes t HB. induction HB as [|b v0 v1 c0 c1 Hb E S0 S1|a b v0 v1 v2 c0 c1 c2 Ha Hb E S0 S1 S2|
    a b c v0 v1 v2 v3 c0 c1 c2 c3 bytes text Ha Hb Hc E S0 S1 S2 S3 HB IH];
    intros t' fuel done k Hs He Hf Hk.
  - rewrite (spread_nil_ends t' Hs He). rewrite app_nil_r, Nat.sub_0_r. destruct fuel; reflexivity.
  - destruct (quartet_spec _ _ _ _ _ _ Hs) as (s0 & s1 & s2 & s3 & E0 & E1 & E2 & E3 & H3 & L & pre & P);
      eauto using sym_char_ok, pad_ok.
    assert (s3 = []) as -> by (apply spread_nil_ends; auto; subst t'; eauto using ends_kept_suffix).
    destruct t' as [|x t']; [cbn in L; lia|]. destruct fuel as [|fuel]; [cbn in Hf; lia|].
    cbn [decode_loop]. rewrite E0, E1, E2, E3. rewrite (dec1 b v0 v1) by auto.
    rewrite store_spec by auto. destruct fuel; reflexivity.
  - destruct (quartet_spec _ _ _ _ _ _ Hs) as (s0 & s1 & s2 & s3 & E0 & E1 & E2 & E3 & H3 & L & pre & P);
      eauto using sym_char_ok, pad_ok.
    assert (s3 = []) as -> by (apply spread_nil_ends; auto; subst t'; eauto using ends_kept_suffix).
    destruct t' as [|x t']; [cbn in L; lia|]. destruct fuel as [|fuel]; [cbn in Hf; lia|].
    cbn [decode_loop]. rewrite E0, E1, E2, E3. rewrite (dec2 a b v0 v1 v2) by auto.
    rewrite store_spec by auto. destruct fuel; reflexivity.
  - destruct (quartet_spec _ _ _ _ _ _ Hs) as (s0 & s1 & s2 & s3 & E0 & E1 & E2 & E3 & H3 & L & pre & P);
      eauto using sym_char_ok, pad_ok.
    assert (ends_kept s3) by (subst t'; eauto using ends_kept_suffix).
    destruct t' as [|x t']; [cbn in L; lia|]. destruct fuel as [|fuel]; [cbn in Hf; lia|].
    cbn [decode_loop]. rewrite E0, E1, E2, E3. rewrite (dec3 a b c v0 v1 v2 v3) by auto.
    cbn [length] in Hk.
    rewrite store_spec by (cbn; lia).
    replace (length done + length [a; b; c])%nat with (length (done ++ [a; b; c])) by (rewrite app_length; reflexivity).
    rewrite IH; auto.
    + rewrite <- (app_assoc done [a; b; c] bytes). cbn [app length]. do 3 f_equal. lia.
    + cbn in Hf, L. lia.
    + cbn [length]. lia.
Qed.

Lemma base64_length : forall bytes t, base64 bytes t ->
  length t = ((length bytes + 2) / 3 * 4)%nat.
Proof.
  intros bytes t H. induction H; auto. cbn [length]. rewrite IHbase64.
  replace (S (S (S (length bytes))) + 2)%nat with (1 * 3 + (length bytes + 2))%nat by lia.
  rewrite Nat.div_add_l by lia. lia.
Qed.

(** The end of a base64 text, seen through inserted characters. *)
Lemma spread_refl : forall bytes t, base64 bytes t -> spread t t.
Proof.
  intros bytes t H. induction H; repeat (constructor; eauto using sym_char_ok, pad_ok).
Qed.
Lemma spread_length : forall t' t, spread t' t -> (length t <= length t')%nat.
Proof. induction 1; cbn; lia. Qed.
Lemma spread_last : forall t' t c, spread (t' ++ [c]) t -> base64_char c ->
  exists t0, t = t0 ++ [c] /\ spread t' t0.
Proof.
  induction t' as [|d t' IH]; intros t c H Hc; cbn in H.
  - inversion H; subst; [|contradiction]. inversion H4; subst. exists []. split; auto; constructor.
  - inversion H as [|d' t1 t2 Hd H1|d' t1 t2 Hd H1]; subst.
    + destruct (IH _ _ H1 Hc) as (t0 & -> & H2). exists (d :: t0). split; [reflexivity|]. constructor; auto.
    + destruct (IH _ _ H1 Hc) as (t0 & -> & H2). exists t0. split; [reflexivity|]. constructor; auto.
Qed.

(** The number of padding characters by the last two characters. *)
Lemma base64_tail : forall bytes t, base64 bytes t -> forall p x y, t = p ++ [x; y] ->
  (y <> 61 -> (length bytes mod 3 = 0)%nat) /\
  (y = 61 -> x <> 61 -> (length bytes mod 3 = 2)%nat) /\
  (y = 61 -> x = 61 -> (length bytes mod 3 = 1)%nat).
Proof.
  intros bytes t H. induction H; intros p x y E.
  - destruct p; discriminate.
  - destruct p as [|? [|? [|? p]]]; cbn in E; try discriminate;
      try (apply (f_equal (@length Z)) in E; cbn in E; rewrite app_length in E; cbn in E; lia).
    injection E as -> -> <- <-. cbn. lia.
  - destruct p as [|? [|? [|? p]]]; cbn in E; try discriminate;
      try (apply (f_equal (@length Z)) in E; cbn in E; rewrite app_length in E; cbn in E; lia).
    injection E as -> -> <- <-. pose proof (dealpha_sym _ _ H4) as (_ & _ & N). cbn. lia.
  - replace (length (a :: b :: c :: bytes) mod 3)%nat with (length bytes mod 3)%nat.
    2:{ cbn [length]. replace (S (S (S (length bytes)))) with (length bytes + 1 * 3)%nat by lia.
        rewrite Nat.mod_add by lia. reflexivity. }
    destruct text as [|d text].
    + destruct p as [|? [|? [|? p]]]; cbn in E; try discriminate;
      try (apply (f_equal (@length Z)) in E; cbn in E; rewrite app_length in E; cbn in E; lia).
      injection E as -> -> <- <-. pose proof (dealpha_sym _ _ H6) as (_ & _ & N).
      inversion H7; subst. cbn. lia.
    + assert (4 <= length (d :: text))%nat by (inversion H7; cbn; lia).
      destruct p as [|? [|? [|? [|? p]]]];
        try (apply (f_equal (@length Z)) in E; cbn in E, H8; lia).
      cbn [app] in E. injection E as -> -> -> -> E. apply (IHbase64 p x y); auto.
Qed.

(** *** Exact domain of decode *)
Lemma spread_total : forall t, exists q, spread t q.
Proof.
  induction t as [|c t (q & IH)]; [exists []; constructor|].
  destruct (kept c) eqn:E.
  - exists (c :: q). constructor; auto. apply kept_char; auto.
  - exists q. constructor; auto. apply kept_not; auto.
Qed.
Lemma spread_chars : forall t q, spread t q -> Forall base64_char q.
Proof. induction 1; auto. Qed.
Lemma spread_fun : forall t q, spread t q -> forall q', spread t q' -> q = q'.
Proof.
  induction 1; intros q' H'; inversion H'; subst; auto; try contradiction. f_equal. auto.
Qed.
Lemma next_kept_spread : forall t c s q, next_kept t = Some (c, s) -> spread t q ->
  exists q', q = c :: q' /\ spread s q' /\ exists pre, t = pre ++ c :: s.
Proof.
  induction t as [|d t IH]; intros c s q H Hq; cbn in H; [discriminate|].
  inversion Hq as [|d' t1 t2 Hd H1|d' t1 t2 Hd H1]; subst.
  - apply kept_char in Hd. rewrite Hd in H. injection H as -> ->. exists t2. split; auto. split; auto.
    exists []. reflexivity.
  - apply kept_not in Hd. rewrite Hd in H. destruct (IH _ _ _ H H1) as (q' & -> & H2 & pre & ->).
    exists q'. split; auto. split; auto. exists (d :: pre). reflexivity.
Qed.

Lemma dealpha_total : forall c, base64_char c -> dealpha c <> None.
Proof.
  intros c [->|(v & H)]; [discriminate|]. destruct (dealpha_sym v c H) as (E & _). congruence.
Qed.
Lemma shift_in_total : forall b c, base64_char c -> exists b', shift_in (Some b) c = Some b'.
Proof.
  intros b c H. unfold shift_in. apply dealpha_total in H. destruct (dealpha c); [eauto|congruence].
Qed.
Definition out_count (c2 c3 : Z) : nat := if c3 =? 61 then if c2 =? 61 then 1 else 2 else 3.
Lemma quartet_total : forall c0 c1 c2 c3, base64_char c0 -> base64_char c1 -> base64_char c2 -> base64_char c3 ->
  exists bytes, DecodebyteQuartet c0 c1 c2 c3 = Some bytes /\ length bytes = out_count c2 c3.
Proof.
  intros c0 c1 c2 c3 H0 H1 H2 H3. unfold DecodebyteQuartet, out_count.
  destruct (shift_in_total 0 c0 H0) as (b0 & ->). destruct (shift_in_total b0 c1 H1) as (b1 & ->).
  destruct (shift_in_total b1 c2 H2) as (b2 & ->). destruct (shift_in_total b2 c3 H3) as (b3 & ->).
  destruct (c3 =? 61); [destruct (c2 =? 61)|]; eexists; split; reflexivity.
Qed.

Lemma store_total : forall vs out idx, (idx + length vs <= length out)%nat ->
  exists out', store out idx vs = Some out' /\ length out' = length out.
Proof.
  induction vs as [|v vs IH]; intros out idx H; cbn [store length] in *; [eauto|].
  rewrite (proj2 (Nat.ltb_lt _ _)) by lia.
  assert (L : forall l i (x : Z), length (upd l i x) = length l).
  { induction l as [|y l IHl]; intros [|i] x; cbn; auto. }
  destruct (IH (upd out idx v) (S idx)) as (out' & E & El); [rewrite L; lia|].
  exists out'. rewrite L in El. auto.
Qed.

(** Bytes produced by a run of quartets. *)
Fixpoint emitted (n : nat) (q : list Z) : nat :=
  match n, q with
  | S n, _ :: _ :: c2 :: c3 :: q' => out_count c2 c3 + emitted n q'
  | _, _ => 0
  end.

Lemma decode_loop_ok : forall n t q fuel idx out, spread t q -> length q = (4 * n)%nat -> ends_kept t ->
  (length t <= fuel)%nat -> (idx + emitted n q <= length out)%nat ->
  exists r, decode_loop fuel t idx out = Some r.
Proof.
  induction n as [|n IH]; intros t q fuel idx out Hs Hl He Hf Hk.
  - destruct q; [|cbn in Hl; lia]. rewrite (spread_nil_ends t Hs He). destruct fuel; cbn; eauto.
  - destruct q as [|c0 [|c1 [|c2 [|c3 q]]]]; try (cbn in Hl; lia).
    pose proof (spread_chars _ _ Hs) as Hc. inversion Hc as [|? ? K0 Hc0]; subst.
    inversion Hc0 as [|? ? K1 Hc1]; subst. inversion Hc1 as [|? ? K2 Hc2]; subst.
    inversion Hc2 as [|? ? K3 Hc3]; subst.
    destruct (quartet_spec _ _ _ _ _ _ Hs K0 K1 K2 K3) as (s0 & s1 & s2 & s3 & E0 & E1 & E2 & E3 & H3 & L & pre & P).
    destruct t as [|x t]; [cbn in L; lia|]. destruct fuel as [|fuel]; [cbn in Hf; lia|].
    cbn [decode_loop]. rewrite E0, E1, E2, E3.
    destruct (quartet_total c0 c1 c2 c3 K0 K1 K2 K3) as (bytes & EB & LB). rewrite EB.
    cbn [emitted] in Hk.
    destruct (store_total bytes out idx) as (out' & Es & El); [lia|]. rewrite Es.
    apply (IH s3 q); auto.
    + cbn in Hl. lia.
    + rewrite P in He. eauto using ends_kept_suffix.
    + cbn in L, Hf. lia.
    + lia.
Qed.

Lemma decode_loop_needs : forall fuel t q idx out r, spread t q -> decode_loop fuel t idx out = Some r ->
  ends_kept t /\ exists n, length q = (4 * n)%nat.
Proof.
  induction fuel as [|fuel IH]; intros t q idx out r Hs H.
  - destruct t; cbn in H; [|discriminate]. inversion Hs; subst. split; [left; auto|]. exists 0%nat. reflexivity.
  - destruct t as [|x t]; [inversion Hs; subst; split; [left; auto|]; exists 0%nat; reflexivity|].
    cbn [decode_loop] in H.
    destruct (next_kept (x :: t)) as [[c0 s0]|] eqn:E0; [|discriminate].
    destruct (next_kept s0) as [[c1 s1]|] eqn:E1; [|discriminate].
    destruct (next_kept s1) as [[c2 s2]|] eqn:E2; [|discriminate].
    destruct (next_kept s2) as [[c3 s3]|] eqn:E3; [|discriminate].
    destruct (DecodebyteQuartet c0 c1 c2 c3) as [bytes|]; [|discriminate].
    destruct (store out idx bytes) as [out'|]; [|discriminate].
    destruct (next_kept_spread _ _ _ _ E0 Hs) as (q0 & -> & Q0 & p0 & P0).
    destruct (next_kept_spread _ _ _ _ E1 Q0) as (q1 & -> & Q1 & p1 & P1).
    destruct (next_kept_spread _ _ _ _ E2 Q1) as (q2 & -> & Q2 & p2 & P2).
    destruct (next_kept_spread _ _ _ _ E3 Q2) as (q3 & -> & Q3 & p3 & P3).
    destruct (IH _ _ _ _ _ Q3 H) as (He & n & Hn).
    split; [|exists (S n); cbn [length]; lia].
    right. pose proof (spread_chars _ _ Q2) as Hc. inversion Hc as [|? ? K3 Hc3]; subst.
    destruct He as [->|(p & c & -> & Hcc)].
    + exists (p0 ++ c0 :: p1 ++ c1 :: p2 ++ c2 :: p3), c3. split; auto.
      rewrite P0. repeat first [rewrite <- app_assoc | progress (cbn [app])]. reflexivity.
    + exists (p0 ++ c0 :: p1 ++ c1 :: p2 ++ c2 :: p3 ++ c3 :: p), c. split; auto.
      rewrite P0. repeat first [rewrite <- app_assoc | progress (cbn [app])]. reflexivity.
Qed.

Lemma emitted_bound : forall n q, length q = (4 * S n)%nat -> forall p x y, q = p ++ [x; y] ->
  (emitted (S n) q <= 3 * n + out_count x y)%nat.
Proof.
  induction n as [|n IH]; intros q Hl p x y E.
  - destruct q as [|c0 [|c1 [|c2 [|c3 [|? q]]]]]; try (cbn in Hl; lia). cbn [emitted].
    destruct p as [|? [|? [|? p]]]; cbn in E; try discriminate;
      try (apply (f_equal (@length Z)) in E; cbn in E; rewrite app_length in E; cbn in E; lia).
    injection E as -> -> -> ->. lia.
  - destruct q as [|c0 [|c1 [|c2 [|c3 q]]]]; try (cbn in Hl; lia).
    destruct p as [|? [|? [|? [|? p]]]];
        try (apply (f_equal (@length Z)) in E; cbn in E, Hl; lia).
    cbn [app] in E. injection E as -> -> -> -> E.
    specialize (IH q ltac:(cbn in Hl; lia) p x y E).
    change (emitted (S (S n)) (z :: z0 :: z1 :: z2 :: q)) with (out_count z1 z2 + emitted (S n) q)%nat.
    assert (out_count z1 z2 <= 3)%nat by (unfold out_count; destruct (z2 =? 61); [destruct (z1 =? 61)|]; lia).
    lia.
Qed.
