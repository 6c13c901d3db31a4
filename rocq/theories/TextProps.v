(** Properties C11, C12, C13, C21, C44, C53, C57, C58: text and number conversions. *)
From Coq Require Import List ZArith Bool Lia String.
From Verif Require Import TextModel TextSpec TextProofs InterleaveProofs.
Import ListNotations.
Local Open Scope Z_scope.

(** *** C11: decimal integers *)

(** Unsigned: for every uint32 [n], the writer produces the decimal notation of [n], and reading it back
    (after any blanks, followed by blanks and any further text) returns [n] and stops at that text. *)
Theorem C11_unsigned_round_trip : forall n, 0 <= n < 2 ^ 32 ->
  decimal n (append_u32 n) /\
  forall lead sep rest, Forall blank_or_cr lead -> Forall blank sep ->
    begins_not blank rest -> (sep = [] -> rest = []) ->
    ToUInt32 (lead ++ append_u32 n ++ sep ++ rest) = (n, rest).
Proof.
  intros n Hn. split; [apply dec_decimal; lia|]. intros lead sep rest Hl Hs Hr He.
  destruct (dec_spec n ltac:(lia)) as (H1 & H2 & H3).
  change (2 ^ 32) with 4294967296 in Hn.
  unfold append_u32. rewrite to_uint32_spec; auto.
  - rewrite H3. f_equal. apply after_blanks; auto using forall_ws3.
    destruct rest as [|c r]; cbn in *; auto. apply ws3_not_blank; auto.
  - apply forall_ws4; auto.
  - destruct sep as [|c s]; [rewrite He; cbn; auto|]. cbn. inversion Hs; subst.
    destruct (digit c) eqn:E; auto. apply digit_not_ws in E. apply ws3_blank in H4.
    destruct E. congruence.
  - lia.
Qed.
Print Assumptions C11_unsigned_round_trip.
Example C11_demo_unsigned : append_u32 4294967295 = tx "4294967295" /\
  ToUInt32 (tx "  4294967295 	7 8") = (4294967295, tx "7 8").
Proof. split; reflexivity. Qed.

(** Signed (full statement, refuted under the C++ rules): reading back what was written overflows an
    int for the 97 values closest to the ends of the range, INT_MAX included; and a carriage return
    does not end a number, so the following word is swallowed. *)
Theorem C11_signed_round_trip_refuted :
  ~ (forall n, - 2 ^ 31 <= n < 2 ^ 31 -> exists r, ToInt32 Strict (append_i32 n) = Some (n, r)) /\
  (forall n, 2147483600 <= Z.abs n <= 2147483648 -> ToInt32 Strict (append_i32 n) = None) /\
  ToInt32 Strict (append_i32 12 ++ [13] ++ append_i32 34) = Some (12, []).
Proof.
  split; [|split; [exact to_int32_strict_overflow|reflexivity]].
  intro H. destruct (H 2147483647 ltac:(lia)) as (r & E).
  rewrite to_int32_strict_overflow in E by lia. discriminate.
Qed.
Print Assumptions C11_signed_round_trip_refuted.

(** Signed, what holds: with wrap-around arithmetic every int32 survives; under the C++ rules every
    int32 of magnitude at most 2147483599 does.  Missing: the values listed above, and a carriage return
    as separator. *)
Theorem C11_signed_round_trip_partial : forall n, - 2 ^ 31 <= n < 2 ^ 31 ->
  signed_decimal n (append_i32 n) /\
  forall a lead sep rest, (a = Strict -> Z.abs n <= 2147483599) ->
    Forall blank_or_cr lead -> Forall blank sep ->
    begins_not blank rest -> (sep = [] -> rest = []) ->
    ToInt32 a (lead ++ append_i32 n ++ sep ++ rest) = Some (n, rest).
Proof.
  intros n Hn. split; [apply append_i32_decimal|]. intros a lead sep rest Ha Hl Hs Hr He.
  change (2 ^ 31) with 2147483648 in Hn.
  rewrite to_int32_spec; auto.
  - do 2 f_equal. apply after_blanks; auto using forall_ws3.
    destruct rest as [|c r]; cbn in *; auto. apply ws3_not_blank; auto.
  - apply forall_ws4; auto.
  - destruct sep as [|c s]; [rewrite He; cbn; auto|]. cbn. inversion Hs; subst.
    destruct (digit c) eqn:E; auto. apply digit_not_ws in E. apply ws3_blank in H1.
    destruct E. congruence.
  - lia.
  - intro E. specialize (Ha E). lia.
Qed.
Print Assumptions C11_signed_round_trip_partial.
Example C11_demo_signed : append_i32 (-2147483599) = tx "-2147483599" /\
  ToInt32 Strict (tx " -2147483599  5") = Some (-2147483599, tx "5") /\
  ToInt32 Wrapping (append_i32 (-2147483648)) = Some (-2147483648, []).
Proof. repeat split; reflexivity. Qed.

(** *** C12: hexadecimal integers *)

(** Full statement refuted: on a little-endian host the multi-byte writer emits the least significant
    byte first, the reader expects the most significant one first. *)
Theorem C12_hex_round_trip_refuted :
  ~ (forall n, 0 <= n < 2 ^ 16 -> fst (HexToUInt32 4294967295 (appendHexT 2 n)) = n) /\
  ~ (forall n, 0 <= n < 2 ^ 32 -> fst (HexToUInt32 4294967295 (appendHexT 4 n)) = n) /\
  appendHexT 4 305419896 = tx "78563412".
Proof.
  split; [|split; [|reflexivity]].
  - intro H. specialize (H 4660 ltac:(lia)). vm_compute in H. discriminate.
  - intro H. specialize (H 305419896 ltac:(lia)). vm_compute in H. discriminate.
Qed.
Print Assumptions C12_hex_round_trip_refuted.

(** What holds: (1) bytes survive, whatever follows, when two characters are asked for; (2) the reader
    decodes any text of two to eight hexadecimal digits (either case), with or without a 0x prefix,
    consuming at most [count] digits.  Missing: the round trip for 16 and 32 bit values (refuted). *)
Theorem C12_hex_round_trip_partial :
  (forall n rest, 0 <= n < 256 -> HexToUInt32 2 (appendHex8 n ++ rest) = (n, rest)) /\
  (forall ds t rest count, Forall2 hex_digit ds t -> (2 <= List.length ds <= 8)%nat -> 0 <= count ->
     (Z.of_nat (List.length ds) < count -> begins_not (fun c => exists d, hex_digit d c) rest) ->
     let n := Nat.min (List.length ds) (Z.to_nat count) in
     HexToUInt32 count (t ++ rest) = (hex_value (firstn n ds), skipn n t ++ rest) /\
     HexToUInt32 count (tx "0x" ++ t ++ rest) = (hex_value (firstn n ds), skipn n t ++ rest) /\
     HexToUInt32 count (tx "0X" ++ t ++ rest) = (hex_value (firstn n ds), skipn n t ++ rest)).
Proof.
  assert (H2 : forall ds t rest count, Forall2 hex_digit ds t -> (2 <= List.length ds <= 8)%nat -> 0 <= count ->
     (Z.of_nat (List.length ds) < count -> begins_not (fun c => exists d, hex_digit d c) rest) ->
     let n := Nat.min (List.length ds) (Z.to_nat count) in
     HexToUInt32 count (t ++ rest) = (hex_value (firstn n ds), skipn n t ++ rest) /\
     HexToUInt32 count (tx "0x" ++ t ++ rest) = (hex_value (firstn n ds), skipn n t ++ rest) /\
     HexToUInt32 count (tx "0X" ++ t ++ rest) = (hex_value (firstn n ds), skipn n t ++ rest)).
  { intros ds t rest count H Hl Hc Hr n.
    pose proof (hex_read ds t rest count H ltac:(lia) Hc Hr) as E. cbn zeta in E. fold n in E.
    split; [|split].
    - rewrite (hex_plain_read ds) by (auto; lia). exact E.
    - exact E.
    - exact E. }
  split; [|exact H2].
  intros n rest Hn.
  destruct (H2 [n / 16; n mod 16] (appendHex8 n) rest 2) as (E & _).
  - apply appendHex8_digits; auto.
  - cbn; lia.
  - lia.
  - cbn. lia.
  - rewrite E. unfold hex_value. cbn [List.length Nat.min Z.to_nat]. f_equal.
    change (Pos.to_nat 2) with 2%nat. cbn [Nat.min firstn fold_left]. pose proof (Z.div_mod n 16 ltac:(lia)). lia.
Qed.
Print Assumptions C12_hex_round_trip_partial.
Example C12_demo : HexToUInt32 4294967295 (tx "0x78291 ") = (492177, tx " ") /\
  Forall2 hex_digit [6; 9; 10; 11; 15; 15] (tx "69AbFF") /\
  HexToUInt32 4 (tx "69AbFF") = (27051, tx "FF").
Proof.
  split; [reflexivity|]. split; [|reflexivity]. cbn.
  repeat constructor; unfold hex_digit; lia.
Qed.

(** *** C13: lists of integers *)

Lemma u32s_append : forall ws vs, ToString_u32s (ToString_u32s [] ws) vs = ToString_u32s [] (ws ++ vs).
Proof.
  intros [|w ws] vs; [reflexivity|]. destruct vs as [|v vs]; [rewrite app_nil_r; reflexivity|].
  cbn [ToString_u32s app]. rewrite flat_map_app.
  destruct (append_u32 w ++ flat_map (fun x => 32 :: append_u32 x) ws) eqn:E; [|rewrite <- E, app_assoc; reflexivity].
  exfalso. apply app_eq_nil in E. destruct E as [E _]. unfold append_u32, dec in E. cbn [dec_digits] in E.
  destruct (w <? 10); [discriminate|].
  assert (X : forall f n acc, acc <> [] -> dec_digits f n acc <> []).
  { clear. induction f as [|f IH]; intros n acc H; cbn; auto. destruct (n <? 10); [discriminate|].
    apply IH. discriminate. }
  apply X in E; [auto|discriminate].
Qed.
Lemma i32s_append : forall ws vs, ToString_i32s (ToString_i32s [] ws) vs = ToString_i32s [] (ws ++ vs).
Proof.
  intros [|w ws] vs; [reflexivity|]. destruct vs as [|v vs]; [rewrite app_nil_r; reflexivity|].
  cbn [ToString_i32s app]. rewrite flat_map_app. cbn [flat_map].
  destruct (append_i32 w ++ flat_map (fun x => 32 :: append_i32 x) ws) eqn:E.
  - exfalso. apply app_eq_nil in E. destruct E as [E _]. unfold append_i32, dec in E.
    assert (X : forall f n acc, acc <> [] -> dec_digits f n acc <> []).
    { clear. induction f as [|f IH]; intros n acc H; cbn; auto. destruct (n <? 10); [discriminate|].
      apply IH. discriminate. }
    destruct (w <? 0); [discriminate|]. cbn [dec_digits] in E.
    destruct (w <? 10); [discriminate|]. apply X in E; [auto|discriminate].
  - rewrite <- E. repeat first [rewrite <- app_assoc | progress (cbn [app])]. reflexivity.
Qed.

(** Unsigned lists: writing into an empty builder, or a second list after a first one, and reading back gives
    the values, whatever the output array contained before. *)
Theorem C13_unsigned_list_round_trip : forall ws vs old, Forall (fun v => 0 <= v < 2 ^ 32) (ws ++ vs) ->
  ToUInt32List (ToString_u32s [] vs) old = Some vs /\
  ToUInt32List (ToString_u32s (ToString_u32s [] ws) vs) old = Some (ws ++ vs).
Proof.
  intros ws vs old H. rewrite u32s_append. split; apply to_list_spec, u32s_parse; auto.
  apply Forall_app in H. apply H.
Qed.
Print Assumptions C13_unsigned_list_round_trip.

Theorem C13_signed_list_round_trip_partial : forall a ws vs old,
  Forall (fun v => - 2 ^ 31 <= v < 2 ^ 31 /\ (a = Strict -> Z.abs v <= 2147483599)) (ws ++ vs) ->
  ToInt32List a (ToString_i32s [] vs) old = Some vs /\
  ToInt32List a (ToString_i32s (ToString_i32s [] ws) vs) old = Some (ws ++ vs).
Proof.
  intros a ws vs old H. rewrite i32s_append.
  assert (X : forall us, Forall (fun v => - 2 ^ 31 <= v < 2 ^ 31 /\ (a = Strict -> Z.abs v <= 2147483599)) us ->
             ToInt32List a (ToString_i32s [] us) old = Some us).
  { intros us Hu. apply to_list_spec, i32s_parse. eapply Forall_impl; [|exact Hu].
    intros v (H1 & H2). cbn beta. change (2 ^ 31) with 2147483648 in H1. split; [lia|].
    intro E. specialize (H2 E). lia. }
  split; apply X; auto. apply Forall_app in H. apply H.
Qed.
Print Assumptions C13_signed_list_round_trip_partial.

Example C13_demo : ToString_u32s [] [7; 0; 4294967295] = tx "7 0 4294967295" /\
  ToUInt32List (tx "7 0 4294967295") [1; 2; 3; 4; 5] = Some [7; 0; 4294967295] /\
  ToInt32List Strict (ToString_i32s [] [-5; 12; 0]) [9] = Some [-5; 12; 0].
Proof. repeat split; reflexivity. Qed.

(** Agreement of CountValues with the list readers (full statement, refuted): a text of blanks reads as
    one value but counts none; a carriage return separates counted values but not read ones; a text
    starting with a non-ASCII character counts as empty. *)
Theorem C13_count_agrees_refuted :
  ~ (forall s vs, ToUInt32List s [] = Some vs -> List.length vs = CountValues s) /\
  (ToUInt32List (tx " ") [] = Some [0] /\ CountValues (tx " ") = O) /\
  (ToUInt32List [49; 13; 50] [] = Some [1] /\ CountValues [49; 13; 50] = 2%nat) /\
  (ToUInt32List [233; 32; 49] [] = Some [0; 1] /\ CountValues [233; 32; 49] = O).
Proof.
  split; [|repeat split; reflexivity].
  intro H. specialize (H (tx " ") [0] eq_refl). discriminate.
Qed.
Print Assumptions C13_count_agrees_refuted.

(** What holds: on every text without carriage return that is empty or has a non-blank character, and
    whose first byte is an ASCII character, both readers terminate and return as many values as
    CountValues announces. *)
Theorem C13_count_agrees_partial : forall s old, ~ In 13 s ->
  (s = [] \/ exists c, In c s /\ ~ blank c) ->
  (match s with [] => True | c :: _ => 0 < c < 128 end) ->
  (exists vs, ToUInt32List s old = Some vs /\ List.length vs = CountValues s) /\
  (exists vs, ToInt32List Wrapping s old = Some vs /\ List.length vs = CountValues s).
Proof.
  intros s old Hcr Hor Hf.
  assert (Hor' : s = [] \/ exists c, In c s /\ ws4 c = false).
  { destruct Hor as [|(c & Hc & Hb)]; auto. right. exists c. split; auto.
    apply ws4_not_blank. intros [|]; auto. subst. auto. }
  rewrite (count_values_nonneg_first s Hf). split.
  - destruct (reader_counts _ reader_uint _ s (le_n _) Hcr Hor') as (vs & Hp & Hl).
    exists vs. split; auto. apply to_list_spec; auto.
  - destruct (reader_counts _ reader_int _ s (le_n _) Hcr Hor') as (vs & Hp & Hl).
    exists vs. split; auto. apply to_list_spec; auto.
Qed.
Print Assumptions C13_count_agrees_partial.
Example C13_demo_count : CountValues (tx " 12 -x 3e4  ") = 3%nat /\
  ToUInt32List (tx " 12 -x 3e4  ") [8; 8; 8; 8] = Some [12; 0; 3].
Proof. split; reflexivity. Qed.

(** *** C57: word lists *)
(** Reading into an empty list returns the words of the text. *)
Theorem C57_word_list_partial : forall s, exists ws, ToStringList s [] = Some ws /\ words_of s ws /\
  (match s with [] => True | c :: _ => 0 < c < 128 end -> List.length ws = CountValues s).
Proof.
  intro s. destruct (to_string_list_spec s) as (ws & E & H & L). exists ws. split; auto.
  split; [apply words_bridge; auto|]. intro Hf. rewrite count_values_nonneg_first; auto.
Qed.
Print Assumptions C57_word_list_partial.
(** Full statement ("whatever the list contained before") refuted: existing entries are appended to. *)
Theorem C57_word_list_refuted :
  ~ (forall s old ws, ToStringList s old = Some ws -> words_of s ws) /\
  ToStringList (tx "cd e") [tx "ab"] = Some [tx "abcd"; tx "e"].
Proof.
  split; [|reflexivity]. intro H. specialize (H (tx "b") [tx "a"] [tx "ab"] eq_refl).
  inversion H as [|lead w rest ws H1 H2 H3 H4 H5 H6]; subst. cbn in H6.
  destruct lead; cbn in H6; discriminate || (injection H6 as H6 H7; destruct lead; discriminate).
Qed.
Print Assumptions C57_word_list_refuted.
Example C57_demo : ToStringList (tx "  alpha beta	gamma ") [] = Some [tx "alpha"; tx "beta"; tx "gamma"].
Proof. reflexivity. Qed.

(** *** C58: interleaved lists *)
(** Reading a written list into [k] empty output lists (NULL entries skip a column) distributes the
    values round-robin and keeps only complete rows. *)
Theorem C58_interleaved_partial : forall vs arrays, Forall (fun v => 0 <= v < 2 ^ 32) vs ->
  nth_error arrays 0 = Some (Some []) -> (forall a, In a arrays -> a = None \/ a = Some []) ->
  exists out, ToInterleavedUInt32List (ToString_u32s [] vs) arrays = Some out /\
    List.length out = List.length arrays /\
    (forall i, nth_error arrays i = Some None -> nth_error out i = Some None) /\
    (forall i, nth_error arrays i = Some (Some []) ->
       exists col, nth_error out i = Some (Some col) /\
         List.length col = (List.length vs / List.length arrays)%nat /\
         forall j, (j < List.length vs / List.length arrays)%nat ->
           nth_error col j = nth_error vs (j * List.length arrays + i)).
Proof.
  intros vs arrays Hv H0 Hall. apply interleave_spec; auto.
  - apply u32s_parse, Hv.
  - intro; subst; discriminate.
Qed.
Print Assumptions C58_interleaved_partial.
(** Full statement ("whatever the output lists contained before") refuted: with pre-sized lists an
    incomplete last row is kept and shows stale values; lists shorter than the first one are written
    out of bounds. *)
Theorem C58_interleaved_refuted :
  ToInterleavedUInt32List (tx "1 2 3") [Some []; Some []] = Some [Some [1]; Some [2]] /\
  ToInterleavedUInt32List (tx "1 2 3") [Some [0; 0]; Some [7; 7]] = Some [Some [1; 3]; Some [2; 7]] /\
  ToInterleavedUInt32List (tx "1 2 3 4") [Some [0; 0]; Some [7]] = None.
Proof. repeat split; reflexivity. Qed.
Print Assumptions C58_interleaved_refuted.
Example C58_demo : ToInterleavedUInt32List (ToString_u32s [] [1; 2; 3; 4; 5; 6; 7; 8])
    [Some []; None; Some []] = Some [Some [1; 4]; None; Some [3; 6]].
Proof. reflexivity. Qed.

(** *** C21: dates *)
Theorem C21_date_round_trip : forall d d0,
  0 <= year d < 10000 -> 0 <= month d < 100 -> 0 <= day d < 100 ->
  0 <= hour d < 100 -> 0 <= minutes d < 100 -> 0 <= seconds d < 100 ->
  List.length (ToString_date d) = 20%nat /\ ToDateTime (ToString_date d) d0 = d.
Proof. exact date_round_trip. Qed.
Print Assumptions C21_date_round_trip.
Example C21_demo :
  let d := {| year := 2007; month := 4; day := 30; hour := 9; minutes := 5; seconds := 0 |} in
  ToString_date d = tx "2007-04-30T09:05:00Z" /\
  ToDateTime (tx "2007-04-30T09:05:00Z") {| year := 1900; month := 1; day := 1; hour := 0; minutes := 0; seconds := 0 |} = d.
Proof. split; reflexivity. Qed.

(** *** C44: versions *)
Definition ver (a b c : Z) : version := {| major := a; minor := b; revision := c |}.

(** Full statement refuted: [>] and [>=] are exchanged. *)
Theorem C44_version_order_refuted :
  ~ (forall a b, ver_gt a b = ver_lt b a) /\ ~ (forall a b, ver_ge a b = negb (ver_lt a b)) /\
  (forall a, ver_gt a a = true /\ ver_ge a a = false).
Proof.
  assert (H : forall a, ver_gt a a = true /\ ver_ge a a = false).
  { intro a. unfold ver_gt, ver_ge, ver_le, ver_lt. rewrite !Z.ltb_irrefl, Z.leb_refl. auto. }
  split; [|split; [|exact H]].
  - intro G. specialize (G (ver 1 4 1) (ver 1 4 1)). discriminate.
  - intro G. specialize (G (ver 1 4 1) (ver 1 4 1)). discriminate.
Qed.
Print Assumptions C44_version_order_refuted.

(** What holds: [<], [<=] and IsEquivalent are those of the lexicographic total order; [>] and [>=] are
    right on versions that differ; parsing "a.b.c" (followed by anything but a digit) is exact.
    Missing: [>] and [>=] on equal versions (refuted). *)
Theorem C44_version_order_partial :
  (forall a b, ver_lt a b = true <->
     major a < major b \/ (major a = major b /\ (minor a < minor b \/
       (minor a = minor b /\ revision a < revision b)))) /\
  (forall a b, ver_le a b = negb (ver_lt b a)) /\
  (forall a b, ver_equiv a b = true <-> a = b) /\
  (forall a b, (ver_lt a b = true /\ ver_equiv a b = false /\ ver_lt b a = false) \/
               (ver_lt a b = false /\ ver_equiv a b = true /\ ver_lt b a = false) \/
               (ver_lt a b = false /\ ver_equiv a b = false /\ ver_lt b a = true)) /\
  (forall a b c, ver_lt a b = true -> ver_lt b c = true -> ver_lt a c = true) /\
  (forall a b, a <> b -> ver_gt a b = ver_lt b a /\ ver_ge a b = negb (ver_lt a b)) /\
  (forall x y z tx ty tz rest, 0 <= x < 2 ^ 32 -> 0 <= y < 2 ^ 32 -> 0 <= z < 2 ^ 32 ->
     decimal x tx -> decimal y ty -> decimal z tz -> begins_not (fun c => 48 <= c <= 57) rest ->
     ParseVersionNumbers (tx ++ [46] ++ ty ++ [46] ++ tz ++ rest) = ver x y z).
Proof.
  assert (Hlt : forall a b, ver_lt a b = true <->
     major a < major b \/ (major a = major b /\ (minor a < minor b \/
       (minor a = minor b /\ revision a < revision b)))).
  { intros a b. unfold ver_lt.
    destruct (Z.ltb_spec (major a) (major b)); [split; auto; lia|].
    destruct (Z.ltb_spec (major b) (major a)); [split; [discriminate|lia]|].
    destruct (Z.ltb_spec (minor a) (minor b)); [split; auto; lia|].
    destruct (Z.ltb_spec (minor b) (minor a)); [split; [discriminate|lia]|].
    rewrite Z.ltb_lt. lia. }
  assert (Hle : forall a b, ver_le a b = negb (ver_lt b a)).
  { intros a b. unfold ver_le, ver_lt.
    destruct (Z.ltb_spec (major a) (major b)), (Z.ltb_spec (major b) (major a)); try lia; auto.
    destruct (Z.ltb_spec (minor a) (minor b)), (Z.ltb_spec (minor b) (minor a)); lia. }
  assert (Heq : forall a b, ver_equiv a b = true <-> a = b).
  { intros [a1 a2 a3] [b1 b2 b3]. unfold ver_equiv. cbn. rewrite !andb_true_iff, !Z.eqb_eq.
    split; [intros [[-> ->] ->]; auto|intro H; injection H; auto]. }
  assert (Hlt' : forall a b, ver_lt a b = false <-> ~ (major a < major b \/ (major a = major b /\
       (minor a < minor b \/ (minor a = minor b /\ revision a < revision b))))).
  { intros a b. rewrite <- Hlt. destruct (ver_lt a b); split; congruence. }
  assert (Heq' : forall a b, ver_equiv a b = false <-> a <> b).
  { intros a b. rewrite <- Heq. destruct (ver_equiv a b); split; congruence. }
  assert (Htri : forall a b, (ver_lt a b = true /\ ver_equiv a b = false /\ ver_lt b a = false) \/
               (ver_lt a b = false /\ ver_equiv a b = true /\ ver_lt b a = false) \/
               (ver_lt a b = false /\ ver_equiv a b = false /\ ver_lt b a = true)).
  { intros [a1 a2 a3] [b1 b2 b3]. rewrite !Hlt, !Hlt', !Heq, !Heq'. cbn.
    destruct (Z.lt_trichotomy a1 b1) as [|[|]]; [left|subst|right; right];
      try (split; [lia|split; [congruence || (intro H'; injection H'; lia)|lia]]).
    destruct (Z.lt_trichotomy a2 b2) as [|[|]]; [left|subst|right; right];
      try (split; [lia|split; [congruence || (intro H'; injection H'; lia)|lia]]).
    destruct (Z.lt_trichotomy a3 b3) as [|[|]]; [left|subst; right; left|right; right];
      try (split; [lia|split; [congruence || (intro H'; injection H'; lia)|lia]]). }
  split; [exact Hlt|]. split; [exact Hle|]. split; [exact Heq|]. split; [exact Htri|].
  split; [intros a b c; rewrite !Hlt; lia|]. split.
  - intros a b Hab. unfold ver_gt, ver_ge. rewrite Hle.
    destruct (Htri a b) as [(E1 & E2 & E3)|[(E1 & E2 & E3)|(E1 & E2 & E3)]]; rewrite E1, E3; auto.
    exfalso. apply Hab, Heq, E2.
  - intros x y z tx ty tz rest Hx Hy Hz Dx Dy Dz Hr.
    change (2 ^ 32) with 4294967296 in *.
    assert (Hst : stops digit rest).
    { destruct rest as [|c r]; cbn in *; auto. destruct (digit c) eqn:E; auto.
      apply digit_range in E. contradiction. }
    apply decimal_value in Dx, Dy, Dz. destruct Dx as (_ & X1 & X2 & X3).
    destruct Dy as (_ & Y1 & Y2 & Y3). destruct Dz as (_ & Z1 & Z2 & Z3).
    assert (R : forall t tail n, t <> [] -> Forall (fun c => digit c = true) t -> value_from 0 t = n ->
       n < 4294967296 -> stops digit tail -> fst (ToUInt32 (t ++ tail)) = n).
    { intros t tail n T1 T2 T3 T4 T5. pose proof (to_uint32_spec [] t tail) as E. cbn [app] in E.
      rewrite E; auto; lia. }
    unfold ParseVersionNumbers, ver. cbn [app].
    rewrite (next_part_digits tx) by auto. rewrite (next_part_digits ty) by auto.
    rewrite (R tx (46 :: ty ++ 46 :: tz ++ rest) x), (R ty (46 :: tz ++ rest) y), (R tz rest z);
      auto; try lia; reflexivity.
Qed.
Print Assumptions C44_version_order_partial.
Example C44_demo : ParseVersionNumbers (tx "1.4.1") = ver 1 4 1 /\
  ver_lt (ver 1 4 0) (ver 1 4 1) = true /\ decimal 14 (tx "14").
Proof.
  split; [reflexivity|]. split; [reflexivity|].
  apply (D_more 1 [49] 4); [apply (D_digit 1)| |]; lia.
Qed.

(** *** C53: targets and qualifiers *)
Definition split_statement (target : list Z) : Prop :=
  let '(pointer, qualifier) := SplitTarget target in
     target = pointer ++ qualifier /\
     Forall (fun c => ~ In c (tx "([.")) pointer /\
     begins_not (fun c => ~ In c (tx "([.")) qualifier.
(** A one-character target is never split, even when that character is a separator. *)
Theorem C53_split_refuted : ~ (forall target, split_statement target).
Proof.
  intro H. destruct (H (tx ".")) as (_ & F & _). apply Forall_inv in F. apply F. cbn. auto.
Qed.
Print Assumptions C53_split_refuted.
(** Every other target is split at the first separator; the qualifier parser is total and reads the
    bracketed number. *)
Theorem C53_target_split_and_qualifier_partial :
  (forall target, List.length target <> 1%nat -> let '(pointer, qualifier) := SplitTarget target in
     target = pointer ++ qualifier /\
     Forall (fun c => ~ In c (tx "([.")) pointer /\
     begins_not (fun c => ~ In c (tx "([.")) qualifier) /\
  (* a bracketed number at the start is the result, whatever follows *)
  (forall a i t opening closing rest, decimal i t -> 0 <= i < 2 ^ 31 -> (a = Strict -> i <= 2147483599) ->
     In opening (tx "([") -> In closing (tx ")]") ->
     ParseQualifier a (opening :: t ++ closing :: rest) = Some i) /\
  (* no opening bracket at the start: -1 *)
  (forall a s, begins_not (fun c => In c (tx "([")) s -> ParseQualifier a s = Some (-1)) /\
  (* the scan terminates on every text *)
  (forall s, exists v, ParseQualifier Wrapping s = Some v).
Proof.
  split; [|split; [|split]].
  - intros target Hlen. unfold SplitTarget.
    destruct (Z.leb_spec 3 (Z.of_nat (List.length target) + 1)) as [Hl|Hl];
      [|destruct target as [|c [|d target]]; cbn [List.length] in *; [|lia|lia]; repeat split; constructor].
    destruct (span_spec (fun c => negb (is_split c)) target) as (w & r & E & E2 & E3 & E4).
    rewrite E. split; [exact E2|].
    assert (Hs : forall c, is_split c = true <-> In c (tx "([.")).
    { intro c. unfold is_split. cbn. rewrite !orb_true_iff, !Z.eqb_eq. intuition lia. }
    split.
    + eapply Forall_impl; [|exact E3]. intros c Hc. cbn beta in Hc. rewrite <- Hs.
      apply negb_true_iff in Hc. congruence.
    + destruct r as [|c r]; cbn -[tx] in *; auto. apply negb_false_iff in E4. rewrite Hs in E4. tauto.
  - intros a i t o c rest Hd Hi Ha Ho Hc. change (2 ^ 31) with 2147483648 in Hi.
    apply decimal_value in Hd. destruct Hd as (_ & H1 & H2 & H3).
    assert (Ho' : (o =? 40) || (o =? 91) = true)
      by (cbn in Ho; rewrite orb_true_iff, !Z.eqb_eq; intuition lia).
    assert (Hc' : (c =? 41) || (c =? 93) = true)
      by (cbn in Hc; rewrite orb_true_iff, !Z.eqb_eq; intuition lia).
    assert (Hcd : digit c = false).
    { destruct (digit c) eqn:E; auto. apply digit_range in E. apply orb_true_iff in Hc'.
      rewrite !Z.eqb_eq in Hc'. lia. }
    unfold ParseQualifier. cbn [ParseQualifier_loop]. rewrite Ho'.
    rewrite skip_app by auto. cbn [skip_while]. rewrite Hcd, Hc'.
    assert (E : ToInt32 a (t ++ c :: rest) = Some (i, after (c :: rest))).
    { unfold ToInt32. destruct t as [|t0 t']; [congruence|].
      inversion H2 as [|? ? D0 D1]; subst.
      assert (Hst : skip_while ws4 ((t0 :: t') ++ c :: rest) = (t0 :: t') ++ c :: rest).
      { apply skip_stop. cbn. apply digit_not_ws in D0. apply D0. }
      rewrite Hst. cbn [app]. assert (t0 =? 45 = false) as -> by (apply digit_range in D0; apply Z.eqb_neq; lia).
      change (t0 :: t' ++ c :: rest) with ((t0 :: t') ++ c :: rest).
      destruct a.
      - specialize (Ha eq_refl). rewrite int_digits_strict; [|auto|exact Hcd|lia|lia].
        rewrite norm_strict by lia. rewrite Z.mul_1_r. reflexivity.
      - change 0 with (s32 0) at 1. rewrite int_digits_wrap by auto. cbn [norm].
        rewrite (s32_id (value_from 0 (t0 :: t'))) by lia. rewrite Z.mul_1_r, s32_id by lia. reflexivity. }
    rewrite E. reflexivity.
  - intros a s H. unfold ParseQualifier. destruct s as [|c s]; [reflexivity|]. cbn [ParseQualifier_loop].
    cbn -[tx] in H. assert ((c =? 40) || (c =? 91) = false) as ->; [|reflexivity].
    apply orb_false_iff. rewrite !Z.eqb_neq. split; intro; subst; apply H; cbn; auto.
  - intro s. apply qualifier_total. lia.
Qed.
Print Assumptions C53_target_split_and_qualifier_partial.
Example C53_demo : SplitTarget (tx "node/matrix(2)(3)") = (tx "node/matrix", tx "(2)(3)") /\
  ParseQualifier Strict (tx "(12)(3)") = Some 12 /\ ParseQualifier Strict (tx ".X") = Some (-1).
Proof. repeat split; reflexivity. Qed.
