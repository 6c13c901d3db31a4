(** Proofs for C18, C19, C20, C62, C63. *)
From Coq Require Import List ZArith Lia Bool Permutation Sorted.
From Verif Require Import TextModel TextProofs StringSpec StringModel StringProofs XmlModel.
Import ListNotations.
Local Open Scope Z_scope.
Local Notation length := List.length.

Definition bytes (s : list Z) : Prop := Forall (fun c => 1 <= c <= 255) s.

Lemma c_text_bytes : forall s, bytes s -> c_text s = s.
Proof.
  induction s as [|c s IH]; intro H; [reflexivity|]. inversion H; subst. cbn [c_text].
  destruct (Z.eqb_spec c 0); [lia|]. now rewrite IH.
Qed.
Lemma c_text_length : forall s, (length (c_text s) <= length s)%nat.
Proof. induction s as [|c s IH]; cbn; [lia|]. destruct (c =? 0); cbn; lia. Qed.

Lemma hex_pair : forall c rest, 0 <= c <= 255 -> HexToUInt32 2 (appendHex8 c ++ rest) = (c, rest).
Proof.
  intros c rest H. unfold appendHex8. cbn [app].
  assert (A : 0 <= (c / 16) mod 16 < 16) by (apply Z.mod_pos_bound; lia).
  assert (B : 0 <= c mod 16 < 16) by (apply Z.mod_pos_bound; lia).
  rewrite hex_noprefix.
  2:{ intros x t E. injection E as _ <- _. now apply hex_char_not_x. }
  cbn [hex_loop]. cbn [Z.leb Z.compare]. rewrite (hex_char_val _ A). cbn [Z.sub Z.add Z.opp Z.pos_sub Pos.pred_double].
  change (1 <=? 0) with false. cbn iota. rewrite (hex_char_val _ B).
  assert (E : u32 (u32 (0 * 16 + (c / 16) mod 16) * 16 + c mod 16) = c).
  { assert (D : (c / 16) mod 16 = c / 16).
    { apply Z.mod_small. split; [apply Z.div_pos; lia | apply Z.div_lt_upper_bound; lia]. }
    rewrite D. unfold u32. pose proof (Z.div_mod c 16 ltac:(lia)).
    rewrite (Z.mod_small (0 * 16 + c / 16)) by (rewrite D in A; lia).
    rewrite Z.mod_small; lia. }
  rewrite E. destruct rest; reflexivity.
Qed.

(** Characters HexToUInt32 may skip. *)
Definition hexish (c : Z) : Prop := hex_val c <> None \/ c = 120 \/ c = 88.
Lemma hex_loop_used : forall s count v w r, hex_loop count v s = (w, r) ->
  exists used, s = used ++ r /\ Forall hexish used /\ (used = [] -> w = v).
Proof.
  induction s as [|c s IH]; intros count v w r E; cbn [hex_loop] in E.
  - injection E as <- <-. exists []. auto.
  - destruct (count <=? 0); [injection E as <- <-; exists []; auto|].
    destruct (hex_val c) as [d|] eqn:Ec; [|injection E as <- <-; exists []; auto].
    destruct (IH _ _ _ _ E) as (used & -> & F & _). exists (c :: used). split; [reflexivity|].
    split; [|discriminate]. constructor; [left; congruence | exact F].
Qed.
Lemma hex_used : forall s w r, HexToUInt32 2 s = (w, r) ->
  exists used, s = used ++ r /\ Forall hexish used /\ (used = [] -> w = 0).
Proof.
  intros s w r E.
  assert (P : forall s', hex_loop 2 0 s' = (w, r) -> s' = s ->
     exists used, s = used ++ r /\ Forall hexish used /\ (used = [] -> w = 0)).
  { intros s' E' ->. destruct (hex_loop_used _ _ _ _ _ E') as (u & A & B & C). eauto. }
  assert (D : HexToUInt32 2 s = hex_loop 2 0 s \/ exists x t, s = 48 :: x :: t /\ (x = 120 \/ x = 88) /\
     HexToUInt32 2 s = hex_loop 2 0 t).
  { unfold HexToUInt32.
    repeat match goal with |- context[match ?x with _ => _ end] => is_var x; destruct x; try (left; reflexivity) end.
    destruct ((z =? 120) || (z =? 88)) eqn:Ex; [right | left; reflexivity].
    exists z, s. rewrite orb_true_iff, !Z.eqb_eq in Ex. auto. }
  destruct D as [D | (x & t & -> & Hx & D)]; rewrite D in E; [now apply P with s|].
  destruct (hex_loop_used _ _ _ _ _ E) as (u & -> & B & _).
  exists (48 :: x :: u). split; [reflexivity|]. split; [|discriminate].
  constructor; [left; discriminate|]. constructor; [right; tauto | exact B].
Qed.
Lemma hexish_not_percent : forall c, hexish c -> c <> 37.
Proof. intros c [H|[->| ->]]; [|lia|lia]. intros ->. now apply H. Qed.

(** Decoding step by step, for any sufficient fuel. *)
Lemma decode_plain : forall u s fuel, ~ In 37 u -> (length (u ++ s) <= fuel)%nat ->
  decode fuel (u ++ s) = u ++ decode (fuel - length u) s.
Proof.
  induction u as [|c u IH]; intros s fuel H L; cbn [app length] in *; [now rewrite Nat.sub_0_r|].
  destruct fuel as [|fuel]; [lia|]. cbn [decode]. destruct (Z.eqb_spec c 37); [subst; exfalso; apply H; cbn; auto|].
  rewrite IH; [reflexivity | intro; apply H; cbn; auto | lia].
Qed.
Lemma decode_fuel : forall fuel s, (length s <= fuel)%nat -> decode fuel s = decode (length s) s.
Proof.
  intros fuel s. remember (length s) as n eqn:En. revert s fuel En.
  induction n as [n IH] using lt_wf_ind. intros s fuel En L.
  destruct s as [|c s]; [destruct fuel, n; reflexivity|]. cbn [length] in En.
  destruct fuel as [|fuel]; [lia|]. destruct n as [|n]; [lia|]. cbn [decode].
  destruct (c =? 37).
  - destruct (HexToUInt32 2 s) as (v, r) eqn:E. destruct (hex_used _ _ _ E) as (u & -> & _).
    rewrite app_length in En. f_equal.
    rewrite (IH (length r) ltac:(lia) r fuel eq_refl ltac:(lia)).
    rewrite (IH (length r) ltac:(lia) r n eq_refl ltac:(lia)). reflexivity.
  - f_equal. rewrite (IH (length s) ltac:(lia) s fuel eq_refl ltac:(lia)).
    rewrite (IH (length s) ltac:(lia) s n eq_refl ltac:(lia)). reflexivity.
Qed.
Definition dec_all (s : list Z) : list Z := decode (length s) s.
Lemma dec_all_plain : forall c s, c <> 37 -> dec_all (c :: s) = c :: dec_all s.
Proof. intros c s H. unfold dec_all. cbn [length decode]. destruct (Z.eqb_spec c 37); [lia | reflexivity]. Qed.
Lemma dec_all_percent : forall s v r, HexToUInt32 2 s = (v, r) -> dec_all (37 :: s) = (v mod 256) :: dec_all r.
Proof.
  intros s v r E. unfold dec_all. cbn [length decode]. rewrite Z.eqb_refl, E. f_equal.
  destruct (hex_used _ _ _ E) as (u & -> & _). apply decode_fuel. rewrite app_length. lia.
Qed.
Lemma dec_all_app : forall u s, ~ In 37 u -> dec_all (u ++ s) = u ++ dec_all s.
Proof.
  induction u as [|c u IH]; intros s H; [reflexivity|]. cbn [app].
  rewrite dec_all_plain by (intros ->; apply H; cbn; auto). rewrite IH; [reflexivity|]. intro; apply H; cbn; auto.
Qed.
Lemma encode_cons : forall t c s, encode t (c :: s) = encode_char t c ++ encode t s.
Proof. reflexivity. Qed.
Lemma encode_app : forall t u s, encode t (u ++ s) = encode t u ++ encode t s.
Proof. intros. unfold encode. now rewrite map_app, concat_app. Qed.

Lemma decode_char : forall t c s, 1 <= c <= 255 -> (valid t c = true -> c <> 37) ->
  dec_all (encode_char t c ++ s) = c :: dec_all s.
Proof.
  intros t c s Hc H. unfold encode_char. destruct (valid t c) eqn:E.
  - cbn [app]. now apply dec_all_plain, H.
  - cbn [app]. change (37 :: appendHex8 c ++ s) with (37 :: (appendHex8 c ++ s)).
    rewrite (dec_all_percent _ _ _ (hex_pair c s ltac:(lia))). rewrite Z.mod_small by lia. reflexivity.
Qed.
Lemma decode_encode : forall t s r, bytes s -> (forall c, In c s -> valid t c = true -> c <> 37) ->
  dec_all (encode t s ++ r) = s ++ dec_all r.
Proof.
  induction s as [|c s IH]; intros r Hb H; [reflexivity|]. inversion Hb; subst.
  rewrite encode_cons, <- app_assoc, decode_char; [|lia|apply H; cbn; auto].
  cbn [app]. f_equal. apply IH; [assumption|]. intros d Hd. apply H. cbn. auto.
Qed.
Lemma round_trip_text : forall t s, bytes s -> (forall c, In c s -> valid t c = true -> c <> 37) ->
  XmlToString (encode t s) = s.
Proof.
  intros t s Hb H. unfold XmlToString. fold (dec_all (encode t s)).
  rewrite <- (app_nil_r (encode t s)), decode_encode by assumption.
  change (dec_all []) with (@nil Z). rewrite app_nil_r. now apply c_text_bytes.
Qed.

(** What HexToUInt32 skips in an encoded text comes from the original text. *)
Lemma encode_prefix : forall t used w r, encode t w = used ++ r -> Forall hexish used ->
  exists w', w = used ++ w' /\ r = encode t w'.
Proof.
  intro t. induction used as [|a used IH]; intros w r E F; [exists w; auto|].
  inversion F; subst. destruct w as [|c w]; [discriminate|]. rewrite encode_cons in E. unfold encode_char in E.
  destruct (valid t c).
  - cbn [app] in E. injection E as -> E. destruct (IH _ _ E H2) as (w' & -> & ->). exists w'. auto.
  - cbn [app] in E. injection E as E _. exfalso. now apply (hexish_not_percent a).
Qed.
Lemma decode_shrinks : forall t s, bytes s -> (length (dec_all (encode t s)) <= length s)%nat.
Proof.
  intros t s. remember (length s) as n eqn:En. revert s En. induction n as [n IH] using lt_wf_ind. intros s En Hb.
  destruct s as [|c s]; [cbn; lia|]. inversion Hb; subst. cbn [length].
  rewrite encode_cons. destruct (valid t c) eqn:Ev; [destruct (Z.eq_dec c 37) as [->|Hc]|].
  - unfold encode_char. rewrite Ev. cbn [app].
    destruct (HexToUInt32 2 (encode t s)) as (v, r) eqn:E. rewrite (dec_all_percent _ _ _ E).
    destruct (hex_used _ _ _ E) as (u & Eu & Fu & _). destruct (encode_prefix _ _ _ _ Eu Fu) as (w & -> & ->).
    cbn [length]. rewrite app_length.
    assert (bytes w) by (unfold bytes in *; match goal with H : Forall _ (u ++ w) |- _ => apply Forall_app in H; tauto end).
    specialize (IH (length w) ltac:(cbn [length]; rewrite app_length; lia) w eq_refl H). lia.
  - rewrite decode_char by auto. cbn [length].
    specialize (IH (length s) ltac:(cbn [length]; lia) s eq_refl H2). lia.
  - rewrite decode_char by (auto; congruence). cbn [length].
    specialize (IH (length s) ltac:(cbn [length]; lia) s eq_refl H2). lia.
Qed.
Lemma first_percent : forall s, In 37 s -> exists u w, s = u ++ 37 :: w /\ ~ In 37 u.
Proof.
  induction s as [|c s IH]; intro H; [destruct H|]. destruct (Z.eq_dec c 37) as [->|Hc].
  - exists [], s. split; [reflexivity | intros []].
  - destruct H as [|H]; [congruence|]. destruct (IH H) as (u & w & -> & N). exists (c :: u), w. split; [reflexivity|].
    intros [|]; [congruence | auto].
Qed.
Lemma percent_breaks : forall t s, bytes s -> valid t 37 = true -> In 37 s -> XmlToString (encode t s) <> s.
Proof.
  intros t s Hb Hv Hin E. destruct (first_percent s Hin) as (u & w & -> & Nu).
  assert (B : bytes u /\ bytes w).
  { unfold bytes in *. apply Forall_app in Hb. destruct Hb as (? & Hb). inversion Hb; auto. }
  destruct B as (Bu & Bw).
  unfold XmlToString in E. fold (dec_all (encode t (u ++ 37 :: w))) in E.
  rewrite encode_app, encode_cons in E.
  rewrite decode_encode in E by (auto; intros c Hc _ ->; auto).
  unfold encode_char in E. rewrite Hv in E. cbn [app] in E.
  destruct (HexToUInt32 2 (encode t w)) as (v, r) eqn:Eh. rewrite (dec_all_percent _ _ _ Eh) in E.
  destruct (hex_used _ _ _ Eh) as (used & Eu & Fu & Z0). destruct (encode_prefix _ _ _ _ Eu Fu) as (w' & -> & ->).
  destruct used as [|a used].
  - rewrite (Z0 eq_refl) in E. change (0 mod 256) with 0 in E.
    assert (C : forall x y, bytes x -> c_text (x ++ 0 :: y) = x).
    { clear. induction x as [|c x IH]; intros y H; [reflexivity|]. inversion H; subst. cbn [app c_text].
      destruct (Z.eqb_spec c 0); [lia|]. now rewrite IH. }
    rewrite C in E by assumption. apply (f_equal (@length Z)) in E. rewrite app_length in E. cbn in E. lia.
  - apply (f_equal (@length Z)) in E. pose proof (c_text_length (u ++ v mod 256 :: dec_all (encode t w'))) as L.
    rewrite E in L. rewrite !app_length in L. cbn [length] in L. rewrite app_length in L. cbn [length] in L.
    assert (bytes w') by (unfold bytes in *; apply Forall_app in Bw; tauto).
    pose proof (decode_shrinks t w' H). lia.
Qed.

(** *** Sorted insertion *)
Lemma strcmp_le_lex : forall a b, strcmp_le a b = false <-> lex b a.
Proof.
  induction a as [|x a IH]; destruct b as [|y b]; cbn [strcmp_le].
  - split; [discriminate | intro H; inversion H].
  - split; [discriminate | intro H; inversion H].
  - split; [constructor | reflexivity].
  - destruct (Z.eqb_spec x y).
    + subst. rewrite IH. split; [now constructor|]. intro H; inversion H; subst; [lia | assumption].
    + rewrite Z.ltb_ge. split; [intro; constructor; lia|]. intro H; inversion H; subst; lia.
Qed.
Lemma insert_back_spec : forall child name before rest,
  match insert_back child name before rest with
  | Some l => exists x p z n, rev before = x ++ p :: z /\ l = x ++ p :: child :: z ++ rest /\
       what p = Element n /\ strcmp_le n name = true /\
       forall q m, In q z -> what q = Element m -> strcmp_le m name = false
  | None => forall q m, In q before -> what q = Element m -> strcmp_le m name = false
  end.
Proof.
  intros child name. induction before as [|p b IH]; intro rest; cbn [insert_back]; [intros q m []|].
  assert (R : forall (Hp : forall m, what p = Element m -> strcmp_le m name = false),
    match insert_back child name b (p :: rest) with
    | Some l => exists x p0 z n, rev (p :: b) = x ++ p0 :: z /\ l = x ++ p0 :: child :: z ++ rest /\
       what p0 = Element n /\ strcmp_le n name = true /\
       forall q m, In q z -> what q = Element m -> strcmp_le m name = false
    | None => forall q m, In q (p :: b) -> what q = Element m -> strcmp_le m name = false
    end).
  { intro Hp. specialize (IH (p :: rest)). destruct (insert_back child name b (p :: rest)) as [l|].
    - destruct IH as (x & p0 & z & n & E1 & E2 & E3 & E4 & Hz).
      exists x, p0, (z ++ [p]), n. cbn [rev]. rewrite E1, <- !app_assoc. cbn [app].
      repeat (split; [assumption || reflexivity|]).
      intros q m Hq Hm. apply in_app_or in Hq. destruct Hq as [Hq|[<-|[]]]; [now apply (Hz q) | now apply Hp].
    - intros q m [<-|Hq] Hm; [now apply Hp | now apply (IH q)]. }
  destruct (what p) as [n|] eqn:Ep.
  - destruct (strcmp_le n name) eqn:Es.
    + exists (rev b), p, [], n. cbn [rev]. repeat split; auto. intros q m [].
    + apply R. intros m Hm. congruence.
  - apply R. intros m Hm. congruence.
Qed.

Definition all_valid : list bool := repeat true 256.
Lemma encode_all_valid : forall s, bytes s -> encode all_valid s = s.
Proof.
  induction s as [|c s IH]; intro H; [reflexivity|]. inversion H; subst. rewrite encode_cons, IH by assumption.
  unfold encode_char. replace (valid all_valid c) with true; [reflexivity|].
  unfold valid, all_valid. symmetry. rewrite nth_indep with (d' := true); [apply nth_repeat|].
  rewrite repeat_length. lia.
Qed.

(** Table facts by exhaustion over the 256 entries. *)
Lemma byte_cases : forall P : Z -> bool, forallb P (map Z.of_nat (seq 0 256)) = true -> forall c, 0 <= c <= 255 -> P c = true.
Proof.
  intros P H c Hc. rewrite forallb_forall in H. apply H. apply in_map_iff. exists (Z.to_nat c). split; [lia|].
  apply in_seq. lia.
Qed.
Definition plain_char (c : Z) : bool :=
  ((97 <=? c) && (c <=? 122)) || ((65 <=? c) && (c <=? 90)) || ((48 <=? c) && (c <=? 57)) ||
  (c =? 45) || (c =? 46) || (c =? 47) || (c =? 58) || (c =? 95) || (c =? 37).
Lemma filename_chars : forall c, 0 <= c <= 255 -> forallb plain_char (encode_char filenameValidityTable c) = true.
Proof. apply (byte_cases (fun c => forallb plain_char (encode_char filenameValidityTable c))). vm_compute. reflexivity. Qed.
Lemma forallb_encode : forall t (P : Z -> bool), (forall c, 0 <= c <= 255 -> forallb P (encode_char t c) = true) ->
  forall s, bytes s -> forallb P (encode t s) = true.
Proof.
  intros t P H. induction s as [|c s IH]; intro B; [reflexivity|]. inversion B; subst.
  rewrite encode_cons, forallb_app, H, IH by (assumption || lia). reflexivity.
Qed.
Lemma xml_safe_chars : forall c, 0 <= c <= 255 ->
  forallb (fun d => negb (d =? 60) && negb (d =? 62) && negb (d =? 34) && (d <? 127) && ((32 <=? d) || (d =? 10) || (d =? 13)))
    (encode_char xmlValidityTable c) = true.
Proof.
  apply (byte_cases (fun c => forallb (fun d => negb (d =? 60) && negb (d =? 62) && negb (d =? 34) && (d <? 127) && ((32 <=? d) || (d =? 10) || (d =? 13)))
    (encode_char xmlValidityTable c))). vm_compute. reflexivity.
Qed.

(** *** AddChildSorted *)
Lemma add_sorted_shape : forall children id name,
  let child := {| ident := id; what := Element name |} in
  exists x y, children = x ++ y /\ AddChildSorted children id name = x ++ child :: y /\
    (forall q m, In q y -> what q = Element m -> lex name m) /\
    ((exists p n, In p x /\ what p = Element n /\ ~ lex name n /\ exists x', x = x' ++ [p]) \/
     (x = [] /\ exists q m y', y = q :: y' /\ what q = Element m /\ forall q' m', In q' children -> what q' = Element m' -> lex name m') \/
     (y = [] /\ (forall q m y', children = q :: y' -> what q <> Element m) /\
        forall q' m', In q' children -> what q' = Element m' -> lex name m')).
Proof.
  intros children id name child. unfold AddChildSorted. fold child.
  pose proof (insert_back_spec child name (rev children) []) as S. rewrite rev_involutive in S.
  destruct (insert_back child name (rev children) []) as [l|].
  - destruct S as (x & p & z & n & E1 & E2 & E3 & E4 & Hz). rewrite app_nil_r in E2.
    exists (x ++ [p]), z. rewrite <- !app_assoc. cbn [app]. repeat (split; [assumption|]). split.
    + intros q m Hq Hm. apply strcmp_le_lex. now apply (Hz q).
    + left. exists p, n. split; [apply in_or_app; cbn; auto|]. split; [assumption|]. split; [|eauto].
      intro L. apply strcmp_le_lex in L. congruence.
  - assert (A : forall q m, In q children -> what q = Element m -> lex name m).
    { intros q m Hq Hm. apply strcmp_le_lex. apply (S q); [now apply in_rev in Hq | assumption]. }
    destruct children as [|[i k] r]; [|destruct k as [n|]].
    + exists [], []. cbn [app]. split; [reflexivity|]. split; [reflexivity|]. split; [intros q m []|].
      right. right. split; [reflexivity|]. split; [discriminate | exact A].
    + exists [], ({| ident := i; what := Element n |} :: r). cbn [app]. repeat split; auto.
      right. left. split; [reflexivity|]. exists {| ident := i; what := Element n |}, n, r. auto.
    + exists ({| ident := i; what := Other |} :: r), []. rewrite app_nil_r.
      split; [reflexivity|]. split; [reflexivity|]. split; [intros q m []|].
      right. right. split; [reflexivity|]. split; [|exact A]. intros q m y' E. injection E as <- _. discriminate.
Qed.

Lemma find_child_spec : forall children type,
  match FindChildByType children type with
  | Some c => exists x y, children = x ++ c :: y /\ what c = Element type /\ forall q, In q x -> what q <> Element type
  | None => forall q, In q children -> what q <> Element type
  end.
Proof.
  induction children as [|c r IH]; intro type; cbn [FindChildByType]; [intros q []|].
  specialize (IH type).
  assert (R : what c <> Element type -> match FindChildByType r type with
    | Some c0 => exists x y, c :: r = x ++ c0 :: y /\ what c0 = Element type /\ forall q, In q x -> what q <> Element type
    | None => forall q, In q (c :: r) -> what q <> Element type end).
  { intro Hc. destruct (FindChildByType r type) as [d|].
    - destruct IH as (x & y & -> & E & F). exists (c :: x), y. split; [reflexivity|]. split; [assumption|].
      intros q [<-|Hq]; auto.
    - intros q [<-|Hq]; auto. }
  destruct (what c) as [n|] eqn:Ec; [|apply R; congruence].
  destruct (text_eq n type) eqn:Et.
  - apply text_eq_spec in Et. subst n. exists [], r. split; [reflexivity|]. split; [assumption|]. intros q [].
  - apply R. intro E. injection E as ->. assert (text_eq type type = true) by (now apply text_eq_spec). congruence.
Qed.

Lemma find_children_spec : forall children type nodes,
  FindChildrenByType children type nodes =
  nodes ++ filter (fun c => match what c with Element n => if list_eq_dec Z.eq_dec n type then true else false | Other => false end) children.
Proof.
  induction children as [|c r IH]; intros type nodes; cbn [FindChildrenByType filter]; [now rewrite app_nil_r|].
  rewrite IH. destruct (what c) as [n|]; [|reflexivity].
  destruct (text_eq n type) eqn:Et; destruct (list_eq_dec Z.eq_dec n type) as [E|E].
  - now rewrite <- app_assoc.
  - apply text_eq_spec in Et. congruence.
  - apply text_eq_spec in E. congruence.
  - reflexivity.
Qed.
