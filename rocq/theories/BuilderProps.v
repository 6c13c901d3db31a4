(** C79: string builders hold the text their user expects, in memory they own.
    C80: searching, copying and separating in string builders. *)
From Coq Require Import List ZArith Bool Arith Lia.
From Verif Require Import BuilderModel BuilderSpec BuilderProofs.
Import ListNotations.

(** Every history of constructions, edits, conversions and deletions of any number of builders runs - no read or
    write outside a block, no read of a character never written, no use or second deletion of a freed block -
    and leaves in every builder that is alive exactly the text the history gives it. *)
Theorem C79_content : forall os T k, changes no_texts os (T, k) ->
  exists w, run start os = Some w /\
    forall i, match T i with
              | None => builders w i = None
              | Some t => exists b, builders w i = Some b /\ size b = length t /\
                            forall n c, nth_error t n = Some c -> get_cell (mem w) (buffer b) n = Some (Some c)
              end.
Proof.
  intros os T k H. destruct (run_spec os start no_texts _ inv_start H) as (w & E & (_ & I2 & _)).
  exists w. split; auto. intro i. specialize (I2 i). cbn [fst] in I2.
  destruct (T i) as [t|], (builders w i) as [b|]; try contradiction; auto. destruct I2 as (Hh & _).
  exists b. split; auto. split; [exact (proj1 (holds_size _ _ _ _ Hh))|].
  intros n c Hn. exact (get_cell_text _ _ _ _ _ _ Hh Hn).
Qed.
Print Assumptions C79_content.

(** Once every builder is deleted, so is every block. *)
Theorem C79_no_leak : forall os T k, changes no_texts os (T, k) -> (forall i, T i = None) ->
  exists w, run start os = Some w /\ forall a, mem w a = None.
Proof.
  intros os T k H HT. destruct (run_spec os start no_texts _ inv_start H) as (w & E & (_ & I2 & _ & _ & I5)).
  exists w. split; auto. intro a. destruct (mem w a) as [x|] eqn:Ea; auto.
  destruct (I5 a) as (i & b & Hi & _); [congruence|]. specialize (I2 i). cbn [fst] in I2. rewrite Hi, HT in I2. contradiction.
Qed.
Print Assumptions C79_no_leak.

(** ToCharPtr returns a block that holds the text followed by a zero, and leaves the text as it is. *)
Theorem C79_chars : forall os T k i t, changes no_texts os (T, k) -> T i = Some t ->
  exists w b m fr b' a blk, run start os = Some w /\ builders w i = Some b /\
    ToCharPtr (mem w, fresh w, b) = Some ((m, fr, b'), Some a) /\ size b' = length t /\
    m a = Some blk /\ firstn (length t + 1) blk = map Some (t ++ [0%Z]).
Proof.
  intros os T k i t H HT. destruct (run_spec os start no_texts _ inv_start H) as (w & E & (_ & I2 & I3 & _)).
  specialize (I2 i). cbn [fst] in I2. rewrite HT in I2. destruct (builders w i) as [b|] eqn:Eb; [|contradiction].
  destruct I2 as (Hh & _). destruct (ToCharPtr_spec _ _ _ _ (conj Hh I3)) as (m' & fr' & b' & a & blk & E1 & G & _ & Hm & Hb).
  exists w, b, m', fr', b', a, blk. split; auto. split; auto. split; auto. split; auto.
  exact (proj1 (holds_size _ _ _ _ (proj1 G))).
Qed.
Print Assumptions C79_chars.

(** *** Searching *)
Lemma index_loop_found : forall n m fr b t c i todo, holds m fr b t -> nth_error t (i + n) = Some c ->
  (forall j, i <= j < i + n -> nth_error t j <> Some c) -> n < todo ->
  index_loop todo m (buffer b) i c = Some (Z.of_nat (i + n)).
Proof.
  induction n as [|n IH]; intros m fr b t c i todo Hh Hn Hj Ht; (destruct todo as [|todo]; [lia|]); cbn [index_loop].
  - rewrite Nat.add_0_r in *. rewrite (get_cell_text _ _ _ _ _ _ Hh Hn). now rewrite Z.eqb_refl.
  - destruct (nth_error t i) as [d|] eqn:Ei.
    + rewrite (get_cell_text _ _ _ _ _ _ Hh Ei). destruct (Z.eqb_spec d c) as [->|N].
      * exfalso. apply (Hj i); auto. lia.
      * rewrite (IH m fr b t c (S i) todo); auto; [f_equal; f_equal; lia| | |lia].
        -- replace (S i + n) with (i + S n) by lia. auto.
        -- intros j Hj'. apply Hj. lia.
    + apply nth_error_None in Ei. assert (nth_error t (i + S n) <> None) as X by congruence. apply nth_error_Some in X. lia.
Qed.

(** [index] gives the first place of a character that occurs in the text.  Missing: -1 for a character that does
    not occur, see C80_index_refuted. *)
Theorem C80_index_partial : forall os T k i t c n, changes no_texts os (T, k) -> T i = Some t ->
  nth_error t n = Some c -> (forall j, j < n -> nth_error t j <> Some c) ->
  exists w b, run start os = Some w /\ builders w i = Some b /\ index (mem w) b c = Some (Z.of_nat n).
Proof.
  intros os T k i t c n H HT Hn Hj. destruct (run_spec os start no_texts _ inv_start H) as (w & E & (_ & I2 & I3 & _)).
  specialize (I2 i). cbn [fst] in I2. rewrite HT in I2. destruct (builders w i) as [b|] eqn:Eb; [|contradiction].
  destruct I2 as (Hh & _). exists w, b. split; auto. split; auto.
  pose proof (holds_size _ _ _ _ Hh) as (Hs & _). assert (X : nth_error t n <> None) by congruence. apply nth_error_Some in X.
  unfold index. rewrite (proj2 (Nat.ltb_lt _ _)) by lia.
  rewrite (index_loop_found n (mem w) (fresh w) b t c 0 (size b + 1)); auto; [|intros; apply Hj; lia|lia].
  destruct (buffer b) eqn:Ebuf; auto. unfold holds in Hh. rewrite Ebuf in Hh. destruct Hh as (_ & _ & ->). destruct n; discriminate.
Qed.
Print Assumptions C80_index_partial.

Lemma rindex_loop_found : forall i m fr b t c n, holds m fr b t -> i < length t -> 0 < n <= i -> nth_error t n = Some c ->
  (forall j, n < j -> nth_error t j <> Some c) -> rindex_loop i m (buffer b) c = Some (Z.of_nat n).
Proof.
  induction i as [|i IH]; intros m fr b t c n Hh Hi Hn Hc Hj; [lia|]. cbn [rindex_loop].
  destruct (nth_error t (S i)) as [d|] eqn:Ei; [|apply nth_error_None in Ei; lia].
  rewrite (get_cell_text _ _ _ _ _ _ Hh Ei). destruct (Z.eqb_spec d c) as [->|N].
  - destruct (Nat.eq_dec n (S i)) as [->|N]; auto. exfalso. apply (Hj (S i)); auto. lia.
  - apply (IH m fr b t c n); auto; [lia|]. destruct (Nat.eq_dec n (S i)) as [->|]; [congruence|lia].
Qed.
Lemma rindex_loop_none : forall i m fr b t c, holds m fr b t -> i < length t ->
  (forall j, 0 < j -> nth_error t j <> Some c) -> rindex_loop i m (buffer b) c = Some (-1)%Z.
Proof.
  induction i as [|i IH]; intros m fr b t c Hh Hi Hj; [reflexivity|]. cbn [rindex_loop].
  destruct (nth_error t (S i)) as [d|] eqn:Ei; [|apply nth_error_None in Ei; lia].
  rewrite (get_cell_text _ _ _ _ _ _ Hh Ei). destruct (Z.eqb_spec d c) as [->|N].
  - exfalso. apply (Hj (S i)); auto. lia.
  - apply (IH m fr b t c); auto. lia.
Qed.

(** [rindex] gives the last place of a character, unless that is the first character of the text, and -1 for a
    character that does not occur.  Missing: the first character, see C80_rindex_refuted. *)
Theorem C80_rindex_partial : forall os T k i t c, changes no_texts os (T, k) -> T i = Some t ->
  exists w b, run start os = Some w /\ builders w i = Some b /\
    (forall n, 0 < n -> nth_error t n = Some c -> (forall j, n < j -> nth_error t j <> Some c) ->
       rindex (mem w) b c = Some (Z.of_nat n)) /\
    (~ In c t -> rindex (mem w) b c = Some (-1)%Z).
Proof.
  intros os T k i t c H HT. destruct (run_spec os start no_texts _ inv_start H) as (w & E & (_ & I2 & I3 & _)).
  specialize (I2 i). cbn [fst] in I2. rewrite HT in I2. destruct (builders w i) as [b|] eqn:Eb; [|contradiction].
  destruct I2 as (Hh & _). exists w, b. split; auto. split; auto.
  pose proof (holds_size _ _ _ _ Hh) as (Hs & _). unfold rindex. split.
  - intros n Hn Hc Hj. assert (X : nth_error t n <> None) by congruence. apply nth_error_Some in X.
    rewrite (proj2 (Nat.ltb_lt _ _)) by lia.
    rewrite (rindex_loop_found (size b - 1) (mem w) (fresh w) b t c n); auto; try lia.
    destruct (buffer b) eqn:Ebuf; auto. unfold holds in Hh. rewrite Ebuf in Hh. destruct Hh as (_ & _ & ->). destruct n; discriminate.
  - intro Hno. destruct (Nat.ltb_spec 0 (size b)) as [Hpos|Hpos]; [|destruct (buffer b); reflexivity].
    rewrite (rindex_loop_none (size b - 1) (mem w) (fresh w) b t c Hh); try lia.
    + destruct (buffer b); reflexivity.
    + intros j _ Hjc. apply Hno. eapply nth_error_In; eauto.
Qed.
Print Assumptions C80_rindex_partial.

(** *** Where the code does not do what its user expects *)
Definition letters (n : nat) : list Z := repeat 97%Z n.

(** Searching a full builder for a character it does not hold reads behind its block; searching a builder that
    was shortened finds the character behind the text. *)
Theorem C80_index_refuted :
  (exists os T k w b, changes no_texts os (T, k) /\ T 0 = Some (letters 96) /\ run start os = Some w /\ builders w 0 = Some b /\
     index (mem w) b 98 = None) /\
  (exists os T k w b, changes no_texts os (T, k) /\ T 0 = Some (letters 3) /\ run start os = Some w /\ builders w 0 = Some b /\
     index (mem w) b 98 = Some 3%Z).
Proof.
  split.
  - exists [New 96; AppendText 0 (letters 96)]. do 4 eexists. split; [|split; [|split; [vm_compute; reflexivity|split; [reflexivity|vm_compute; reflexivity]]]].
    + eapply Chs_cons; [exact I|apply Ch_new|]. eapply Chs_cons; [exact I| |apply Chs_nil].
      eapply Ch_edit with (i := 0); [reflexivity|]. apply E_text.
    + reflexivity.
  - exists [NewText (letters 3 ++ [98; 99]%Z); Remove1 0 3%Z]. do 4 eexists.
    split; [|split; [|split; [vm_compute; reflexivity|split; [reflexivity|vm_compute; reflexivity]]]].
    + eapply Chs_cons; [exact I|apply Ch_text|]. eapply Chs_cons; [| |apply Chs_nil].
      * intros t Ht. cbn in Ht. injection Ht as <-. reflexivity.
      * eapply Ch_edit with (i := 0); [reflexivity|]. apply (E_remove1 _ _ 0 3). cbn. lia.
    + reflexivity.
Qed.
Print Assumptions C80_index_refuted.

(** The first character is never found from the right. *)
Theorem C80_rindex_refuted : exists os T k w b, changes no_texts os (T, k) /\ T 0 = Some [47; 97]%Z /\
  run start os = Some w /\ builders w 0 = Some b /\ rindex (mem w) b 47 = Some (-1)%Z.
Proof.
  exists [NewText [47; 97]%Z]. do 4 eexists.
  split; [|split; [|split; [vm_compute; reflexivity|split; [reflexivity|vm_compute; reflexivity]]]].
  - eapply Chs_cons; [exact I|apply Ch_text|apply Chs_nil].
  - reflexivity.
Qed.
Print Assumptions C80_rindex_refuted.

(** A copied builder shares its block: deleting both deletes it twice, whatever the text. *)
Theorem C80_copy_refuted : forall t, run start [NewText t; Copy 0; Delete 0; Delete 1] = None.
Proof.
  intro t. change [NewText t; Copy 0; Delete 0; Delete 1] with ([NewText t] ++ [Copy 0; Delete 0; Delete 1]).
  assert (Hc : changes no_texts [NewText t] (texts_put (fst no_texts) 0 (Some t), 1)).
  { eapply Chs_cons; [exact I|apply Ch_text|apply Chs_nil]. }
  destruct (run_spec _ start no_texts _ inv_start Hc) as (w & E & (I1 & I2 & I3 & I4 & I5)).
  assert (Hrun : forall os1 os2 w0, run w0 (os1 ++ os2) = match run w0 os1 with Some w1 => run w1 os2 | None => None end).
  { induction os1 as [|o os1 IH]; intros os2 w0; cbn [run app]; auto. destruct (step w0 o); auto. }
  rewrite Hrun, E. cbn [snd] in I1. pose proof (I2 0) as I0. cbn in I0. destruct (builders w 0) as [b|] eqn:Eb; [|contradiction].
  destruct I0 as (Hh & _).
  (* the block is there, as the constructor reserves 32 cells at least *)
  assert (Hbuf : exists a, buffer b = Some a).
  { destruct (buffer b) as [a|] eqn:Ebuf; [eauto|]. exfalso. unfold holds in Hh. rewrite Ebuf in Hh.
    destruct Hh as (_ & _ & ->). vm_compute in E. injection E as <-. vm_compute in Eb. injection Eb as <-. discriminate. }
  destruct Hbuf as (a & Ebuf). unfold holds in Hh. rewrite Ebuf in Hh. destruct Hh as (Ha & rest & Hm & Hl & Hr).
  cbn [run step]. rewrite Eb. cbn [mem fresh builders count]. rewrite I1. unfold on. cbn [mem fresh builders count].
  rewrite put_other by discriminate. rewrite Eb. unfold reserve at 1. rewrite (proj2 (Nat.ltb_ge _ _)) by lia. cbn [Nat.eqb].
  rewrite Ebuf. cbn [delete_array]. rewrite Hm. cbn [mem fresh builders count].
  rewrite put_other by discriminate. rewrite put_other by discriminate. rewrite put_same. unfold reserve.
  rewrite (proj2 (Nat.ltb_ge _ _)) by lia. cbn [Nat.eqb]. rewrite Ebuf. cbn [delete_array]. now rewrite put_same.
Qed.
Print Assumptions C80_copy_refuted.

(** Appending a vector to a text that ends in a blank adds another blank: the test meant to prevent it always
    succeeds. *)
Theorem C80_blank_refuted : forall os T k i t ts, changes no_texts os (T, k) -> T i = Some (t ++ [32%Z]) ->
  exists w b, run start (os ++ [AppendVector i ts]) = Some w /\ builders w i = Some b /\
    get_cell (mem w) (buffer b) (length t) = Some (Some 32%Z) /\ get_cell (mem w) (buffer b) (S (length t)) = Some (Some 32%Z).
Proof.
  intros os T k i t ts H HT.
  assert (Happ : forall os1 T0 T1 os2 T2, changes T0 os1 T1 -> changes T1 os2 T2 -> changes T0 (os1 ++ os2) T2).
  { intros os1 T0 T1 os2 T2 H1 H2. induction H1 as [|T0 o T1' os1 T2' A B C IH]; auto. econstructor; eauto. }
  assert (Hv : changes (T, k) [AppendVector i ts] (texts_put T i (Some ((t ++ [32%Z]) ++ [32%Z] ++ fields ts)), k)).
  { eapply Chs_cons; [exact I| |apply Chs_nil]. eapply Ch_edit; [exact HT|]. apply E_vector. destruct t; discriminate. }
  destruct (C79_content _ _ _ (Happ _ _ _ _ _ H Hv)) as (w & E & Hw). specialize (Hw i). unfold texts_put in Hw.
  rewrite Nat.eqb_refl in Hw. destruct Hw as (b & Hb & _ & Hc). exists w, b. split; auto. split; auto. split; apply Hc.
  - rewrite <- app_assoc. rewrite nth_error_app2 by lia. now rewrite Nat.sub_diag.
  - rewrite nth_error_app2 by (rewrite app_length; cbn; lia). rewrite app_length. cbn [length].
    replace (S (length t) - (length t + 1)) with 0 by lia. reflexivity.
Qed.
Print Assumptions C80_blank_refuted.

(** *** Demonstrations *)
Definition demo_ops : list op :=
  [New 32; NewText [97; 98; 99]%Z; AppendText 0 (letters 40); AppendBuilder 0 0; AppendBuilder 0 1; AppendBuilder 1 0;
   Remove2 0 1 79; AppendChar 0 47; AppendVector 0 [[49]; [50]; [51]]%Z; CharPtr 0; PopBack 0; Reserve 0 4; AppendLine 0 [52]%Z; Delete 1].
Example C79_demo : exists T, changes no_texts demo_ops (T, 2) /\ T 0 = Some [97; 97; 97; 98; 52; 10]%Z /\ T 1 = None.
Proof.
  eexists. split; [|split].
  - unfold demo_ops.
    repeat (eapply Chs_cons; [first [exact I | (split; [lia|]; intros t Ht; cbn in Ht; injection Ht as <-; reflexivity)]
      | first [apply Ch_new | apply Ch_text | (eapply Ch_delete; reflexivity)
        | (eapply Ch_edit with (i := 0); [reflexivity|];
           first [apply E_text | (apply E_builder; reflexivity) | apply (E_remove2 _ _ 0 1 79); cbn; lia | apply E_char
                 | (apply E_vector; discriminate) | apply E_chars | apply E_pop | apply E_reserve | apply E_line])
        | (eapply Ch_edit with (i := 1); [reflexivity|]; apply E_builder; reflexivity)] |]).
    apply Chs_nil.
  - reflexivity.
  - reflexivity.
Qed.
Example C79_demo_all_deleted : exists T, changes no_texts [New 0; AppendChar 0 97; Delete 0] (T, 1) /\ forall i, T i = None.
Proof.
  eexists. split.
  - eapply Chs_cons; [exact I|apply Ch_new|]. eapply Chs_cons; [exact I|eapply Ch_edit with (i := 0); [reflexivity|apply E_char]|].
    eapply Chs_cons; [exact I|eapply Ch_delete; reflexivity|]. apply Chs_nil.
  - intros [|i]; reflexivity.
Qed.
Example C80_demo_found : exists t, nth_error t 2 = Some 47%Z /\ (forall j, j < 2 -> nth_error t j <> Some 47%Z) /\
  (forall j, 2 < j -> nth_error t j <> Some 47%Z) /\ t = [97; 98; 47; 99]%Z.
Proof.
  eexists. split; [|split; [|split; [|reflexivity]]]; [reflexivity| |].
  - intros [|[|j]] Hj; try discriminate; lia.
  - intros [|[|[|[|j]]]] Hj; try lia; try discriminate. destruct j; discriminate.
Qed.
