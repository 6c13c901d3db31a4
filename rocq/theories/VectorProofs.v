(** Lemmas about the [fm::vector] model. *)
From Coq Require Import List Arith Bool Lia.
From Verif Require Import VectorModel VectorSpec.
Import ListNotations.

Section Proofs.
Context {T : Type}.
Notation vec := (vec T).
Notation cell := (option T).

Lemma firstn_len_app : forall (A : Type) (a b : list A) n, n = length a -> firstn n (a ++ b) = a.
Proof.
  intros A a b n ->. rewrite firstn_app, Nat.sub_diag, firstn_all. cbn. apply app_nil_r.
Qed.
Lemma skipn_len_app : forall (A : Type) (a b : list A) n, n = length a -> skipn n (a ++ b) = b.
Proof. intros A a b n ->. rewrite skipn_app, Nat.sub_diag, skipn_all. reflexivity. Qed.

Lemma skipn_skipn_add : forall (A : Type) (l : list A) n m, skipn n (skipn m l) = skipn (n + m) l.
Proof.
  intros A l n m. revert n l. induction m as [|m IH]; intros n l; cbn [skipn].
  - rewrite Nat.add_0_r. reflexivity.
  - destruct l as [|x l]; [rewrite !skipn_nil; reflexivity|].
    rewrite IH. replace (n + S m) with (S (n + m)) by lia. reflexivity.
Qed.

Lemma slice_mid : forall (a b c : list cell) s n, s = length a -> n = length b ->
  slice (a ++ b ++ c) s n = Some b.
Proof.
  intros a b c s n -> ->. unfold slice.
  rewrite (proj2 (Nat.leb_le _ _)) by (rewrite !app_length; lia).
  rewrite skipn_len_app, firstn_len_app; auto.
Qed.

Lemma blit_mid : forall (a b c xs : list cell) d, d = length a -> length xs = length b ->
  blit (a ++ b ++ c) d xs = Some (a ++ xs ++ c).
Proof.
  intros a b c xs d -> Hl. unfold blit.
  rewrite (proj2 (Nat.leb_le _ _)) by (rewrite !app_length; lia).
  rewrite firstn_len_app by auto. do 3 f_equal.
  rewrite app_assoc. apply skipn_len_app. rewrite app_length. lia.
Qed.

Definition rep (v : vec) (l : list T) : Prop :=
  exists rest, buf v = map Some l ++ rest /\ sized v = length l.

Lemma rep_contents : forall v l, rep v l ->
  contents v = map Some l /\ sized v = length l /\ sized v <= capacity v.
Proof.
  intros v l (rest & Hb & Hs). unfold contents, capacity. rewrite Hb, Hs. split; [|split; auto].
  - apply firstn_len_app. rewrite map_length. reflexivity.
  - rewrite app_length, map_length. lia.
Qed.

Lemma reserve_rep : forall v l n, rep v l ->
  exists v', reserve v n = Some v' /\ rep v' (firstn n l) /\ capacity v' = n.
Proof.
  intros v l n (rest & Hb & Hs). unfold reserve.
  destruct (Nat.eqb_spec (capacity v) n) as [E|E].
  - exists v. split; [reflexivity|]. unfold capacity in *.
    rewrite Hb, app_length, map_length in E.
    split; [|rewrite Hb, app_length, map_length; auto].
    rewrite firstn_all2 by lia. exists rest. auto.
  - rewrite Hs.
    assert (Emin : (if n <? length l then n else length l) = length (firstn n l)).
    { rewrite firstn_length. destruct (Nat.ltb_spec n (length l)); lia. }
    rewrite Emin.
    set (k := length (firstn n l)).
    assert (Hk : k <= n /\ k <= length l) by (unfold k; rewrite firstn_length; lia).
    assert (Esl : slice (buf v) 0 k = Some (map Some (firstn n l))).
    { rewrite Hb. rewrite <- (firstn_skipn n l) at 1. rewrite map_app, <- app_assoc.
      apply (slice_mid [] (map Some (firstn n l))); [reflexivity|]. rewrite map_length. reflexivity. }
    assert (Ebl : blit (repeat None n) 0 (map Some (firstn n l))
       = Some (map Some (firstn n l) ++ repeat None (n - k))).
    { replace n with (k + (n - k)) at 1 by lia. rewrite repeat_app.
      apply (blit_mid [] (repeat None k)); [reflexivity|].
      rewrite map_length, repeat_length. reflexivity. }
    destruct (Nat.ltb_spec 0 k) as [Hk0|Hk0].
    + rewrite Esl, Ebl. eexists; split; [reflexivity|]. split.
      * exists (repeat None (n - k)). cbn. auto.
      * unfold capacity; cbn. rewrite app_length, map_length, repeat_length. fold k. lia.
    + eexists; split; [reflexivity|].
      assert (k = 0) by lia. split.
      * exists (repeat None n). cbn. unfold k in H. apply length_zero_iff_nil in H. rewrite H.
        split; [reflexivity|]. unfold k; rewrite H; reflexivity.
      * unfold capacity; cbn. apply repeat_length.
Qed.

(** Opening a gap of [n] cells at position [i] and filling it with [xs]. *)
Lemma open_gap : forall (l : list T) rest i n (xs : list cell),
  i <= length l -> n <= length rest -> length xs = n ->
  exists b, (if i <? length l then memmove (map Some l ++ rest) (i + n) i (length l - i)
             else Some (map Some l ++ rest)) = Some b /\
    blit b i xs = Some (map Some (firstn i l) ++ xs ++ map Some (skipn i l) ++ skipn n rest) /\
    (forall j, j < i -> nth_error b j = option_map Some (nth_error l j)).
Proof.
  intros l rest i n xs Hi Hn Hx.
  assert (El : map (@Some T) l = map Some (firstn i l) ++ map Some (skipn i l))
    by (rewrite <- map_app, firstn_skipn; reflexivity).
  assert (Hf : length (map (@Some T) (firstn i l)) = i)
    by (rewrite map_length, firstn_length; lia).
  assert (Hsk : length (map (@Some T) (skipn i l)) = length l - i)
    by (rewrite map_length, skipn_length; lia).
  assert (Hnth : forall b', (forall j, j < i -> nth_error (map Some (firstn i l) ++ b') j
                                   = option_map Some (nth_error l j))).
  { intros b' j Hj. rewrite nth_error_app1 by lia.
    rewrite nth_error_map. f_equal.
    rewrite <- (firstn_skipn i l) at 2. rewrite nth_error_app1; [reflexivity|].
    rewrite firstn_length. lia. }
  destruct (Nat.ltb_spec i (length l)) as [Hlt|Hge].
  - set (A := map (@Some T) (firstn i l)) in *. set (B := map (@Some T) (skipn i l)) in *.
    assert (Em : exists g, length g = n /\
      memmove (map Some l ++ rest) (i + n) i (length l - i) = Some (A ++ g ++ B ++ skipn n rest)).
    { unfold memmove. rewrite El, <- app_assoc.
      rewrite (slice_mid A B rest i (length l - i)) by auto.
      (* view the buffer as (A ++ first n cells of B++rest) ++ next |B| cells ++ remainder *)
      exists (firstn n (B ++ rest)). split.
      { rewrite firstn_length, app_length. lia. }
      rewrite <- (firstn_skipn n (B ++ rest)) at 1.
      rewrite <- (firstn_skipn (length B) (skipn n (B ++ rest))) at 1.
      rewrite (app_assoc A).
      rewrite blit_mid.
      - rewrite <- !app_assoc. do 4 f_equal. rewrite skipn_skipn_add.
        replace (length B + n) with (n + length B) by lia.
        rewrite skipn_app. rewrite skipn_all2 by lia. cbn. f_equal. lia.
      - rewrite app_length, firstn_length, app_length. lia.
      - rewrite firstn_length, skipn_length, app_length. lia. }
    destruct Em as (g & Hg & Em). exists (A ++ g ++ B ++ skipn n rest).
    split; [exact Em|]. split.
    + apply blit_mid; lia.
    + apply Hnth.
  - exists (map Some l ++ rest). split; [reflexivity|]. split.
    + replace i with (length l) in * by lia. rewrite skipn_all, firstn_all. cbn [map app].
      rewrite <- (firstn_skipn n rest) at 1. apply blit_mid.
      * rewrite map_length. reflexivity.
      * rewrite firstn_length. lia.
    + intros j Hj. rewrite El, <- app_assoc. apply Hnth; auto.
Qed.

Lemma insert_rep : forall v l i x, rep v l -> i <= length l ->
  exists v', insert v i x = Some v' /\ rep v' (firstn i l ++ x :: skipn i l).
Proof.
  intros v l i x Hr Hi. unfold insert, insert_ref.
  assert (Hs : sized v = length l) by (destruct Hr as (? & _ & Hs); auto).
  rewrite Hs. rewrite (proj2 (Nat.leb_le i (length l))) by auto. cbn [negb].
  assert (H1 : exists v1, (if Nat.eqb (length l) (capacity v)
       then reserve v (length l + (if 31 <? length l then 32 else length l + 1)) else Some v) = Some v1
       /\ rep v1 l /\ length l < capacity v1).
  { destruct (Nat.eqb_spec (length l) (capacity v)) as [E|E].
    - destruct (reserve_rep v l (length l + (if 31 <? length l then 32 else length l + 1)) Hr)
        as (v1 & E1 & R1 & C1).
      rewrite E1. exists v1. split; [reflexivity|]. rewrite firstn_all2 in R1 by lia.
      split; [auto|]. rewrite C1. destruct (31 <? length l); lia.
    - exists v. split; [reflexivity|]. split; [auto|].
      apply rep_contents in Hr. lia. }
  destruct H1 as (v1 & E1 & (rest & Hb & Hs1) & C1). rewrite E1, Hs1, Hb.
  destruct (open_gap l rest i 1 [Some x]) as (b & Em & Eb & _); auto.
  { unfold capacity in C1. rewrite Hb, app_length, map_length in C1. lia. }
  rewrite Em. cbn [deref]. rewrite Eb.
  eexists; split; [reflexivity|]. exists (skipn 1 rest). split.
  - cbn [buf]. rewrite map_app, <- app_assoc. reflexivity.
  - cbn [sized]. rewrite app_length. cbn. rewrite firstn_length, skipn_length. lia.
Qed.

Lemma insert_n_rep : forall v l i n x, rep v l -> i <= length l ->
  exists v', insert_n v i n x = Some v' /\ rep v' (firstn i l ++ repeat x n ++ skipn i l).
Proof.
  intros v l i n x Hr Hi. unfold insert_n.
  assert (Hs : sized v = length l) by (destruct Hr as (? & _ & Hs); auto).
  rewrite Hs. destruct (Nat.ltb_spec 0 n) as [Hn|Hn].
  2:{ exists v. split; auto. replace n with 0 by lia. cbn. rewrite firstn_skipn. auto. }
  rewrite (proj2 (Nat.leb_le i (length l))) by auto. cbn [negb].
  assert (H1 : exists v1, (if capacity v <? length l + n
       then reserve v (length l + n) else Some v) = Some v1
       /\ rep v1 l /\ length l + n <= capacity v1).
  { destruct (Nat.ltb_spec (capacity v) (length l + n)) as [E|E].
    - destruct (reserve_rep v l (length l + n) Hr) as (v1 & E1 & R1 & C1).
      rewrite E1. exists v1. split; [reflexivity|]. rewrite firstn_all2 in R1 by lia.
      split; [auto|]. lia.
    - exists v. auto. }
  destruct H1 as (v1 & E1 & (rest & Hb & Hs1) & C1). rewrite E1, Hs1, Hb.
  destruct (open_gap l rest i n (repeat (Some x) n)) as (b & Em & Eb & _); auto.
  { unfold capacity in C1. rewrite Hb, app_length, map_length in C1. lia. }
  { apply repeat_length. }
  rewrite Em, Eb.
  eexists; split; [reflexivity|]. exists (skipn n rest). split.
  - cbn [buf]. rewrite !map_app, <- !app_assoc. do 2 f_equal.
    clear. induction n; cbn; f_equal; auto.
  - cbn [sized]. rewrite !app_length, repeat_length, firstn_length, skipn_length. lia.
Qed.

Lemma insert_range_rep : forall v l i xs, rep v l -> i <= length l ->
  exists v', insert_range v i xs = Some v' /\ rep v' (firstn i l ++ xs ++ skipn i l).
Proof.
  intros v l i xs Hr Hi. unfold insert_range.
  assert (Hs : sized v = length l) by (destruct Hr as (? & _ & Hs); auto).
  rewrite Hs. destruct (Nat.ltb_spec 0 (length xs)) as [Hn|Hn].
  2:{ exists v. split; auto. destruct xs; [|cbn in Hn; lia]. cbn. rewrite firstn_skipn. auto. }
  rewrite (proj2 (Nat.leb_le i (length l))) by auto. cbn [negb].
  set (n := length xs) in *.
  assert (H1 : exists v1, (if capacity v <? length l + n
       then reserve v (if 32 <? length l + n - capacity v then length l + n
                             else capacity v + 32) else Some v) = Some v1
       /\ rep v1 l /\ length l + n <= capacity v1).
  { destruct (Nat.ltb_spec (capacity v) (length l + n)) as [E|E].
    - destruct (Nat.ltb_spec 32 (length l + n - capacity v)) as [E2|E2].
      + destruct (reserve_rep v l (length l + n) Hr) as (v1 & E1 & R1 & C1).
        rewrite E1. exists v1. split; [reflexivity|]. rewrite firstn_all2 in R1 by lia.
        split; [auto|]. lia.
      + destruct (reserve_rep v l (capacity v + 32) Hr) as (v1 & E1 & R1 & C1).
        apply rep_contents in Hr.
        rewrite E1. exists v1. split; [reflexivity|]. rewrite firstn_all2 in R1 by lia.
        split; [auto|]. lia.
    - exists v. auto. }
  destruct H1 as (v1 & E1 & (rest & Hb & Hs1) & C1). rewrite E1, Hs1, Hb.
  destruct (open_gap l rest i n (map Some xs)) as (b & Em & Eb & _); auto.
  { unfold capacity in C1. rewrite Hb, app_length, map_length in C1. lia. }
  { apply map_length. }
  rewrite Em, Eb.
  eexists; split; [reflexivity|]. exists (skipn n rest). split.
  - cbn [buf]. rewrite !map_app, <- !app_assoc. reflexivity.
  - cbn [sized]. rewrite !app_length, firstn_length, skipn_length. unfold n. lia.
Qed.

(** Closing a gap: the cells [[b, length l)] move to [a]. *)
Lemma close_gap : forall (l : list T) rest a b, a <= b -> b <= length l ->
  exists b' rest', (if 0 <? length l - b then memmove (map Some l ++ rest) a b (length l - b)
             else Some (map Some l ++ rest)) = Some b' /\
    b' = map Some (firstn a l ++ skipn b l) ++ rest'.
Proof.
  intros l rest a b Hab Hb.
  set (A := map (@Some T) (firstn a l)).
  set (M := map (@Some T) (skipn a (firstn b l))).
  set (B := map (@Some T) (skipn b l)).
  assert (El : map (@Some T) l = A ++ M ++ B).
  { unfold A, M, B. rewrite <- !map_app. f_equal.
    rewrite <- (firstn_skipn b l) at 1. rewrite app_assoc. f_equal.
    rewrite <- (firstn_skipn a (firstn b l)) at 1. f_equal.
    rewrite firstn_firstn. f_equal. lia. }
  assert (HA : length A = a) by (unfold A; rewrite map_length, firstn_length; lia).
  assert (HM : length M = b - a) by (unfold M; rewrite map_length, skipn_length, firstn_length; lia).
  assert (HB : length B = length l - b) by (unfold B; rewrite map_length, skipn_length; lia).
  destruct (Nat.ltb_spec 0 (length l - b)) as [H|H].
  - unfold memmove.
    assert (Esl : slice (map Some l ++ rest) b (length l - b) = Some B).
    { rewrite El. replace ((A ++ M ++ B) ++ rest) with ((A ++ M) ++ B ++ rest)
        by (rewrite <- !app_assoc; reflexivity).
      apply slice_mid; [rewrite app_length; lia|lia]. }
    rewrite Esl.
    assert (Ebl : blit (map Some l ++ rest) a B
       = Some (A ++ B ++ skipn (length B) (M ++ B ++ rest))).
    { rewrite El. replace ((A ++ M ++ B) ++ rest) with (A ++ (M ++ B ++ rest))
        by (rewrite <- !app_assoc; reflexivity).
      rewrite <- (firstn_skipn (length B) (M ++ B ++ rest)) at 1.
      apply blit_mid; [auto|]. rewrite firstn_length, !app_length. lia. }
    rewrite Ebl. do 2 eexists. split; [reflexivity|]. rewrite map_app, <- app_assoc. reflexivity.
  - exists (map Some l ++ rest), (M ++ rest). split; [reflexivity|].
    assert (EB : B = []) by (apply length_zero_iff_nil; lia).
    rewrite map_app. fold A B. rewrite El, EB, !app_nil_r, <- app_assoc. reflexivity.
Qed.

Lemma erase_range_rep : forall v l a b, rep v l -> a <= b ->
  exists v', erase_range v a b = Some v' /\
    rep v' (if b <=? length l then firstn a l ++ skipn b l else l).
Proof.
  intros v l a b Hr Hab. pose proof Hr as (rest & Hb & Hs). unfold erase_range. rewrite Hs.
  destruct (Nat.leb_spec b (length l)) as [Hbl|Hbl].
  - destruct (Nat.ltb_spec a (length l)) as [Ha|Ha]; cbn [negb].
    + destruct (Nat.ltb_spec 0 b) as [H0|H0]; cbn [negb andb].
      * rewrite Hb.
        destruct (close_gap l rest a b Hab Hbl) as (b' & rest' & E & Eb). rewrite E.
        eexists; split; [reflexivity|]. exists rest'. cbn [buf sized]. split; [auto|].
        rewrite app_length, firstn_length, skipn_length. lia.
      * exists v. split; auto. replace b with 0 by lia. replace a with 0 by lia. auto.
    + exists v. split; auto. replace b with (length l) by lia. replace a with (length l) by lia.
      rewrite firstn_skipn. auto.
  - exists v. split; auto.
    destruct (a <? length l); cbn [negb]; auto. rewrite andb_false_r. reflexivity.
Qed.

Lemma erase_rep : forall v l i, rep v l ->
  exists v', erase v i = Some v' /\
    rep v' (if i <? length l then firstn i l ++ skipn (S i) l else l).
Proof.
  intros v l i Hr. pose proof Hr as (rest & Hb & Hs). unfold erase. rewrite Hs.
  destruct (Nat.ltb_spec i (length l)) as [Hi|Hi]; cbn [negb].
  - rewrite Hb. destruct (close_gap l rest i (S i)) as (b' & rest' & E & Eb); [lia|lia|].
    replace (length l - i - 1) with (length l - S i) by lia.
    replace (i + 1) with (S i) by lia. rewrite E.
    eexists; split; [reflexivity|]. exists rest'. cbn [buf sized]. split; [auto|].
    rewrite app_length, firstn_length, skipn_length. lia.
  - eauto.
Qed.

Lemma resize_rep : forall v l n x, rep v l ->
  exists v', resize v n x = Some v' /\
    rep v' (if n <=? length l then firstn n l else l ++ repeat x (n - length l)).
Proof.
  intros v l n x Hr. unfold resize.
  destruct (reserve_rep v l n Hr) as (v1 & E1 & R1 & C1). rewrite E1.
  destruct R1 as (rest & Hb & Hs). rewrite firstn_length in Hs. rewrite Hs.
  destruct (Nat.leb_spec n (length l)) as [Hn|Hn].
  - rewrite (proj2 (Nat.ltb_ge _ _)) by lia. exists v1. split; auto. exists rest. split; auto.
    rewrite firstn_length. lia.
  - rewrite (proj2 (Nat.ltb_lt _ _)) by lia.
    rewrite firstn_all2 in Hb by lia.
    assert (Hrest : length rest = n - length l).
    { unfold capacity in C1. rewrite Hb, app_length, map_length in C1. lia. }
    replace (Nat.min n (length l)) with (length l) by lia.
    rewrite Hb.
    assert (E : blit (map Some l ++ rest) (length l) (repeat (Some x) (n - length l))
      = Some (map Some l ++ repeat (Some x) (n - length l) ++ [])).
    { rewrite <- (app_nil_r rest). apply blit_mid.
      - rewrite map_length; auto.
      - rewrite repeat_length. lia. }
    rewrite E. eexists; split; [reflexivity|]. exists []. cbn [buf sized]. split.
    + rewrite map_app, <- app_assoc. do 2 f_equal. clear. induction (n - length l); cbn; f_equal; auto.
    + rewrite app_length, repeat_length. lia.
Qed.

Lemma assign_rep : forall v l xs, rep v l -> exists v', assign v xs = Some v' /\ rep v' xs.
Proof.
  intros v l xs Hr. unfold assign, resize_raw.
  destruct (reserve_rep v l (length xs) Hr) as (v1 & E1 & R1 & C1). rewrite E1. cbn [buf].
  assert (E : blit (buf v1) 0 (map Some xs) = Some (map Some xs ++ [])).
  { rewrite <- (app_nil_r (buf v1)). apply (blit_mid [] (buf v1)); [reflexivity|].
    rewrite map_length. unfold capacity in C1. auto. }
  rewrite E. eexists; split; [reflexivity|]. exists []. cbn [buf sized]. auto.
Qed.

Lemma set_rep : forall v l i x, rep v l -> i < length l ->
  exists v', set v i x = Some v' /\ rep v' (firstn i l ++ x :: skipn (S i) l).
Proof.
  intros v l i x (rest & Hb & Hs) Hi. unfold set. rewrite Hb.
  assert (El : map (@Some T) l = map Some (firstn i l) ++ map Some (firstn 1 (skipn i l))
                 ++ map Some (skipn (S i) l)).
  { rewrite <- !map_app. f_equal. rewrite <- (firstn_skipn i l) at 1. f_equal.
    rewrite <- (firstn_skipn 1 (skipn i l)) at 1. f_equal. rewrite skipn_skipn_add. reflexivity. }
  assert (E : blit (map Some l ++ rest) i [Some x]
    = Some (map Some (firstn i l) ++ [Some x] ++ (map Some (skipn (S i) l) ++ rest))).
  { rewrite El, <- !app_assoc. apply blit_mid.
    - rewrite map_length, firstn_length. lia.
    - rewrite map_length, firstn_length, skipn_length. cbn [length]. lia. }
  rewrite E. eexists; split; [reflexivity|]. exists rest. cbn [buf sized]. split.
  - rewrite map_app, <- app_assoc. reflexivity.
  - rewrite app_length. cbn [length]. rewrite firstn_length, skipn_length. lia.
Qed.

Lemma pop_rep : forall v l, rep v l -> rep (pop_back v) (removelast l).
Proof.
  intros v l (rest & Hb & Hs). unfold pop_back. rewrite Hs.
  destruct l as [|x l'] eqn:El; [exists rest; auto|]. rewrite <- El in *.
  assert (Hn : l <> []) by (subst; discriminate).
  rewrite (proj2 (Nat.ltb_lt _ _)) by (subst; cbn; lia).
  destruct (exists_last Hn) as (l0 & z & E). rewrite E in *. rewrite removelast_last.
  exists (Some z :: rest). cbn [buf sized]. split.
  - rewrite Hb, map_app, <- app_assoc. reflexivity.
  - rewrite app_length. cbn. lia.
Qed.

Lemma step_rep : forall v l o l', rep v l -> meaning l o = Some l' ->
  exists v', step v o = Some v' /\ rep v' l'.
Proof.
  intros v l o l' Hr Hm.
  assert (Hs : sized v = length l) by (destruct Hr as (? & _ & Hs); auto).
  destruct o; cbn [meaning step] in *.
  - injection Hm as <-. unfold push_back. rewrite Hs.
    destruct (insert_rep v l (length l) x Hr) as (v' & E & R); [lia|].
    exists v'. rewrite firstn_all, skipn_all in R. auto.
  - injection Hm as <-. exists (pop_back v). split; [auto|]. apply pop_rep; auto.
  - injection Hm as <-. destruct (Nat.leb_spec i (length l)).
    + apply insert_rep; auto.
    + exists v. split; auto. unfold insert, insert_ref. rewrite Hs.
      rewrite (proj2 (Nat.leb_gt _ _)) by lia. reflexivity.
  - injection Hm as <-. destruct (Nat.leb_spec i (length l)).
    + apply insert_n_rep; auto.
    + exists v. split; auto. unfold insert_n. rewrite Hs.
      rewrite (proj2 (Nat.leb_gt _ _)) by lia. destruct (0 <? n); reflexivity.
  - injection Hm as <-. destruct (Nat.leb_spec i (length l)).
    + apply insert_range_rep; auto.
    + exists v. split; auto. unfold insert_range. rewrite Hs.
      rewrite (proj2 (Nat.leb_gt _ _)) by lia. destruct (0 <? length xs); reflexivity.
  - injection Hm as <-. apply erase_rep; auto.
  - destruct (Nat.leb_spec a b); [|discriminate]. injection Hm as <-. apply erase_range_rep; auto.
  - injection Hm as <-. apply resize_rep; auto.
  - injection Hm as <-. destruct (reserve_rep v l n Hr) as (v1 & E1 & R1 & C1). eauto.
  - injection Hm as <-. destruct (reserve_rep v l 0 Hr) as (v1 & E1 & R1 & C1). eauto.
  - injection Hm as <-. eapply assign_rep; eauto.
  - destruct (Nat.ltb_spec i (length l)); [|discriminate]. injection Hm as <-. apply set_rep; auto.
Qed.

Lemma run_rep : forall ops v l l', rep v l -> meanings l ops = Some l' ->
  exists v', run v ops = Some v' /\ rep v' l'.
Proof.
  induction ops as [|o ops IH]; intros v l l' Hr Hm; cbn [meanings run] in *.
  - injection Hm as <-. eauto.
  - destruct (meaning l o) as [l1|] eqn:E; [|discriminate].
    destruct (step_rep v l o l1 Hr E) as (v1 & E1 & R1). rewrite E1. eapply IH; eauto.
Qed.

Lemma rep_empty : rep empty_vec [].
Proof. exists []. auto. Qed.

Lemma vector_is_list : forall (ops : list (op T)) l, meanings [] ops = Some l ->
  exists v, run empty_vec ops = Some v /\ contents v = map Some l /\ sized v = length l /\
            sized v <= capacity v.
Proof.
  intros ops l H. destruct (run_rep ops empty_vec [] l rep_empty H) as (v & E & R).
  exists v. split; [auto|]. apply rep_contents; auto.
Qed.

Lemma meanings_some_of_run_prefix : forall (ops : list (op T)) l, meanings [] ops = Some l ->
  forall i x, nth_error l i = Some x ->
  exists v, run empty_vec ops = Some v /\ get v i = Some (Some x).
Proof.
  intros ops l H i x Hx. destruct (run_rep ops empty_vec [] l rep_empty H) as (v & E & R).
  exists v. split; [auto|]. destruct R as (rest & Hb & _). unfold get. rewrite Hb.
  rewrite nth_error_app1.
  - rewrite nth_error_map, Hx. reflexivity.
  - rewrite map_length. apply nth_error_Some. congruence.
Qed.

(** Inserting one of the vector's own elements when there is spare capacity. *)
Lemma insert_own_rep : forall v l i j x, rep v l -> length l < capacity v ->
  i <= length l -> j < i -> nth_error l j = Some x ->
  exists v', insert_ref v i (Own j) = Some v' /\ rep v' (firstn i l ++ x :: skipn i l).
Proof.
  intros v l i j x Hr Hc Hi Hj Hx. unfold insert_ref.
  assert (Hs : sized v = length l) by (destruct Hr as (? & _ & Hs); auto).
  rewrite Hs. rewrite (proj2 (Nat.leb_le i (length l))) by auto. cbn [negb].
  rewrite (proj2 (Nat.eqb_neq _ _)) by lia. rewrite Hs.
  destruct Hr as (rest & Hb & _). rewrite Hb.
  destruct (open_gap l rest i 1 [Some x]) as (b & Em & Eb & En); auto.
  { unfold capacity in Hc. rewrite Hb, app_length, map_length in Hc. lia. }
  rewrite Em. cbn [deref]. rewrite En by auto. rewrite Hx. cbn [option_map]. rewrite Eb.
  eexists; split; [reflexivity|]. exists (skipn 1 rest). split.
  - cbn [buf]. rewrite map_app, <- app_assoc. reflexivity.
  - cbn [sized]. rewrite app_length. cbn. rewrite firstn_length, skipn_length. lia.
Qed.

(** When the vector is full the reference is read after its buffer was released. *)
Lemma insert_own_full : forall v l i j, rep v l -> length l = capacity v -> i <= length l ->
  insert_ref v i (Own j) = None.
Proof.
  intros v l i j Hr Hc Hi. unfold insert_ref.
  assert (Hs : sized v = length l) by (destruct Hr as (? & _ & Hs); auto).
  rewrite Hs. rewrite (proj2 (Nat.leb_le i (length l))) by auto. cbn [negb].
  rewrite (proj2 (Nat.eqb_eq _ _)) by auto.
  destruct (reserve v _) as [v1|]; auto.
  destruct (if _ <? _ then _ else _); reflexivity.
Qed.

(** *** Cost of appending *)
Lemma push_rep : forall v l x, rep v l ->
  exists v', push_back v x = Some v' /\ rep v' (l ++ [x]) /\
    capacity v' = (if Nat.eqb (length l) (capacity v)
                   then length l + (if 31 <? length l then 32 else length l + 1) else capacity v).
Proof.
  intros v l x Hr. pose proof Hr as (rest & Hb & Hs).
  destruct (insert_rep v l (length l) x Hr) as (v' & E & R); [lia|].
  rewrite firstn_all, skipn_all in R. exists v'.
  unfold push_back. rewrite Hs. split; [exact E|]. split; [exact R|].
  unfold insert, insert_ref in E. rewrite Hs, Nat.leb_refl in E. cbn [negb] in E.
  destruct (Nat.eqb_spec (length l) (capacity v)) as [Q|Q].
  - destruct (reserve_rep v l (length l + (if 31 <? length l then 32 else length l + 1)) Hr)
      as (v1 & E1 & (r1 & B1 & S1) & C1).
    rewrite E1 in E. rewrite S1 in E. rewrite firstn_length in E.
    replace (Nat.min _ (length l)) with (length l) in E by (destruct (31 <? length l); lia).
    rewrite Nat.ltb_irrefl in E. cbn [deref] in E.
    destruct (blit (buf v1) (length l) [Some x]) eqn:EB; [|discriminate]. injection E as <-.
    unfold capacity in *. cbn [buf]. rewrite <- C1. unfold blit in EB.
    destruct (Nat.leb_spec (length l + length [Some x]) (length (buf v1))); [|discriminate].
    injection EB as <-. rewrite !app_length. cbn [length] in *. rewrite firstn_length, skipn_length. lia.
  - rewrite Hs, Nat.ltb_irrefl in E. cbn [deref] in E.
    destruct (blit (buf v) (length l) [Some x]) eqn:EB; [|discriminate]. injection E as <-.
    unfold capacity. cbn [buf]. unfold blit in EB.
    destruct (Nat.leb_spec (length l + length [Some x]) (length (buf v))); [|discriminate].
    injection EB as <-. rewrite !app_length. cbn [length] in *. rewrite firstn_length, skipn_length. lia.
Qed.

Lemma push_all_app : forall xs ys (v : vec), push_all v (xs ++ ys) =
  match push_all v xs with
  | Some (v1, c1) => match push_all v1 ys with
                     | Some (v2, c2) => Some (v2, c1 + c2)
                     | None => None
                     end
  | None => None
  end.
Proof.
  induction xs as [|x xs IH]; intros ys v; cbn [app push_all].
  - destruct (push_all v ys) as [[v2 c2]|]; reflexivity.
  - destruct (push_back v x) as [v1|]; [|reflexivity]. rewrite IH.
    destruct (push_all v1 xs) as [[v2 c2]|]; [|reflexivity].
    destruct (push_all v2 ys) as [[v3 c3]|]; [|reflexivity]. rewrite Nat.add_assoc. reflexivity.
Qed.

Lemma push_room : forall xs v l, rep v l -> length l + length xs <= capacity v ->
  exists v', push_all v xs = Some (v', 0) /\ rep v' (l ++ xs) /\ capacity v' = capacity v.
Proof.
  induction xs as [|x xs IH]; intros v l Hr Hc; cbn [push_all].
  - exists v. rewrite app_nil_r. auto.
  - destruct (push_rep v l x Hr) as (v1 & E1 & R1 & C1). rewrite E1. cbn [length] in Hc.
    rewrite (proj2 (Nat.eqb_neq _ _)) in C1 by lia.
    destruct (IH v1 (l ++ [x]) R1) as (v2 & E2 & R2 & C2).
    { rewrite app_length. cbn. lia. }
    rewrite E2. exists v2. unfold push_cost.
    destruct Hr as (? & _ & Hs). rewrite Hs. rewrite (proj2 (Nat.eqb_neq _ _)) by lia.
    rewrite <- app_assoc in R2. repeat split; auto. congruence.
Qed.

(** One period of 32 pushes on a full vector of at least 32 elements. *)
Lemma push_period : forall x v l, rep v l -> capacity v = length l -> 31 < length l ->
  exists v', push_all v (repeat x 32) = Some (v', length l) /\
    rep v' (l ++ repeat x 32) /\ capacity v' = length (l ++ repeat x 32).
Proof.
  intros x v l Hr Hc Hl. change (repeat x 32) with (x :: repeat x 31). cbn [push_all].
  destruct (push_rep v l x Hr) as (v1 & E1 & R1 & C1). rewrite E1.
  rewrite (proj2 (Nat.eqb_eq _ _)) in C1 by lia. rewrite (proj2 (Nat.ltb_lt _ _)) in C1 by lia.
  destruct (push_room (repeat x 31) v1 (l ++ [x]) R1) as (v2 & E2 & R2 & C2).
  { rewrite app_length, repeat_length. cbn [length]. lia. }
  rewrite E2. exists v2. unfold push_cost. destruct Hr as (? & _ & Hs). rewrite Hs.
  rewrite (proj2 (Nat.eqb_eq _ _)) by lia. rewrite <- app_assoc in R2.
  split; [f_equal; f_equal; lia|]. split; [exact R2|].
  rewrite C2, C1, app_length. cbn [length]. rewrite repeat_length. lia.
Qed.

Lemma push_periods : forall k x v l, rep v l -> capacity v = length l -> 31 < length l ->
  exists v' c, push_all v (repeat x (32 * k)) = Some (v', c) /\
    rep v' (l ++ repeat x (32 * k)) /\ capacity v' = length (l ++ repeat x (32 * k)) /\
    16 * k * k <= c + 16 * k.
Proof.
  induction k as [|k IH]; intros x v l Hr Hc Hl.
  - exists v, 0. cbn. rewrite app_nil_r. repeat split; auto.
  - replace (32 * S k) with (32 * k + 32) by lia. rewrite repeat_app.
    destruct (IH x v l Hr Hc Hl) as (v1 & c1 & E1 & R1 & C1 & B1).
    rewrite push_all_app, E1.
    destruct (push_period x v1 _ R1 C1) as (v2 & E2 & R2 & C2).
    { rewrite app_length. lia. }
    rewrite E2. exists v2, (c1 + length (l ++ repeat x (32 * k))).
    rewrite <- app_assoc in R2, C2. split; [reflexivity|]. split; [exact R2|]. split; [exact C2|].
    rewrite app_length, repeat_length. nia.
Qed.

Lemma push_quadratic : forall (x : T) c, exists n v cost,
  push_all empty_vec (repeat x n) = Some (v, cost) /\ c * n < cost.
Proof.
  intros x c.
  (* 63 pushes lead to a full vector of capacity 63 *)
  assert (H0 : exists v c0, push_all empty_vec (repeat x 63) = Some (v, c0) /\
               rep v (repeat x 63) /\ capacity v = 63).
  { eexists; eexists; split; [vm_compute; reflexivity|]. split; [|reflexivity].
    exists []. split; reflexivity. }
  destruct H0 as (v0 & c0 & E0 & R0 & C0).
  set (k := 2 * c + 64 * c + 20).
  destruct (push_periods k x v0 _ R0) as (v1 & c1 & E1 & R1 & C1 & B1).
  { rewrite C0. reflexivity. }
  { rewrite repeat_length. lia. }
  exists (63 + 32 * k), v1, (c0 + c1). rewrite repeat_app, push_all_app, E0, E1.
  split; [reflexivity|]. unfold k in *. nia.
Qed.

End Proofs.

(** *** Constructor/destructor balance *)
Lemma lf_inv : forall n, let s := Nat.iter n lf_push_back lf_empty in
  lf_size s = n /\ n <= lf_cap s.
Proof.
  induction n as [|n IH]; [cbn; lia|].
  cbn [Nat.iter]. cbn zeta in *. set (s := Nat.iter n lf_push_back lf_empty) in *.
  destruct IH as [H1 H2].
  change (Nat.iter (S n) lf_push_back lf_empty) with (lf_push_back s).
  unfold lf_push_back. rewrite H1.
  destruct (Nat.eqb_spec n (lf_cap s)) as [E|E].
  - unfold lf_reserve. rewrite H1.
    destruct (Nat.eqb_spec (lf_cap s) (n + (if 31 <? n then 32 else n + 1))) as [Q|Q].
    + destruct (31 <? n); lia.
    + cbn [lf_size lf_cap]. destruct (31 <? n); lia.
  - cbn [lf_size lf_cap]. lia.
Qed.

Lemma lf_leak_mono : forall s, lf_size s <= lf_alive s -> lf_size s <= lf_cap s ->
  lf_leaked s <= lf_leaked (lf_push_back s) /\ lf_size (lf_push_back s) <= lf_alive (lf_push_back s).
Proof.
  intros s H Hc. unfold lf_leaked, lf_push_back.
  destruct (Nat.eqb_spec (lf_size s) (lf_cap s)) as [E|E].
  - unfold lf_reserve.
    destruct (Nat.eqb_spec (lf_cap s) (lf_size s + (if 31 <? lf_size s then 32 else lf_size s + 1))).
    + destruct (31 <? lf_size s); lia.
    + cbn [lf_size lf_alive]. destruct (31 <? lf_size s); lia.
  - cbn [lf_size lf_alive]. lia.
Qed.

Lemma lf_leaks : forall n, 2 <= n -> 1 <= lf_leaked (Nat.iter n lf_push_back lf_empty).
Proof.
  assert (H : forall n, let s := Nat.iter (2 + n) lf_push_back lf_empty in
            1 <= lf_leaked s /\ lf_size s <= lf_alive s).
  { induction n as [|n IH]; [vm_compute; lia|].
    cbn zeta in *. change (2 + S n) with (S (2 + n)).
    set (m := 2 + n) in *. 
    change (Nat.iter (S m) lf_push_back lf_empty) with (lf_push_back (Nat.iter m lf_push_back lf_empty)).
    pose proof (lf_inv m) as Hi. cbn zeta in Hi.
    destruct IH as [I1 I2].
    destruct (lf_leak_mono (Nat.iter m lf_push_back lf_empty)) as [M1 M2]; [auto|lia|]. lia. }
  intros n Hn. replace n with (2 + (n - 2)) by lia. apply H.
Qed.
