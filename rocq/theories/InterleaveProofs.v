(** Lemmas about ToInterleavedUInt32List. *)
From Coq Require Import List ZArith Bool Lia Arith.
From Verif Require Import TextModel TextProofs.
Import ListNotations.
Local Open Scope nat_scope.

Notation uparses := (parses (fun s => Some (ToUInt32 s))).

Definition add_col (vs : list Z) (i : nat) : list Z :=
  match nth_error vs i with Some v => [v] | None => [] end.

Lemma push_row_spec : forall arrays s vs, uparses s vs ->
  exists arrays' s', il_push_row arrays s = (arrays', s', length arrays <=? length vs) /\
    uparses s' (skipn (length arrays) vs) /\ length s' <= length s /\
    (arrays <> [] -> s <> [] -> length s' < length s) /\
    length arrays' = length arrays /\
    (forall i, nth_error arrays i = Some None -> nth_error arrays' i = Some None) /\
    (forall i l, nth_error arrays i = Some (Some l) ->
       nth_error arrays' i = Some (Some (l ++ add_col vs i))).
Proof.
  induction arrays as [|a arrays IH]; intros s vs Hp.
  - exists [], s. cbn. repeat split; auto; try congruence; intros [|i]; discriminate.
  - inversion Hp as [|s0 v s' vs' Hne Hr Hl Hp']; subst.
    + exists (a :: arrays), []. cbn. repeat split; auto; try congruence.
      intros i l H. rewrite H. unfold add_col. rewrite (proj2 (nth_error_None _ _)) by (cbn; lia).
      rewrite app_nil_r. reflexivity.
    + injection Hr as Er. destruct s as [|c t]; [congruence|].
      destruct (IH s' vs' Hp') as (arr' & s'' & E & P1 & P2 & _ & P3 & P4 & P5).
      cbn [il_push_row]. rewrite Er, E. do 2 eexists. split; [reflexivity|].
      split; [exact P1|]. split; [lia|]. split; [intros; lia|]. split; [cbn; congruence|]. split.
      * intros [|i] H; cbn in *; auto. injection H as ->. reflexivity.
      * intros [|i] l H; cbn in H |- *; [injection H as ->; reflexivity|exact (P5 i l H)].
Qed.

Lemma push_all_spec : forall n s vs arrays fuel valid, length vs <= n -> uparses s vs ->
  arrays <> [] -> length s <= fuel ->
  exists arrays', il_push fuel valid arrays s = Some (valid + length vs / length arrays, arrays') /\
    length arrays' = length arrays /\
    (forall i, nth_error arrays i = Some None -> nth_error arrays' i = Some None) /\
    (forall i l, nth_error arrays i = Some (Some l) ->
       exists col, nth_error arrays' i = Some (Some (l ++ col)) /\
         forall j, nth_error col j = nth_error vs (j * length arrays + i)).
Proof.
  induction n as [|n IH]; intros s vs arrays fuel valid Hn Hp Hk Hf.
  - destruct vs; [|cbn in Hn; lia]. apply parses_nil_inv in Hp. subst s.
    exists arrays. split.
    { destruct fuel; cbn [il_push length]; rewrite Nat.div_0_l by (destruct arrays; cbn; congruence);
      rewrite Nat.add_0_r; reflexivity. }
    split; [auto|]. split; [auto|]. intros i l H. exists []. rewrite app_nil_r. split; auto.
    intro j. rewrite !(proj2 (nth_error_None _ _)) by (cbn; lia). reflexivity.
  - destruct vs as [|v0 vs0] eqn:Ev.
    { apply (IH s [] arrays fuel valid); auto. cbn; lia. }
    rewrite <- Ev in *. assert (Hvs : 0 < length vs) by (subst; cbn; lia).
    assert (Hs : s <> []) by (intro; subst s; inversion Hp; congruence).
    destruct (push_row_spec arrays s vs Hp) as (arr1 & s1 & E & P1 & _ & P2 & P3 & P4 & P5).
    specialize (P2 Hk Hs).
    assert (Hk1 : 0 < length arrays) by (destruct arrays; cbn; [congruence|lia]).
    destruct fuel as [|f]; [destruct s; [congruence|cbn in Hf; lia]|].
    destruct s as [|c t] eqn:Es; [congruence|]. cbn [il_push]. rewrite <- Es in *. rewrite E.
    destruct (IH s1 (skipn (length arrays) vs) arr1 f
                (if length arrays <=? length vs then S valid else valid)) as (arr2 & E2 & Q1 & Q2 & Q3).
    { rewrite skipn_length. lia. }
    { exact P1. }
    { intro H. rewrite H in P3. cbn in P3. lia. }
    { lia. }
    rewrite E2, P3 in *. exists arr2. split; [|split; [congruence|split]].
    + do 2 f_equal. rewrite skipn_length.
      destruct (Nat.leb_spec (length arrays) (length vs)) as [Hle|Hgt].
      * replace (length vs) with ((length vs - length arrays) + 1 * length arrays) at 2 by lia.
        rewrite Nat.div_add by lia. lia.
      * rewrite !Nat.div_small by lia. lia.
    + intros i H. apply Q2, P4, H.
    + intros i l H. pose proof (P5 _ _ H) as H1. destruct (Q3 _ _ H1) as (col & Hc & Hn').
      exists (add_col vs i ++ col). split; [rewrite app_assoc; exact Hc|].
      assert (Hi : i < length arrays) by (apply nth_error_Some; congruence).
      intro j. unfold add_col.
      assert (Hskip : forall m, nth_error (skipn (length arrays) vs) m = nth_error vs (length arrays + m)).
      { intro m. clear. generalize (length arrays) as k. intro k. revert vs.
        induction k as [|k IHk]; intros vs; [reflexivity|].
        destruct vs; cbn; [destruct m; reflexivity|]. apply IHk. }
      destruct (nth_error vs i) as [x|] eqn:Ex.
      * destruct j as [|j]; [cbn; auto|].
        cbn [app nth_error]. rewrite Hn', Hskip. f_equal. lia.
      * cbn [app]. rewrite Hn', Hskip. apply nth_error_None in Ex.
        rewrite !(proj2 (nth_error_None _ _)) by lia. reflexivity.
Qed.

Lemma all_some_map : forall (A B : Type) (f : A -> option B) l,
  (forall x, In x l -> f x <> None) ->
  exists out, all_some (map f l) = Some out /\ length out = length l /\
    forall i x, nth_error l i = Some x -> exists y, f x = Some y /\ nth_error out i = Some y.
Proof.
  intros A B f. induction l as [|x l IH]; intros H; cbn.
  - exists []. repeat split; auto. intros [|i]; discriminate.
  - destruct (f x) as [y|] eqn:E; [|exfalso; apply (H x); cbn; auto].
    destruct IH as (out & E1 & E2 & E3); [intros z Hz; apply H; cbn; auto|].
    rewrite E1. exists (y :: out). split; [reflexivity|]. split; [cbn; lia|].
    intros [|i] z Hz; cbn in *; [injection Hz as <-; eauto|]. apply E3; auto.
Qed.

(** All output arrays empty (NULL ones allowed except the first). *)
Lemma interleave_spec : forall s vs arrays,
  uparses s vs -> arrays <> [] ->
  nth_error arrays 0 = Some (Some []) ->
  (forall a, In a arrays -> a = None \/ a = Some []) ->
  exists out, ToInterleavedUInt32List s arrays = Some out /\ length out = length arrays /\
    (forall i, nth_error arrays i = Some None -> nth_error out i = Some None) /\
    (forall i, nth_error arrays i = Some (Some []) ->
       exists col, nth_error out i = Some (Some col) /\
         length col = length vs / length arrays /\
         forall j, j < length vs / length arrays ->
           nth_error col j = nth_error vs (j * length arrays + i)).
Proof.
  intros s vs arrays Hp Hk H0 Hall.
  assert (Hk1 : 0 < length arrays) by (destruct arrays; cbn; [congruence|lia]).
  destruct (push_all_spec (length vs) s vs arrays (length s) 0 (le_n _) Hp Hk (le_n _))
    as (arr & E & L & Q1 & Q2).
  set (q := length vs / length arrays) in *. cbn [Nat.add] in E.
  assert (Hcols : forall i col, i < length arrays ->
     (forall j, nth_error col j = nth_error vs (j * length arrays + i)) -> q <= length col).
  { intros i col Hi Hc. destruct (Nat.eq_dec q 0) as [->|Hq]; [lia|].
    assert (Hlt : q - 1 < length col); [|lia].
    apply nth_error_Some. rewrite Hc. apply nth_error_Some.
    assert (q * length arrays <= length vs) by (unfold q; rewrite Nat.mul_comm; apply Nat.mul_div_le; lia).
    nia. }
  assert (Eq : ToInterleavedUInt32List s arrays = all_some (map (il_resize q) arr)).
  { destruct arrays as [|a0 rest]; [congruence|]. cbn in H0. injection H0 as ->.
    destruct s as [|c t].
    - inversion Hp; subst; [|congruence]. cbn in E. assert (Ea : arr = Some [] :: rest) by congruence. subst arr.
      unfold q. cbn [length]. rewrite Nat.div_0_l by (cbn; lia). reflexivity.
    - unfold ToInterleavedUInt32List. cbn [length il_set]. cbn [length] in E. rewrite E. reflexivity. }
  assert (Harr : forall a, In a arr -> il_resize q a <> None).
  { intros a Ha. apply In_nth_error in Ha. destruct Ha as (i & Hi).
    assert (Hil : i < length arrays) by (rewrite <- L; apply nth_error_Some; congruence).
    destruct (nth_error arrays i) as [b|] eqn:Eb; [|apply nth_error_None in Eb; lia].
    destruct (Hall b (nth_error_In _ _ Eb)) as [->| ->].
    - rewrite (Q1 _ Eb) in Hi. injection Hi as <-. discriminate.
    - destruct (Q2 _ _ Eb) as (col & Hc & Hn). rewrite Hc in Hi. injection Hi as <-.
      cbn. rewrite (proj2 (Nat.leb_le _ _)) by (eapply Hcols; eauto). discriminate. }
  destruct (all_some_map _ _ (il_resize q) arr Harr) as (out & E1 & E2 & E3).
  exists out. rewrite Eq. split; [exact E1|]. split; [congruence|]. split.
  - intros i Hi. destruct (E3 i None (Q1 _ Hi)) as (y & Ey & En). cbn in Ey. congruence.
  - intros i Hi. destruct (Q2 _ _ Hi) as (col & Hc & Hn). cbn [app] in Hc.
    destruct (E3 _ _ Hc) as (y & Ey & En).
    assert (Hil : i < length arrays) by (apply nth_error_Some; congruence).
    cbn in Ey. rewrite (proj2 (Nat.leb_le _ _)) in Ey by (eapply Hcols; eauto).
    injection Ey as <-. exists (firstn q col). split; [exact En|]. split.
    + rewrite firstn_length. specialize (Hcols _ _ Hil Hn). lia.
    + intros j Hj. rewrite <- Hn. rewrite <- (firstn_skipn q col) at 2.
      rewrite nth_error_app1; [reflexivity|]. rewrite firstn_length.
      specialize (Hcols _ _ Hil Hn). lia.
Qed.
