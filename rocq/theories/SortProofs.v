(** Lemmas about the quicksort model. *)
From Coq Require Import List Arith Bool Lia Permutation Sorted.
From Verif Require Import SortModel.
Import ListNotations.

Section SortProofs.
Context {T : Type} (compare : T -> T -> bool).

Lemma nth_error_mid : forall (a : list T) x b, nth_error (a ++ x :: b) (length a) = Some x.
Proof. intros a x b. rewrite nth_error_app2 by lia. rewrite Nat.sub_diag. reflexivity. Qed.

Lemma set_mid : forall (a : list T) x b y, set (a ++ x :: b) (length a) y = Some (a ++ y :: b).
Proof. induction a as [|z a IH]; intros x b y; cbn; [reflexivity|]. rewrite IH. reflexivity. Qed.

Lemma swap_mid : forall (a : list T) x b y c i j,
  i = length a -> j = length a + S (length b) ->
  swap (a ++ x :: b ++ y :: c) i j = Some (a ++ y :: b ++ x :: c) /\
  swap (a ++ x :: b ++ y :: c) j i = Some (a ++ y :: b ++ x :: c).
Proof.
  intros a x b y c i j -> ->.
  assert (E1 : forall u v, nth_error (a ++ u :: b ++ v :: c) (length a + S (length b)) = Some v).
  { intros u v. replace (a ++ u :: b ++ v :: c) with ((a ++ u :: b) ++ v :: c)
      by (rewrite <- app_assoc; reflexivity).
    replace (length a + S (length b)) with (length (a ++ u :: b)) by (rewrite app_length; reflexivity).
    apply nth_error_mid. }
  assert (E2 : forall u v w, set (a ++ u :: b ++ v :: c) (length a + S (length b)) w
     = Some (a ++ u :: b ++ w :: c)).
  { intros u v w. replace (a ++ u :: b ++ v :: c) with ((a ++ u :: b) ++ v :: c)
      by (rewrite <- app_assoc; reflexivity).
    replace (length a + S (length b)) with (length (a ++ u :: b)) by (rewrite app_length; reflexivity).
    rewrite set_mid, <- app_assoc. reflexivity. }
  split; unfold swap.
  - rewrite nth_error_mid, E1, set_mid, E2. reflexivity.
  - rewrite nth_error_mid, E1, E2, set_mid. reflexivity.
Qed.

Lemma swap_mid1 : forall (a : list T) x b y c i j,
  i = length a -> j = length a + S (length b) ->
  swap (a ++ x :: b ++ y :: c) i j = Some (a ++ y :: b ++ x :: c).
Proof. intros a x b y c i j Hi Hj. destruct (swap_mid a x b y c i j Hi Hj). assumption. Qed.
Lemma swap_mid2 : forall (a : list T) x b y c i j,
  i = length a -> j = length a + S (length b) ->
  swap (a ++ x :: b ++ y :: c) j i = Some (a ++ y :: b ++ x :: c).
Proof. intros a x b y c i j Hi Hj. destruct (swap_mid a x b y c i j Hi Hj). assumption. Qed.

Lemma swap_same : forall (a : list T) x b i j, i = length a -> j = length a ->
  swap (a ++ x :: b) i j = Some (a ++ x :: b).
Proof. intros a x b i j -> ->. unfold swap. rewrite nth_error_mid, set_mid, set_mid. reflexivity. Qed.

Lemma partition_spec : forall fuel pre p lo mid hi post,
  length mid <= fuel ->
  exists lo' hi',
    partition compare fuel (pre ++ p :: lo ++ mid ++ hi ++ post) (length pre)
      (length pre + 1 + length lo) (length pre + 1 + length lo + length mid)
    = Some (pre ++ p :: (lo ++ lo') ++ (hi' ++ hi) ++ post,
            length pre + 1 + length (lo ++ lo'), length pre + 1 + length (lo ++ lo')) /\
    Permutation mid (lo' ++ hi') /\
    (forall x, In x lo' -> compare x p = true) /\ (forall x, In x hi' -> compare x p = false).
Proof.
  induction fuel as [|f IH]; intros pre p lo mid hi post Hf.
  - destruct mid; [|cbn in Hf; lia].
    exists [], []. cbn [partition app length]. rewrite Nat.add_0_r, Nat.ltb_irrefl, app_nil_r.
    repeat split; auto; intros x [].
  - destruct mid as [|m mid].
    { exists [], []. cbn [partition app length]. rewrite Nat.add_0_r, Nat.ltb_irrefl, app_nil_r.
      repeat split; auto; intros x []. }
    cbn [partition].
    assert (Hlt : (length pre + 1 + length lo <? length pre + 1 + length lo + length (m :: mid)) = true)
      by (apply Nat.ltb_lt; cbn; lia).
    rewrite Hlt.
    assert (En : nth_error (pre ++ p :: lo ++ (m :: mid) ++ hi ++ post) (length pre + 1 + length lo)
                 = Some m).
    { replace (pre ++ p :: lo ++ (m :: mid) ++ hi ++ post)
        with ((pre ++ p :: lo) ++ m :: mid ++ hi ++ post) by (rewrite <- app_assoc; reflexivity).
      replace (length pre + 1 + length lo) with (length (pre ++ p :: lo))
        by (rewrite app_length; cbn; lia).
      apply nth_error_mid. }
    rewrite En, nth_error_mid.
    cbn [length] in Hf.
    destruct (compare m p) eqn:C.
    + destruct (IH pre p (lo ++ [m]) mid hi post) as (lo' & hi' & E & P & L & H); [lia|].
      exists (m :: lo'), hi'.
      replace (pre ++ p :: lo ++ (m :: mid) ++ hi ++ post)
        with (pre ++ p :: (lo ++ [m]) ++ mid ++ hi ++ post)
        by (rewrite <- app_assoc; reflexivity).
      replace (S (length pre + 1 + length lo)) with (length pre + 1 + length (lo ++ [m]))
        by (rewrite app_length; cbn; lia).
      replace (length pre + 1 + length lo + length (m :: mid))
        with (length pre + 1 + length (lo ++ [m]) + length mid)
        by (rewrite app_length; cbn; lia).
      rewrite E. split; [|split; [|split]].
      * rewrite <- (app_assoc lo [m] lo'). reflexivity.
      * cbn. constructor. exact P.
      * intros x [<-|Hx]; auto.
      * exact H.
    + (* swap m with the last of mid *)
      destruct (exists_last (l := m :: mid)) as (mid0 & z & Ez); [discriminate|].
      destruct mid0 as [|m0 mid1].
      * (* mid = [m], swapped with itself *)
        injection Ez as -> ->.
        assert (Es : swap (pre ++ p :: lo ++ [z] ++ hi ++ post) (length pre + 1 + length lo)
                   (length pre + 1 + length lo + length [z] - 1)
                   = Some (pre ++ p :: lo ++ [z] ++ hi ++ post)).
        { replace (pre ++ p :: lo ++ [z] ++ hi ++ post)
            with ((pre ++ p :: lo) ++ z :: hi ++ post) by (rewrite <- app_assoc; reflexivity).
          apply swap_same; rewrite app_length; cbn; lia. }
        rewrite Es.
        destruct (IH pre p lo [] (z :: hi) post) as (lo' & hi' & E & P & L & H); [cbn; lia|].
        apply Permutation_nil in P. apply app_eq_nil in P. destruct P as [-> ->].
        exists [], [z]. rewrite app_nil_r in *. cbn [app length] in *.
        replace (length pre + 1 + length lo + 1 - 1) with (length pre + 1 + length lo + 0) by lia.
        rewrite E. split; [reflexivity|split; [reflexivity|split]]; [intros x []|intros x [<-|[]]; auto].
      * injection Ez as <- ->.
        assert (Es : swap (pre ++ p :: lo ++ (m :: mid1 ++ [z]) ++ hi ++ post)
                   (length pre + 1 + length lo)
                   (length pre + 1 + length lo + length (m :: mid1 ++ [z]) - 1)
                   = Some (pre ++ p :: lo ++ (z :: mid1 ++ [m]) ++ hi ++ post)).
        { replace (pre ++ p :: lo ++ (m :: mid1 ++ [z]) ++ hi ++ post)
            with ((pre ++ p :: lo) ++ m :: mid1 ++ z :: hi ++ post)
            by (repeat (rewrite <- ?app_assoc; cbn [app]); reflexivity).
          replace (pre ++ p :: lo ++ (z :: mid1 ++ [m]) ++ hi ++ post)
            with ((pre ++ p :: lo) ++ z :: mid1 ++ m :: hi ++ post)
            by (repeat (rewrite <- ?app_assoc; cbn [app]); reflexivity).
          apply swap_mid1; rewrite app_length; cbn; rewrite ?app_length; cbn; lia. }
        rewrite Es.
        destruct (IH pre p lo (z :: mid1) (m :: hi) post) as (lo' & hi' & E & P & L & H).
        { cbn. rewrite app_length in Hf. cbn in Hf. lia. }
        exists lo', (hi' ++ [m]).
        replace (pre ++ p :: lo ++ (z :: mid1 ++ [m]) ++ hi ++ post)
          with (pre ++ p :: lo ++ (z :: mid1) ++ (m :: hi) ++ post)
          by (repeat (rewrite <- ?app_assoc; cbn [app]); reflexivity).
        replace (length pre + 1 + length lo + length (m :: mid1 ++ [z]) - 1)
          with (length pre + 1 + length lo + length (z :: mid1))
          by (cbn; rewrite app_length; cbn; lia).
        rewrite E. split; [|split; [|split]]; auto.
        -- repeat (rewrite <- ?app_assoc; cbn [app]). reflexivity.
        -- rewrite app_assoc. rewrite <- P. cbn.
           apply Permutation_trans with (z :: m :: mid1).
           ++ apply Permutation_trans with (m :: z :: mid1).
              ** constructor. apply Permutation_sym. apply Permutation_cons_append.
              ** constructor.
           ++ constructor. apply Permutation_cons_append.
        -- intros x Hx. apply in_app_or in Hx. destruct Hx as [Hx|[<-|[]]]; auto.
Qed.

(** What "ordered" means for a comparator: no later element is strictly before an earlier one. *)
Definition ordered (l : list T) : Prop := StronglySorted (fun a b => compare b a = false) l.

Definition swo : Prop :=
  (forall a, compare a a = false) /\
  (forall a b c, compare a b = true -> compare b c = true -> compare a c = true) /\
  (forall a b c, compare a b = false -> compare b c = false -> compare a c = false).

Lemma ordered_app : forall a b, ordered a -> ordered b ->
  (forall x y, In x a -> In y b -> compare y x = false) -> ordered (a ++ b).
Proof.
  induction a as [|z a IH]; intros b Ha Hb H; cbn; auto.
  inversion Ha; subst. constructor.
  - apply IH; auto. intros; apply H; cbn; auto.
  - apply Forall_app. split; auto. apply Forall_forall. intros y Hy. apply H; cbn; auto.
Qed.

Lemma quicksort_spec : forall fuel pre seg post,
  length seg < fuel ->
  exists seg', quicksort compare fuel (pre ++ seg ++ post) (length pre) (length pre + length seg)
    = Some (pre ++ seg' ++ post) /\ Permutation seg seg' /\ (swo -> ordered seg').
Proof.
  induction fuel as [|f IH]; intros pre seg post Hf; [lia|].
  cbn [quicksort].
  destruct seg as [|p seg]; [|destruct seg as [|q seg]].
  - exists []. rewrite (proj2 (Nat.ltb_ge _ _)) by (cbn; lia). repeat split; auto. constructor.
  - exists [p]. rewrite (proj2 (Nat.ltb_ge _ _)) by (cbn; lia). repeat split; auto.
    repeat constructor.
  - rewrite (proj2 (Nat.ltb_lt _ _)) by (cbn; lia).
    set (mid := q :: seg) in *.
    destruct (partition_spec (length pre + length (p :: mid) - length pre) pre p [] mid [] post)
      as (lo & hi & E & P & L & H); [cbn; lia|].
    cbn [app length] in E. rewrite app_nil_r in E.
    replace (length pre + 1 + 0 + length mid) with (length pre + length (p :: mid)) in E by (cbn; lia).
    replace (length pre + 1 + 0) with (length pre + 1) in E by lia.
    cbn [app length] in E |- *. rewrite E. clear E.
    assert (Hlen : length mid = length lo + length hi)
      by (rewrite (Permutation_length P), app_length; auto).
    (* the pivot swap *)
    assert (Esw : exists lo1, swap (pre ++ p :: lo ++ hi ++ post)
               (length pre + 1 + length lo - 1) (length pre)
               = Some (pre ++ lo1 ++ p :: hi ++ post) /\ Permutation lo lo1).
    { destruct lo as [|a lo'].
      - exists []. split; [|auto]. cbn [length app]. apply swap_same; lia.
      - destruct (exists_last (l := a :: lo')) as (lo2 & z & Ez); [discriminate|].
        exists (z :: lo2). rewrite Ez. split.
        + replace (pre ++ p :: (lo2 ++ [z]) ++ hi ++ post)
            with (pre ++ p :: lo2 ++ z :: hi ++ post) by (rewrite <- app_assoc; reflexivity).
          apply swap_mid2; [reflexivity|]. rewrite app_length. cbn. lia.
        + apply Permutation_sym, Permutation_cons_append. }
    destruct Esw as (lo1 & Esw & Plo). rewrite Esw. clear Esw.
    assert (Hl1 : length lo1 = length lo) by (apply Permutation_length, Permutation_sym; auto).
    (* left recursion *)
    destruct (IH pre lo1 (p :: hi ++ post)) as (lo3 & E3 & P3 & S3).
    { cbn [length] in Hf. rewrite Hl1. lia. }
    replace (length pre + 1 + length lo - 1) with (length pre + length lo1) by lia.
    rewrite E3. clear E3.
    (* right recursion *)
    assert (Hl3 : length lo3 = length lo) by (rewrite <- Hl1; apply Permutation_length, Permutation_sym; auto).
    destruct (IH (pre ++ lo3 ++ [p]) hi post) as (hi3 & E4 & P4 & S4).
    { cbn [length] in Hf. lia. }
    replace (pre ++ lo3 ++ p :: hi ++ post) with ((pre ++ lo3 ++ [p]) ++ hi ++ post)
      by (repeat (rewrite <- ?app_assoc; cbn [app]); reflexivity).
    replace (length pre + 1 + length lo) with (length (pre ++ lo3 ++ [p]))
      by (rewrite !app_length; cbn; lia).
    replace (length pre + S (length mid)) with (length (pre ++ lo3 ++ [p]) + length hi)
      by (rewrite !app_length; cbn [length]; lia).
    rewrite E4.
    exists (lo3 ++ p :: hi3). split; [|split].
    + f_equal. repeat (rewrite <- ?app_assoc; cbn [app]). reflexivity.
    + apply Permutation_cons_app. rewrite P, Plo, P3, P4. reflexivity.
    + intros W. destruct W as (W1 & W2 & W3). apply ordered_app.
      * apply S3. repeat split; auto.
      * constructor; [apply S4; repeat split; auto|].
        apply Forall_forall. intros y Hy. apply H.
        apply Permutation_sym in P4. eapply Permutation_in; eauto.
      * intros x y Hx Hy.
        assert (Lx : compare x p = true).
        { apply L. apply Permutation_sym in P3. apply Permutation_sym in Plo.
          eapply Permutation_in; [exact Plo|]. eapply Permutation_in; eauto. }
        assert (Np : compare p x = false).
        { destruct (compare p x) eqn:C; auto. pose proof (W2 _ _ _ Lx C) as X.
          rewrite W1 in X. discriminate. }
        destruct Hy as [<-|Hy]; auto.
        apply W3 with p; auto. apply H.
        apply Permutation_sym in P4. eapply Permutation_in; eauto.
Qed.

Lemma sort_spec : forall data, exists out,
  sort compare data = Some out /\ Permutation data out /\ (swo -> ordered out).
Proof.
  intros data. destruct (quicksort_spec (S (length data)) [] data []) as (out & E & P & S); [lia|].
  exists out. unfold sort. cbn [app length] in E. rewrite !app_nil_r in E. auto.
Qed.

End SortProofs.
