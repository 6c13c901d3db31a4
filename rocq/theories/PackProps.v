(** C35: vertex packing maps. *)
From Coq Require Import List Arith Bool NArith Lia.
From Verif Require Import PolyModel PolyProofs PackModel.
Import ListNotations.

(** The map after packing the vertices [K] (in order of their first use): vertex K[p] has number p. *)
Definition holds (m : list cell) (K : list nat) : Prop :=
  NoDup K /\ (forall p v, nth_error K p = Some v -> nth_error m v = Some (Some p)) /\ (forall v p, nth_error m v = Some (Some p) -> nth_error K p = Some v).
Lemma holds_In m K v : holds m K -> v < length m -> (nth_error m v = Some None <-> ~ In v K).
Proof.
  intros (N & A & B) L. destruct (nth_error m v) as [[p|]|] eqn:E.
  - split; [discriminate|]. intro H. exfalso. apply H. eapply nth_error_In. eauto.
  - split; auto. intros _ I. apply In_nth_error in I as [p Np]. apply A in Np. congruence.
  - apply nth_error_None in E. lia.
Qed.
Lemma holds_add m K v : holds m K -> v < length m -> ~ In v K -> holds (set_nth m v (Some (length K))) (K ++ [v]).
Proof.
  intros (N & A & B) L H. split; [|split].
  - apply NoDup_rev in N. rewrite <- (rev_involutive (K ++ [v])). apply NoDup_rev. rewrite rev_app_distr. constructor; auto. now rewrite <- in_rev.
  - intros p w Np. destruct (Nat.lt_ge_cases p (length K)) as [Lt|Ge].
    + rewrite nth_error_app1 in Np by auto. destruct (Nat.eq_dec v w) as [->|Ne]; [exfalso; apply H; eapply nth_error_In; eauto|]. rewrite set_nth_other by auto. auto.
    + rewrite nth_error_app2 in Np by auto. destruct (p - length K) as [|q] eqn:E; [|destruct q; discriminate]. cbn in Np. injection Np as <-. replace p with (length K) by lia. now apply set_nth_same.
  - intros w p Nw. destruct (Nat.eq_dec v w) as [<-|Ne].
    + rewrite set_nth_same in Nw by auto. injection Nw as <-. rewrite nth_error_app2, Nat.sub_diag by lia. reflexivity.
    + rewrite set_nth_other in Nw by auto. apply B in Nw. rewrite nth_error_app1; auto. apply nth_error_Some. congruence.
Qed.
(** The number of different indices in a list. *)
Definition distinct (l : list nat) (n : nat) : Prop := exists K, NoDup K /\ length K = n /\ forall v, In v K <-> In v l.
Lemma pack_spec maxV : forall ins m K nI maxI, holds m K -> (forall v, In v ins -> v < length m) -> maxI <= nI + length ins -> (length K < maxV \/ (K = [] /\ maxV = 0) \/ maxI <= nI) ->
  exists n K' m' out, pack m nI (length K) maxI maxV ins = Some (nI + n, length (K ++ K'), m', out) /\ length m' = length m /\ holds m' (K ++ K') /\
    n <= maxI - nI /\ length out = n /\
    Forall2 (fun v c => nth_error (K ++ K') c = Some v) (firstn n ins) out /\ (forall v, In v K' -> In v (firstn n ins)) /\
    (n = maxI - nI \/ (maxV <= length (K ++ K') /\ exists r v, n = S r /\ firstn n ins = firstn r ins ++ [v] /\ ~ In v K /\ ~ In v (firstn r ins))) /\
    (forall r, r < n -> length K < maxV -> exists K1, NoDup (K ++ K1) /\ (forall v, In v (K ++ K1) <-> In v K \/ In v (firstn r ins)) /\ length (K ++ K1) < maxV) /\
    (length (K ++ K') <= maxV \/ length (K ++ K') <= length K \/ (K = [] /\ maxV = 0 /\ length K' = 1)).
Proof.
  induction ins as [|v ins IH]; intros m K nI maxI H V L C; cbn [pack].
  - cbn in L. destruct (Nat.ltb_spec nI maxI); [lia|]. exists 0, [], m, []. rewrite app_nil_r, Nat.add_0_r. cbn.
    repeat match goal with |- _ /\ _ => split end; auto; try lia; try (intros ? []); try (left; lia); intros; lia.
  - destruct (Nat.ltb_spec nI maxI) as [Lt|Ge].
    + assert (Hv : v < length m) by (apply V; now left). destruct (nth_error m v) as [[c|]|] eqn:Nv; [| |apply nth_error_None in Nv; lia].
      * (* known vertex *)
        destruct (IH m K (S nI) maxI H) as (n & K' & m' & out & E & Lm & H' & Ln & Lo & F & I & D & M & B).
        { intros w Iw. apply V. now right. } { cbn in L. lia. } { destruct C as [C|[[-> C]|C]]; [auto | auto | lia]. }
        rewrite E. exists (S n), K', m', (c :: out). cbn [firstn length]. assert (Kc := proj2 (proj2 H) v c Nv).
        split; [do 4 f_equal; lia|]. split; auto. split; auto. split; [lia|]. split; [lia|]. split.
        { constructor; auto. rewrite nth_error_app1; auto. apply nth_error_Some. congruence. }
        split; [intros w Iw; right; auto|]. split.
        { destruct D as [D|(D1 & r & w & -> & D2 & D3 & D4)]; [left; lia|]. right. split; auto. exists (S r), w. split; auto. split; [cbn [firstn app]; f_equal; exact D2|].
          split; auto. cbn [firstn]. intros [<-|I']; [apply D3; eapply nth_error_In; eauto | auto]. }
        split; auto. intros [|r] Hr HK.
        { exists []. rewrite app_nil_r. cbn. split; [apply H|]. split; [tauto | auto]. }
        { destruct (M r ltac:(lia) HK) as (K1 & N1 & I1 & L1). exists K1. split; auto. split; auto. intro w. rewrite I1. cbn [firstn]. cbn. split; [intuition | intros [|[<-|]]; auto]. left. eapply nth_error_In; eauto. }
      * (* new vertex *)
        assert (Nin : ~ In v K) by (apply (holds_In m K v); auto).
        pose proof (holds_add m K v H Hv Nin) as H1.
        set (maxI' := if maxV <=? S (length K) then nI else maxI).
        assert (LK : length (K ++ [v]) = S (length K)) by (rewrite app_length; cbn; lia).
        destruct (IH (set_nth m v (Some (length K))) (K ++ [v]) (S nI) maxI' H1) as (n & K' & m' & out & E & Lm & H' & Ln & Lo & F & I & D & M & B).
        { intros w Iw. rewrite set_nth_length. apply V. now right. }
        { unfold maxI'. cbn in L. destruct (maxV <=? S (length K)); lia. }
        { rewrite LK. unfold maxI'. destruct (Nat.leb_spec maxV (S (length K))); [right; right; lia | left; lia]. }
        rewrite LK in E. fold maxI'. rewrite E. exists (S n), (v :: K'), m', (length K :: out). rewrite <- app_assoc in *. cbn [app firstn length] in *.
        split; [do 4 f_equal; lia|]. split; [rewrite Lm; apply set_nth_length|]. split; auto.
        assert (Stop : maxV <= S (length K) -> n = 0). { intro Hm. unfold maxI' in Ln. destruct (Nat.leb_spec maxV (S (length K))); lia. }
        split; [unfold maxI' in Ln; destruct (maxV <=? S (length K)); lia|]. split; [lia|]. split.
        { constructor; auto. rewrite nth_error_app2, Nat.sub_diag by lia. reflexivity. }
        split; [intros w [->|Iw]; [now left | right; auto]|]. split.
        { destruct (Nat.le_gt_cases maxV (S (length K))) as [Hm|Hm].
          - right. rewrite (Stop Hm). split; [rewrite app_length; cbn; lia|]. exists 0, v. cbn. auto.
          - assert (Em : maxI' = maxI) by (unfold maxI'; destruct (Nat.leb_spec maxV (S (length K))); [lia | auto]). rewrite Em in *.
            destruct D as [D|(D1 & r & w & -> & D2 & D3 & D4)]; [left; lia|]. right. split; auto. exists (S r), w. split; auto. split; [cbn [firstn app]; f_equal; exact D2|].
            split; [intro I'; apply D3; apply in_or_app; now left|]. cbn [firstn]. intros [<-|I']; [apply D3; apply in_or_app; right; now left | auto]. }
        split.
        { intros [|r] Hr HK; [exists []; rewrite app_nil_r; cbn; split; [apply H | split; [tauto | auto]]|].
          destruct (Nat.le_gt_cases maxV (S (length K))) as [Hm|Hm]; [rewrite (Stop Hm) in Hr; lia|].
          destruct (M r ltac:(lia)) as (K1 & N1 & I1 & L1); [rewrite LK; auto|]. exists (v :: K1). rewrite <- app_assoc in *. cbn [app] in *. split; auto. split; auto.
          intro w. rewrite I1. rewrite in_app_iff. cbn. tauto. }
        { destruct B as [B|[B|[B _]]]; [auto | | destruct K; discriminate]. destruct (Nat.le_gt_cases (length (K ++ v :: K')) maxV) as [|Hgt]; auto.
          rewrite LK in B. right. rewrite app_length in B, Hgt. cbn in B, Hgt. assert (length K' = 0) by lia.
          destruct C as [C|[[-> C]|C]]; [lia | | lia]. right. cbn. auto. }
    + exists 0, [], m, []. rewrite app_nil_r, Nat.add_0_r. cbn.
      repeat match goal with |- _ /\ _ => split end; auto; try lia; try (intros ? []); try (left; lia); intros; lia.
Qed.

(** *** The theorem *)
(** For every fresh packing map, every index buffer (indices up to maxIndex, long enough) and every limits: the call uses
    the first n indices; equal indices get equal packed indices and different ones different ones; the packed indices are
    the numbers below nv; the map holds the packed index of every used index and nothing else; n never exceeds the limit
    of indices, nv exceeds the limit of vertices only for a limit of 0; it stops only at the limit of indices or right
    behind the index that brought the number of vertices to the limit. *)
Theorem C35_packing_map_partial : forall maxIndex maxIndices maxVertices ins, (forall v, In v ins -> v <= maxIndex) -> N.to_nat (limit maxIndices) <= length ins ->
  exists n nv m out, GenerateVertexPackingMap maxIndex maxIndices maxVertices ins [] = Some (n, nv, m, out) /\
    length out = n /\ (N.of_nat n <= maxIndices)%N /\ (N.of_nat n < 65535)%N /\ n <= length ins /\
    (forall i j, i < n -> j < n -> (nth i out 0 = nth j out 0 <-> nth i ins 0 = nth j ins 0)) /\
    (forall c, c < nv <-> In c out) /\
    (forall v, v <= maxIndex -> match nth_error m v with
               | Some (Some c) => exists i, i < n /\ nth i ins 0 = v /\ nth i out 0 = c
               | Some None => ~ In v (firstn n ins)
               | None => False end) /\
    (0 < maxVertices -> nv <= maxVertices) /\
    (n = N.to_nat (limit maxIndices) \/ (maxVertices <= nv /\ exists r, n = S r /\ ~ In (nth r ins 0) (firstn r ins))) /\
    (0 < maxVertices -> forall r, r < n -> exists d, distinct (firstn r ins) d /\ d < maxVertices).
Proof.
  intros maxIndex maxIndices maxV ins V L. unfold GenerateVertexPackingMap. set (M := N.to_nat (limit maxIndices)) in *.
  assert (E0 : resize_map [] (S maxIndex) = repeat None (S maxIndex)) by (unfold resize_map; now rewrite firstn_nil, Nat.sub_0_r). rewrite E0.
  assert (Rn : forall k v (c : cell), nth_error (repeat None k) v = Some c -> c = None).
  { intros k v c Nc. apply nth_error_In in Nc. now apply repeat_spec in Nc. }
  assert (H0 : holds (repeat None (S maxIndex)) []). { split; [constructor|]. split; [intros [|]; discriminate|]. intros v p Np. apply Rn in Np. discriminate. }
  destruct (pack_spec maxV ins (repeat None (S maxIndex)) [] 0 M H0) as (n & K & m & out & E & Lm & H & Ln & Lo & F & I & D & Mn & B).
  { intros v Iv. rewrite repeat_length. specialize (V v Iv). lia. } { lia. } { cbn. destruct maxV; [auto | left; lia]. }
  cbn [length app Nat.add] in *. exists n, (length K), m, out. rewrite Nat.sub_0_r in *.
  assert (Ml : (N.of_nat M < 65535)%N /\ (N.of_nat M <= maxIndices)%N). { unfold M. rewrite N2Nat.id. unfold limit. destruct (N.ltb_spec maxIndices 65535); split; lia. }
  assert (Lf : length (firstn n ins) = n) by (rewrite firstn_length; lia).
  assert (Nf : forall i, i < n -> nth_error (firstn n ins) i = Some (nth i ins 0)).
  { intros i Hi. rewrite (nth_error_nth' _ 0) by lia. f_equal. clear - Hi. revert i ins Hi. induction n as [|n IH]; intros [|i] [|x l] Hi; cbn; auto; try lia. apply IH. lia. }
  assert (No : forall i, i < n -> nth_error out i = Some (nth i out 0)) by (intros i Hi; apply nth_error_nth'; lia).
  assert (P : forall i, i < n -> nth_error K (nth i out 0) = Some (nth i ins 0)).
  { intros i Hi. specialize (Nf i Hi). specialize (No i Hi). clear - F Nf No. revert F Nf No. generalize (firstn n ins) (nth i ins 0) (nth i out 0).
    intros l a b F Na Nb. revert i Na Nb. induction F as [|x y l l' Hxy F IH]; intros [|i] Na Nb; cbn in *; try discriminate; [congruence | eauto]. }
  destruct H as (ND & HA & HB).
  split; auto. split; auto. split; [lia|]. split; [lia|]. split; [lia|]. split.
  { intros i j Hi Hj. specialize (P i Hi) as Pi. specialize (P j Hj) as Pj. split; intro Eq; [rewrite Eq in Pi; congruence|]. rewrite <- Eq in Pj.
    apply (proj1 (NoDup_nth_error K) ND); [apply nth_error_Some; congruence | congruence]. }
  split.
  { intro c. split.
    - intro Hc. destruct (nth_error K c) as [v|] eqn:Nc; [|apply nth_error_None in Nc; lia]. assert (Iv : In v (firstn n ins)) by (apply I; eapply nth_error_In; eauto).
      apply In_nth_error in Iv as [i Ni]. assert (Hi : i < n) by (rewrite <- Lf; apply nth_error_Some; congruence). rewrite (Nf i Hi) in Ni. injection Ni as <-.
      assert (c = nth i out 0) by (apply (proj1 (NoDup_nth_error K) ND); [apply nth_error_Some; congruence | rewrite (P i Hi); auto]). subst c. apply nth_In. lia.
    - intro Ic. apply In_nth_error in Ic as [i Ni]. assert (Hi : i < n) by (rewrite <- Lo; apply nth_error_Some; congruence). rewrite (No i Hi) in Ni. injection Ni as <-. apply nth_error_Some. rewrite (P i Hi). discriminate. }
  split.
  { intros v Hv. destruct (nth_error m v) as [[c|]|] eqn:Nv.
    - apply HB in Nv. assert (Iv : In v (firstn n ins)) by (apply I; eapply nth_error_In; eauto). apply In_nth_error in Iv as [i Ni].
      assert (Hi : i < n) by (rewrite <- Lf; apply nth_error_Some; congruence). rewrite (Nf i Hi) in Ni. injection Ni as <-. exists i. split; auto. split; auto.
      apply (proj1 (NoDup_nth_error K) ND); [apply nth_error_Some; rewrite (P i Hi); discriminate | rewrite (P i Hi); auto].
    - intro Iv. apply In_nth_error in Iv as [i Ni]. assert (Hi : i < n) by (rewrite <- Lf; apply nth_error_Some; congruence). rewrite (Nf i Hi) in Ni. injection Ni as <-. specialize (P i Hi). apply HA in P. congruence.
    - apply nth_error_None in Nv. rewrite Lm, repeat_length in Nv. lia. }
  split; [intro Hm; lia|]. split.
  { destruct D as [D|(D1 & r & v & -> & D2 & _ & D4)]; [left; lia|]. right. split; auto. exists r. split; auto.
    assert (Er : nth_error (firstn (S r) ins) r = Some v). { rewrite D2, nth_error_app2 by (rewrite firstn_length; lia). rewrite firstn_length. replace (r - Nat.min r (length ins)) with 0 by lia. reflexivity. }
    rewrite (Nf r) in Er by lia. injection Er as ->. exact D4. }
  intros Hm r Hr. destruct (Mn r Hr Hm) as (K1 & N1 & I1 & L1). exists (length K1). split; auto. exists K1. split; auto. split; auto. intro v. rewrite I1. cbn. tauto.
Qed.
Print Assumptions C35_packing_map_partial.
Example C35_demo : GenerateVertexPackingMap 9 100 30 [7; 4; 7; 4; 9; 5; 4] [] = None /\
  GenerateVertexPackingMap 9 7 3 [7; 4; 7; 4; 9; 5; 4] [] = Some (5, 3, [None; None; None; None; Some 1; None; None; Some 0; None; Some 2], [0; 1; 0; 1; 2]).
Proof. split; reflexivity. Qed.

(** Finding: a packing map that was used before keeps its entries: different indices get the same packed index. *)
Theorem C35_reused_map_refuted : ~ forall maxIndex maxIndices maxVertices ins m n nv m' out, (forall v, In v ins -> v <= maxIndex) ->
  GenerateVertexPackingMap maxIndex maxIndices maxVertices ins m = Some (n, nv, m', out) ->
  forall i j, i < n -> j < n -> nth i out 0 = nth j out 0 -> nth i ins 0 = nth j ins 0.
Proof.
  intro H. specialize (H 1 2%N 10 [0; 1] [Some 0; None] _ _ _ _ ltac:(intros v [<-|[<-|[]]]; lia) eq_refl 0 1). cbn in H. specialize (H ltac:(lia) ltac:(lia) eq_refl). discriminate.
Qed.
Print Assumptions C35_reused_map_refuted.
(** Finding: with a limit of no vertices one vertex is still used. *)
Theorem C35_no_vertices_refuted : ~ forall maxIndex maxIndices maxVertices ins n nv m out,
  GenerateVertexPackingMap maxIndex maxIndices maxVertices ins [] = Some (n, nv, m, out) -> nv <= maxVertices.
Proof. intro H. specialize (H 0 1%N 0 [0] _ _ _ _ eq_refl). lia. Qed.
Print Assumptions C35_no_vertices_refuted.
