(** Proofs about the change of the up-axis and the unit: geometries, skins and cameras. *)
From Coq Require Import List Arith Reals Lra Lia Bool.
From Verif Require Import IdModel MatrixModel MatrixProps QuatModel RotModel SceneModel TransformModel TransformProps AxisModel AxisSpec AxisProofs.
Import ListNotations.

(** *** Sources *)
Lemma three {A} (l : list A) n : 3 <= n -> n <= length l -> exists x y z r, firstn n l = x :: y :: z :: r /\ length r = n - 3.
Proof.
  intros H1 H2. pose proof (firstn_length_le l H2) as E. destruct (firstn n l) as [|x [|y [|z r]]]; cbn in E; try lia. exists x, y, z, r. split; [reflexivity | lia].
Qed.
Lemma turn_values_spec stride f : 3 <= stride -> forall count data, count * stride <= length data ->
  length (turn_values count stride f data) = length data /\
  (forall j, j < count -> let v := turn f (V3 (nth (j * stride) data 0%R) (nth (j * stride + 1) data 0%R) (nth (j * stride + 2) data 0%R)) false in
     nth (j * stride) (turn_values count stride f data) 0%R = x3 v /\ nth (j * stride + 1) (turn_values count stride f data) 0%R = y3 v /\ nth (j * stride + 2) (turn_values count stride f data) 0%R = z3 v) /\
  (forall i, (forall j, j < count -> i <> j * stride /\ i <> j * stride + 1 /\ i <> j * stride + 2) -> nth i (turn_values count stride f data) 0%R = nth i data 0%R).
Proof.
  intro Hs. induction count as [|count IH]; intros data H; [cbn [turn_values]; repeat split; lia|].
  cbn [turn_values]. destruct (three data stride Hs ltac:(lia)) as (x & y & z & r & E & Lr). rewrite E. cbv zeta.
  assert (D : data = x :: y :: z :: r ++ skipn stride data) by (rewrite <- (firstn_skipn stride data) at 1; rewrite E; reflexivity).
  assert (Ls : length (skipn stride data) = length data - stride) by apply skipn_length.
  destruct (IH (skipn stride data)) as (A & B & C); [lia|]. set (tail := skipn stride data) in *. set (tail' := turn_values count stride f tail) in *.
  assert (Nth : forall (w : list R) a b c i, nth (stride + i) (a :: b :: c :: r ++ w) 0%R = nth i w 0%R).
  { intros w a b c i. replace (stride + i) with (S (S (S (length r + i)))) by lia. cbn [nth]. rewrite app_nth2 by lia. f_equal. lia. }
  split; [|split].
  - cbn [length]. rewrite app_length, A, Lr. lia.
  - intros [|j] Hj; cbv zeta.
    + cbn [Nat.mul Nat.add]. rewrite D. cbn [nth]. auto.
    + replace (S j * stride) with (stride + j * stride) by lia. replace (stride + j * stride + 1) with (stride + (j * stride + 1)) by lia. replace (stride + j * stride + 2) with (stride + (j * stride + 2)) by lia.
      rewrite D, !Nth. apply B. lia.
  - intros i Hi. pose proof (Hi 0 ltac:(lia)) as (H0 & H1 & H2). cbn [Nat.mul Nat.add] in H0, H1, H2. destruct (le_lt_dec stride i) as [G|G].
    + replace i with (stride + (i - stride)) by lia. rewrite D, !Nth. apply C. intros j Hj. specialize (Hi (S j) ltac:(lia)). cbn [Nat.mul] in Hi. lia.
    + rewrite D. destruct i as [|[|[|i]]]; try lia. cbn [nth]. rewrite !app_nth1 by lia. reflexivity.
Qed.
Local Open Scope R_scope.
Lemma scaled_nth s n (l : list R) i : (i < n)%nat -> (n <= length l)%nat -> nth i (map (fun x => x * s) (firstn n l) ++ skipn n l) 0 = s * nth i l 0.
Proof.
  intros H1 H2. rewrite app_nth1 by (rewrite map_length, firstn_length_le by exact H2; exact H1).
  rewrite (nth_indep _ 0 (0 * s)) by (rewrite map_length, firstn_length_le by exact H2; exact H1). rewrite (map_nth (fun x => x * s)).
  rewrite <- (firstn_skipn n l) at 2. rewrite app_nth1 by (rewrite firstn_length_le by exact H2; exact H1). ring.
Qed.
Lemma convert_source_spec s f src : s = 1 \/ has_length s = true -> (3 <= stride src)%nat -> let src' := convert_source s f src in
  stype src' = stype src /\ stride src' = stride src /\ length (data src') = length (data src) /\
  forall j, (j < length (data src) / stride src)%nat ->
    value src' j = match stype src with POSITION => vscale s (turn f (value src j) false) | DIRECTION => turn f (value src j) false | OTHER => value src j end.
Proof.
  intros Hs H3 src'. unfold src', convert_source. set (count := (length (data src) / stride src)%nat).
  assert (Hc : (count * stride src <= length (data src))%nat) by (unfold count; rewrite Nat.mul_comm; apply Nat.mul_div_le; lia).
  set (turned := if (has_swap f && (3 <=? stride src)%nat)%bool then turn_values count (stride src) f (data src) else data src).
  assert (T : length turned = length (data src) /\ forall j, (j < count)%nat ->
    V3 (nth (j * stride src) turned 0) (nth (j * stride src + 1) turned 0) (nth (j * stride src + 2) turned 0) = turn f (value src j) false).
  { unfold turned. destruct (Nat.leb_spec 3 (stride src)) as [_|]; [|lia]. destruct (has_swap f) eqn:Sw; cbn [andb].
    - destruct (turn_values_spec (stride src) f H3 count (data src) Hc) as (A & B & _). split; [exact A|]. intros j Hj. destruct (B j Hj) as (-> & -> & ->). unfold value. now destruct (turn f _ false).
    - split; [reflexivity|]. intros j _. destruct f; try discriminate. reflexivity. }
  destruct T as [Lt T]. destruct (stype src) eqn:Ty.
  - split; [reflexivity|]. split; [reflexivity|]. cbn [data stride]. destruct (has_length s) eqn:Hl.
    + split; [rewrite app_length, map_length, <- app_length, firstn_skipn; exact Lt|]. intros j Hj. rewrite <- T by exact Hj. unfold value. cbn [data stride].
      rewrite !scaled_nth by (try (rewrite Lt; exact Hc); nia). reflexivity.
    + destruct Hs as [->|]; [|discriminate]. split; [exact Lt|]. intros j Hj. rewrite <- T by exact Hj. unfold value. cbn [data stride]. unfold vscale. cbn [x3 y3 z3]. now rewrite !Rmult_1_l.
  - split; [reflexivity|]. split; [reflexivity|]. split; [exact Lt|]. intros j Hj. rewrite <- T by exact Hj. reflexivity.
  - repeat split. auto.
Qed.

(** *** Skins *)
Lemma inverse_affine m : affine m -> epsilon < Rabs (Determinant m) -> affine (Inverted m).
Proof.
  intros (A & B & C & D) H. destruct (C42_inverse m H) as (I & _). set (i := Inverted m) in *. clearbody i.
  assert (E : forall g : mat -> R, g (product m i) = g Identity) by (intro g; now rewrite I).
  pose proof (E m03) as E0. pose proof (E m13) as E1. pose proof (E m23) as E2. pose proof (E m33) as E3. clear E I H. cbn in E0, E1, E2, E3. rewrite A, B, C, D in *.
  unfold affine. repeat split; lra.
Qed.
Lemma double_inverse m : epsilon < Rabs (Determinant m) -> epsilon < Rabs (Determinant (Inverted m)) -> Inverted (Inverted m) = m.
Proof.
  intros H1 H2. destruct (C42_inverse m H1) as (I1 & I2). destruct (C42_inverse (Inverted m) H2) as (J1 & J2).
  rewrite <- (proj1 (C42_identity (Inverted (Inverted m)))), <- I1, <- C42_associative, J1. apply C42_identity.
Qed.
Lemma pose_carries s f m : s <> 0 -> affine m -> epsilon < Rabs (Determinant m) -> epsilon < Rabs (Determinant (Inverted m)) ->
  carries (frame s f) m (Inverted (convert_matrix s f (Inverted m))).
Proof.
  intros Hs A H1 H2. rewrite <- (double_inverse m H1 H2) at 1. apply inverse_carries; [exact Hs | exact H2|]. apply convert_matrix_carries. now apply inverse_affine.
Qed.
