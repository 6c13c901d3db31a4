(** C41: splines. *)
From Coq Require Import List Arith ZArith QArith Lia Lqa Bool.
From Verif Require Import SplineModel.
Import ListNotations.
Local Open Scope nat_scope.

(** ** Specification *)
(** A cubic Bezier segment written as a NURBS: four control vertices of weight 1, the knots 0 0 0 0 1 1 1 1, open. *)
Definition bezier_piece {A} (p : nurbs A) : Prop :=
  length (ncvs p) = 4 /\ weights p = [1; 1; 1; 1]%Q /\ knots p = [0; 0; 0; 0; 1; 1; 1; 1]%Q /\ degree p = 3%Z /\ nclosed p = false.
(** Where the first segment begins: a closed spline starts with the tangent before its first point. *)
Definition origin {A} (s : spline A) : nat := if closed s then 1 else 0.
Definition segment_count {A} (s : spline A) : nat := if closed s then length (cvs s) / 3 else (length (cvs s) - 1) / 3.
(** Each point ends one segment and begins the next. *)
Definition joined {A} (ps : list (nurbs A)) : Prop :=
  forall i p q, nth_error ps i = Some p -> nth_error ps (S i) = Some q -> nth_error (ncvs p) 3 = nth_error (ncvs q) 0.
(** The point of the cubic with the control values [a b c d] at [t] (one coordinate). *)
Definition bezier_at (a b c d t : Q) : Q :=
  ((1 - t) * (1 - t) * (1 - t) * a + 3 * t * (1 - t) * (1 - t) * b + 3 * t * t * (1 - t) * c + t * t * t * d)%Q.

(** ** Proofs *)
Definition piece {A} (a b c d : A) : nurbs A := Nurbs [a; b; c; d] [1; 1; 1; 1]%Q [0; 0; 0; 0; 1; 1; 1; 1]%Q 3 false.
Lemma piece_spec : forall A (a b c d : A), bezier_piece (piece a b c d).
Proof. intros. repeat split. Qed.
Lemma piece_valid : forall A (p : nurbs A), bezier_piece p -> nurbs_IsValid p = true.
Proof.
  intros A p (H1 & H2 & H3 & H4 & _). unfold nurbs_IsValid. rewrite H1, H2, H3, H4. reflexivity.
Qed.
Lemma add_one : forall A (n : nurbs A) cv,
  nurbs_AddCV n cv 1 = Nurbs (ncvs n ++ [cv]) (weights n ++ [1%Q]) (knots n) (degree n) (nclosed n).
Proof. intros. unfold nurbs_AddCV. destruct (Qlt_le_dec 1 0) as [H|H]; [lra|reflexivity]. Qed.
Lemma four : forall A (a b c d : A),
  finish (nurbs_AddCV (nurbs_AddCV (nurbs_AddCV (nurbs_AddCV new_cubic a 1) b 1) c 1) d 1) = piece a b c d.
Proof. intros. rewrite !add_one. reflexivity. Qed.
Lemma nth_some : forall A (l : list A) i, i < length l -> exists x, nth_error l i = Some x.
Proof. intros A l i H. destruct (nth_error l i) eqn:E; [eauto|]. apply nth_error_None in E. lia. Qed.
Lemma add_four : forall A (l : list A) cur, cur + 3 < length l -> exists a b c d,
  nth_error l cur = Some a /\ nth_error l (cur + 1) = Some b /\ nth_error l (cur + 2) = Some c /\ nth_error l (cur + 3) = Some d /\
  exists n, add_cvs l (3 + 1) cur new_cubic = Some n /\ finish n = piece a b c d.
Proof.
  intros A l cur H.
  destruct (nth_some A l cur) as [a Ha]; [lia|]. destruct (nth_some A l (cur + 1)) as [b Hb]; [lia|].
  destruct (nth_some A l (cur + 2)) as [c Hc]; [lia|]. destruct (nth_some A l (cur + 3)) as [d Hd]; [lia|].
  exists a, b, c, d. repeat (split; [assumption|]).
  replace (cur + 1) with (S cur) in Hb by lia. replace (cur + 2) with (S (S cur)) in Hc by lia. replace (cur + 3) with (S (S (S cur))) in Hd by lia.
  eexists. split; [|apply four]. cbn [add_cvs Nat.add]. rewrite Ha, Hb, Hc, Hd. reflexivity.
Qed.
Lemma segments_spec : forall A (l : list A) k cur fill, k = 0 \/ cur + 3 * k < length l ->
  exists ps, segments l k cur fill = Some (fill ++ ps) /\ length ps = k /\
    forall i p, nth_error ps i = Some p -> bezier_piece p /\
      forall j, j <= 3 -> nth_error (ncvs p) j = nth_error l (cur + 3 * i + j).
Proof.
  induction k; intros cur fill H.
  - exists []. rewrite app_nil_r. repeat split; destruct i; discriminate.
  - destruct (add_four A l cur) as (a & b & c & d & Ha & Hb & Hc & Hd & n & E & F); [lia|].
    destruct (IHk (cur + 3) (fill ++ [piece a b c d])) as (ps & S1 & S2 & S3); [lia|].
    exists (piece a b c d :: ps). cbn [segments]. rewrite E, F. replace (cur + (3 + 1) - 1) with (cur + 3) by lia.
    rewrite S1, <- app_assoc. split; [reflexivity|]. split; [cbn; lia|].
    intros [|i] p G; cbn in G.
    + injection G as <-. split; [apply piece_spec|]. intros j J. replace (cur + 3 * 0 + j) with (cur + j) by lia.
      destruct j as [|[|[|[|]]]]; [rewrite Nat.add_0_r| | | |lia]; cbn; congruence.
    + destruct (S3 i p G) as [Q1 Q2]. split; [exact Q1|]. intros j J. rewrite (Q2 j J). f_equal. lia.
Qed.

(** ** Theorems *)
(** For an open spline with any number of control vertices, and for a closed one with whole segments (a positive
    multiple of three), ToNURBs reads only existing control vertices and appends one valid cubic piece per segment,
    whose control vertices are those of the segment, in order, wrapping around for a closed spline. *)
Theorem C41_pieces_partial : forall A (s : spline A) fill,
  closed s = false \/ (0 < length (cvs s) /\ length (cvs s) mod 3 = 0) ->
  exists ps, ToNURBs s fill = Some (fill ++ ps) /\ length ps = segment_count s /\
    forall i p, nth_error ps i = Some p -> bezier_piece p /\ nurbs_IsValid p = true /\
      forall j, j <= 3 -> nth_error (ncvs p) j = nth_error (cvs s) ((origin s + 3 * i + j) mod length (cvs s)).
Proof.
  intros A s fill H. unfold ToNURBs, segment_count, origin. destruct (closed s) eqn:C; cbn [negb].
  - destruct H as [H|[P M]]; [discriminate|].
    assert (N : exists k, length (cvs s) = 3 * S k).
    { exists (length (cvs s) / 3 - 1). pose proof (Nat.div_mod_eq (length (cvs s)) 3). lia. }
    destruct N as [k N]. rewrite N. replace (3 * S k / 3) with (S k) by (rewrite Nat.mul_comm, Nat.div_mul; lia).
    replace (Z.to_nat (Z.quot (Z.of_nat (3 * S k)) 3 - 1)) with k.
    2:{ rewrite Nat2Z.inj_mul, (Z.mul_comm (Z.of_nat 3)). change (Z.of_nat 3) with 3%Z. rewrite Z.quot_mul by lia. lia. }
    destruct (segments_spec A (cvs s) k 1 fill) as (ps & S1 & S2 & S3); [lia|]. rewrite S1.
    destruct (nth_some A (cvs s) (3 * k + 1)) as [a Ha]; [lia|]. destruct (nth_some A (cvs s) (3 * k + 2)) as [b Hb]; [lia|].
    destruct (nth_some A (cvs s) 0) as [c Hc]; [lia|]. destruct (nth_some A (cvs s) 1) as [d Hd]; [lia|].
    assert (T1 : at_ (cvs s) (Z.of_nat (3 * S k) - 2) = Some a).
    { unfold at_. destruct (Z.ltb_spec (Z.of_nat (3 * S k) - 2) 0); [lia|]. rewrite <- Ha. f_equal. lia. }
    assert (T2 : at_ (cvs s) (Z.of_nat (3 * S k) - 1) = Some b).
    { unfold at_. destruct (Z.ltb_spec (Z.of_nat (3 * S k) - 1) 0); [lia|]. rewrite <- Hb. f_equal. lia. }
    assert (T3 : at_ (cvs s) 0 = Some c) by exact Hc. assert (T4 : at_ (cvs s) 1 = Some d) by exact Hd.
    rewrite T1, T2, T3, T4, four. exists (ps ++ [piece a b c d]). rewrite app_assoc. split; [reflexivity|].
    split; [rewrite app_length; cbn; lia|].
    intros i p G. destruct (Nat.lt_ge_cases i k) as [L|L].
    + rewrite nth_error_app1 in G by lia. destruct (S3 i p G) as [Q1 Q2]. split; [exact Q1|]. split; [apply piece_valid, Q1|].
      intros j J. rewrite (Q2 j J), Nat.mod_small by lia. reflexivity.
    + rewrite nth_error_app2 in G by lia. rewrite S2 in G. destruct (i - k) as [|x] eqn:X; [|destruct x; discriminate].
      cbn in G. injection G as <-. assert (i = k) by lia. subst i. split; [apply piece_spec|]. split; [apply piece_valid, piece_spec|].
      intros j J. destruct j as [|[|[|[|]]]]; [| | | |lia]; cbn [piece ncvs nth_error].
      * rewrite Nat.mod_small by lia. rewrite <- Ha. f_equal. lia.
      * rewrite Nat.mod_small by lia. rewrite <- Hb. f_equal. lia.
      * replace (1 + 3 * k + 2) with (0 + 1 * (3 * S k)) by lia. rewrite Nat.mod_add, Nat.mod_small by lia. exact (eq_sym Hc).
      * replace (1 + 3 * k + 3) with (1 + 1 * (3 * S k)) by lia. rewrite Nat.mod_add, Nat.mod_small by lia. exact (eq_sym Hd).
  - replace (Z.to_nat (Z.quot (Z.of_nat (length (cvs s)) - 1) 3)) with ((length (cvs s) - 1) / 3).
    2:{ destruct (length (cvs s)) as [|n]; [reflexivity|]. replace (Z.of_nat (S n) - 1)%Z with (Z.of_nat n) by lia.
        change 3%Z with (Z.of_nat 3). rewrite Z.quot_div_nonneg, <- Nat2Z.inj_div, Nat2Z.id by lia. f_equal. lia. }
    assert (D := Nat.div_mod_eq (length (cvs s) - 1) 3). set (k := (length (cvs s) - 1) / 3) in *.
    destruct (segments_spec A (cvs s) k 0 fill) as (ps & S1 & S2 & S3); [lia|]. rewrite S1.
    exists ps. split; [reflexivity|]. split; [exact S2|]. intros i p G. destruct (S3 i p G) as [Q1 Q2].
    split; [exact Q1|]. split; [apply piece_valid, Q1|]. intros j J. rewrite (Q2 j J).
    assert (i < k) by (rewrite <- S2; apply nth_error_Some; congruence). rewrite Nat.mod_small by lia. reflexivity.
Qed.
(** Each piece starts where the previous one ended; the last piece of a closed spline ends where the first one
    starts. *)
Theorem C41_joined_partial : forall A (s : spline A) ps,
  closed s = false \/ (0 < length (cvs s) /\ length (cvs s) mod 3 = 0) -> ToNURBs s [] = Some ps ->
  joined ps /\ (closed s = true -> exists p q, nth_error ps 0 = Some p /\ nth_error ps (length ps - 1) = Some q /\
    nth_error (ncvs q) 3 = nth_error (ncvs p) 0).
Proof.
  intros A s ps H E. destruct (C41_pieces_partial A s [] H) as (ps' & E' & L & P). rewrite E in E'. cbn in E'. injection E' as <-.
  split.
  - intros i p q Hp Hq. destruct (P i p Hp) as (_ & _ & P1). destruct (P (S i) q Hq) as (_ & _ & P2).
    rewrite (P1 3), (P2 0) by lia. f_equal. f_equal. lia.
  - intro C. destruct H as [H|[N M]]; [congruence|]. unfold segment_count in L. rewrite C in L.
    assert (D := Nat.div_mod_eq (length (cvs s)) 3).
    destruct (nth_some _ ps 0) as [p Hp]; [lia|]. destruct (nth_some _ ps (length ps - 1)) as [q Hq]; [lia|].
    exists p, q. split; [exact Hp|]. split; [exact Hq|].
    destruct (P _ p Hp) as (_ & _ & P1). destruct (P _ q Hq) as (_ & _ & P2). rewrite (P2 3), (P1 0) by lia. f_equal.
    unfold origin. rewrite C. replace (1 + 3 * (length ps - 1) + 3) with (1 + 3 * 0 + 0 + 1 * length (cvs s)) by lia.
    apply Nat.mod_add. lia.
Qed.
(** A closed spline with less than two control vertices reads control vertices that do not exist, *)
Theorem C41_reads_refuted : forall A (s : spline A) fill, closed s = true -> length (cvs s) < 2 -> ToNURBs s fill = None.
Proof.
  intros A s fill C H. unfold ToNURBs. rewrite C. cbn [negb]. destruct (cvs s) as [|a [|b l]]; cbn in H; [| |lia]; reflexivity.
Qed.
(** and one with incomplete segments gets pieces that do not join: here the curve does not even close. *)
Theorem C41_joined_refuted : exists (s : spline nat) ps, closed s = true /\ ToNURBs s [] = Some ps /\
  (~ joined ps \/ exists p, ps = [p] /\ nth_error (ncvs p) 3 <> nth_error (ncvs p) 0).
Proof.
  exists (Spline [0; 1; 2; 3] true). eexists. split; [reflexivity|]. split; [reflexivity|]. right. eexists. split; [reflexivity|].
  discriminate.
Qed.
Theorem C41_gap_refuted : exists (s : spline nat) ps, closed s = true /\ ToNURBs s [] = Some ps /\ ~ joined ps.
Proof.
  exists (Spline [0; 1; 2; 3; 4; 5; 6] true). eexists. split; [reflexivity|]. split; [reflexivity|].
  intro H. specialize (H 0 _ _ eq_refl eq_refl). discriminate.
Qed.

(** *** Linear splines *)
Lemma bezier_loop_closed : forall A (l : list A) c count i b, closed (bezier_loop c count i l b) = closed b.
Proof.
  induction l; intros; cbn [bezier_loop]; [reflexivity|]. rewrite IHl. destruct (_ && _)%bool; reflexivity.
Qed.
Lemma bezier_loop_triple : forall A (l : list A) c count i b,
  c = true \/ (0 < i /\ i + length l < count) ->
  cvs (bezier_loop c count i l b) = cvs b ++ flat_map (fun v => [v; v; v]) l.
Proof.
  induction l; intros c count i b H; cbn [bezier_loop flat_map]; [symmetry; apply app_nil_r|].
  assert (E : (negb c && ((i =? 0) || (i =? count - 1)))%bool = false).
  { destruct H as [->|[H1 H2]]; [reflexivity|]. cbn in H2. destruct (Nat.eqb_spec i 0); [lia|]. destruct (Nat.eqb_spec i (count - 1)); [lia|].
    apply andb_false_r. }
  rewrite E, IHl by (destruct H as [->|[H1 H2]]; [left; reflexivity|right; cbn in H2; lia]). cbn. rewrite <- !app_assoc. reflexivity.
Qed.
Lemma bezier_loop_app : forall A (l r : list A) c count i b,
  bezier_loop c count i (l ++ r) b = bezier_loop c count (i + length l) r (bezier_loop c count i l b).
Proof.
  induction l; intros; cbn [app bezier_loop length]; [f_equal; lia|]. rewrite IHl. f_equal. lia.
Qed.
Lemma flat3_length : forall A (l : list A), length (flat_map (fun v => [v; v; v]) l) = 3 * length l.
Proof. induction l; cbn in *; lia. Qed.
Lemma flat3_nth : forall A (l : list A) i j, j < 3 -> nth_error (flat_map (fun v => [v; v; v]) l) (3 * i + j) = nth_error l i.
Proof.
  induction l; intros i j J.
  - cbn [flat_map]. destruct (3 * i + j), i; reflexivity.
  - cbn [flat_map]. destruct i.
    + destruct j as [|[|[|]]]; [reflexivity..|lia].
    + rewrite nth_error_app2 by (cbn; lia). cbn [length nth_error]. rewrite <- (IHl i j J). f_equal. lia.
Qed.
(** The Bezier spline of a valid linear spline: its control vertices. *)
Lemma bezier_cvs : forall A (s b : spline A), linear_IsValid s = true ->
  (closed s = true /\ cvs (ToBezier s b) = flat_map (fun v => [v; v; v]) (cvs s)) \/
  (closed s = false /\ exists first mid last, cvs s = first :: mid ++ [last] /\
    cvs (ToBezier s b) = first :: first :: flat_map (fun v => [v; v; v]) mid ++ [last; last]).
Proof.
  intros A s b V. unfold ToBezier. rewrite V. cbn [negb]. destruct (closed s) eqn:C.
  - left. split; [reflexivity|]. rewrite bezier_loop_triple by auto. reflexivity.
  - right. split; [reflexivity|]. unfold linear_IsValid in V. apply Nat.leb_le in V.
    destruct (cvs s) as [|first l]; [cbn in V; lia|]. destruct (exists_last (l := l)) as (mid & last & ->).
    { intros ->. cbn in V. lia. }
    exists first, mid, last. split; [reflexivity|].
    cbn [bezier_loop negb andb Nat.eqb orb]. rewrite bezier_loop_app.
    cbn [bezier_loop]. replace (1 + length mid =? length (first :: mid ++ [last]) - 1) with true.
    2:{ symmetry. apply Nat.eqb_eq. cbn. rewrite app_length. cbn. lia. }
    rewrite orb_true_r. cbn [negb andb]. cbn [AddCV cvs]. rewrite bezier_loop_triple.
    + cbn. rewrite <- !app_assoc. reflexivity.
    + right. cbn. rewrite app_length. cbn. lia.
Qed.
(** Converting a valid linear spline to a Bezier spline (open like it, or a new one) and that to NURBS gives one piece
    per line, with the end points of the line as its control vertices, each twice; so every vertex of the linear
    spline is passed, in order, and a closed one returns to the first. *)
Theorem C41_linear_partial : forall A (s b : spline A), linear_IsValid s = true -> closed b = false ->
  let n := length (cvs s) in
  exists ps, ToNURBs (ToBezier s b) [] = Some ps /\ length ps = (if closed s then n else n - 1) /\
    forall i p, nth_error ps i = Some p -> exists u v,
      nth_error (cvs s) i = Some u /\ nth_error (cvs s) ((i + 1) mod n) = Some v /\ ncvs p = [u; u; v; v] /\ nurbs_IsValid p = true.
Proof.
  intros A s b V B n. assert (V' := V). unfold linear_IsValid in V'. apply Nat.leb_le in V'. fold n in V'.
  assert (C : closed (ToBezier s b) = closed s).
  { unfold ToBezier. rewrite V. cbn [negb]. rewrite bezier_loop_closed. destruct (closed s); [reflexivity|exact B]. }
  assert (F : forall (p : nurbs A) u v, bezier_piece p -> nth_error (ncvs p) 0 = Some u -> nth_error (ncvs p) 1 = Some u ->
    nth_error (ncvs p) 2 = Some v -> nth_error (ncvs p) 3 = Some v -> ncvs p = [u; u; v; v]).
  { intros p u v (L & _) E0 E1 E2 E3. destruct (ncvs p) as [|a0 [|a1 [|a2 [|a3 [|]]]]]; try discriminate. cbn in *. congruence. }
  destruct (bezier_cvs A s b V) as [[D E]|[D (first & mid & last & E1 & E)]].
  - assert (L : length (cvs (ToBezier s b)) = 3 * n) by (rewrite E; apply flat3_length).
    destruct (C41_pieces_partial A (ToBezier s b) []) as (ps & P1 & P2 & P3).
    { right. rewrite L. split; [lia|]. rewrite Nat.mul_comm. apply Nat.mod_mul. lia. }
    exists ps. split; [exact P1|]. rewrite D. unfold segment_count in P2. rewrite C, D, L in P2.
    rewrite Nat.mul_comm, Nat.div_mul in P2 by lia. split; [exact P2|].
    intros i p G. destruct (P3 i p G) as (Q1 & Q2 & Q3). assert (I : i < n) by (rewrite <- P2; apply nth_error_Some; congruence).
    destruct (nth_some A (cvs s) i I) as [u U]. destruct (nth_some A (cvs s) ((i + 1) mod n)) as [v W]; [apply Nat.mod_upper_bound; lia|].
    exists u, v. split; [exact U|]. split; [exact W|]. split; [|exact Q2].
    unfold origin in Q3. rewrite C, D, L in Q3.
    assert (K : forall j, j < 2 -> nth_error (ncvs p) j = Some u).
    { intros j J. rewrite Q3 by lia. rewrite Nat.mod_small by lia. rewrite E. replace (1 + 3 * i + j) with (3 * i + (1 + j)) by lia.
      rewrite flat3_nth by lia. exact U. }
    assert (K' : forall j, 2 <= j <= 3 -> nth_error (ncvs p) j = Some v).
    { intros j J. rewrite Q3 by lia. rewrite E. replace (1 + 3 * i + j) with (3 * (i + 1) + (j - 2)) by lia.
      destruct (Nat.eq_dec (i + 1) n) as [X|X].
      - rewrite X, Nat.mod_same in W by lia. rewrite X. replace (3 * n + (j - 2)) with (3 * 0 + (j - 2) + 1 * (3 * n)) by lia.
        rewrite Nat.mod_add, Nat.mod_small by lia. rewrite flat3_nth by lia. exact W.
      - rewrite Nat.mod_small in W by lia. rewrite Nat.mod_small by lia. rewrite flat3_nth by lia. exact W. }
    apply F; [exact Q1|apply K; lia|apply K; lia|apply K'; lia|apply K'; lia].
  - assert (N : n = length mid + 2) by (unfold n; rewrite E1; cbn; rewrite app_length; cbn; lia).
    assert (L : length (cvs (ToBezier s b)) = 3 * length mid + 4) by (rewrite E; cbn; rewrite app_length, flat3_length; cbn; lia).
    destruct (C41_pieces_partial A (ToBezier s b) []) as (ps & P1 & P2 & P3); [left; rewrite C; exact D|].
    exists ps. split; [exact P1|]. rewrite D. unfold segment_count in P2. rewrite C, D, L in P2.
    replace (3 * length mid + 4 - 1) with ((length mid + 1) * 3) in P2 by lia. rewrite Nat.div_mul in P2 by lia. split; [lia|].
    intros i p G. destruct (P3 i p G) as (Q1 & Q2 & Q3). assert (I : i < length ps) by (apply nth_error_Some; congruence).
    assert (R : forall q, q < 3 * length mid + 4 ->
      nth_error (cvs (ToBezier s b)) q = nth_error (flat_map (fun v => [v; v; v]) (cvs s)) (q + 1)).
    { intros q H. rewrite E, E1.
      assert (X : flat_map (fun v => [v; v; v]) (first :: mid ++ [last]) =
        first :: (first :: first :: flat_map (fun v => [v; v; v]) mid ++ [last; last]) ++ [last]).
      { cbn [flat_map]. rewrite flat_map_app. cbn. rewrite <- app_assoc. reflexivity. }
      rewrite X, Nat.add_1_r. cbn [nth_error]. rewrite nth_error_app1; [reflexivity|]. cbn. rewrite app_length, flat3_length. cbn. lia. }
    destruct (nth_some A (cvs s) i) as [u U]; [fold n; lia|]. destruct (nth_some A (cvs s) (i + 1)) as [v W]; [fold n; lia|].
    exists u, v. split; [exact U|]. split; [rewrite Nat.mod_small by lia; exact W|]. split; [|exact Q2].
    unfold origin in Q3. rewrite C, D, L in Q3.
    assert (K : forall j, j < 2 -> nth_error (ncvs p) j = Some u).
    { intros j J. rewrite Q3 by lia. rewrite Nat.mod_small, R by lia. replace (0 + 3 * i + j + 1) with (3 * i + (1 + j)) by lia.
      rewrite flat3_nth by lia. exact U. }
    assert (K' : forall j, 2 <= j <= 3 -> nth_error (ncvs p) j = Some v).
    { intros j J. rewrite Q3 by lia. rewrite Nat.mod_small, R by lia. replace (0 + 3 * i + j + 1) with (3 * (i + 1) + (j - 2)) by lia.
      rewrite flat3_nth by lia. exact W. }
    apply F; [exact Q1|apply K; lia|apply K; lia|apply K'; lia|apply K'; lia].
Qed.
(** Such a piece is the line between its end points: between 0 and 1 it takes only values between them, starting and
    ending at them. *)
Theorem C41_straight : forall u v t : Q, (0 <= t <= 1)%Q ->
  exists k : Q, (0 <= k <= 1 /\ bezier_at u u v v t == (1 - k) * u + k * v)%Q /\ (t == 0 -> k == 0)%Q /\ (t == 1 -> k == 1)%Q.
Proof.
  intros u v t [H1 H2]. exists (t * t * (3 - 2 * t))%Q. unfold bezier_at. split; [split; [split|]|split].
  - assert (0 <= t * t)%Q by nra. nra.
  - assert (0 <= (1 - t) * (1 - t))%Q by nra. assert (0 <= (1 - t) * (1 - t) * (1 + 2 * t))%Q by nra.
    setoid_replace (t * t * (3 - 2 * t))%Q with (1 - (1 - t) * (1 - t) * (1 + 2 * t))%Q by ring. lra.
  - ring.
  - intros ->. ring.
  - intros ->. ring.
Qed.
(** Converting into a Bezier spline that is closed leaves it closed: the result of an open line then has pieces that
    are not lines of it. *)
Theorem C41_linear_refuted : exists (s b : spline nat) ps p, linear_IsValid s = true /\ closed s = false /\
  ToNURBs (ToBezier s b) [] = Some ps /\ In p ps /\ ~ exists u v, ncvs p = [u; u; v; v].
Proof.
  exists (Spline [0; 1; 2] false), (Spline [] true). eexists. eexists. split; [reflexivity|]. split; [reflexivity|].
  split; [reflexivity|]. split; [left; reflexivity|]. intros (u & v & H). cbn in H. congruence.
Qed.
(** Several splines: the pieces of all of them are appended in order; none of those already there is lost. *)
Theorem C41_convert_all : forall A (l : list (spline A)) fill, Forall (fun s => closed s = false) l ->
  exists ps, ConvertBezierToNURBS l fill = Some (fill ++ ps) /\
    length ps = fold_right (fun s n => segment_count s + n) 0 l /\ Forall (fun p => nurbs_IsValid p = true) ps.
Proof.
  induction l as [|s l]; intros fill H; cbn [ConvertBezierToNURBS fold_right].
  - exists []. rewrite app_nil_r. repeat split. constructor.
  - inversion H as [|? ? H1 H2]; subst. destruct (C41_pieces_partial A s fill (or_introl H1)) as (p1 & E1 & L1 & P1). rewrite E1.
    destruct (IHl (fill ++ p1) H2) as (p2 & E2 & L2 & P2). exists (p1 ++ p2). rewrite E2, app_assoc. split; [reflexivity|].
    split; [rewrite app_length; lia|]. apply Forall_app. split; [|exact P2]. apply Forall_forall. intros p I.
    apply In_nth_error in I. destruct I as [i I]. apply (P1 i p I).
Qed.
(** ** Examples *)
Example C41_demo : exists ps, ToNURBs (Spline [0; 1; 2; 3; 4; 5] true) [] = Some ps /\
  map ncvs ps = [[1; 2; 3; 4]; [4; 5; 0; 1]].
Proof. eexists. split; reflexivity. Qed.
Example C41_demo_open : exists ps, ToNURBs (Spline [0; 1; 2; 3; 4; 5; 6; 7] false) [] = Some ps /\
  map ncvs ps = [[0; 1; 2; 3]; [3; 4; 5; 6]].
Proof. eexists. split; reflexivity. Qed.
Example C41_demo_linear : linear_IsValid (Spline [7; 8; 9] true) = true /\
  cvs (ToBezier (Spline [7; 8; 9] false) (Spline [1] false)) = [7; 7; 8; 8; 8; 9; 9].
Proof. split; reflexivity. Qed.

Print Assumptions C41_pieces_partial.
Print Assumptions C41_joined_partial.
Print Assumptions C41_reads_refuted.
Print Assumptions C41_joined_refuted.
Print Assumptions C41_gap_refuted.
Print Assumptions C41_linear_partial.
Print Assumptions C41_straight.
Print Assumptions C41_linear_refuted.
Print Assumptions C41_convert_all.
