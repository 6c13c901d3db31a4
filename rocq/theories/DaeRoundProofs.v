(** Reading what was written: the whole set. *)
From Coq Require Import String List ZArith Bool Lia Arith.
From Verif Require Import TextModel TextProofs InterleaveProofs StringModel StringProofs XmlModel XmlProofs EnumModel
  PolyModel PolySpec PolyProofs TriModel DaeModel DaeSpec DaeProofs DaeReadProofs DaeInputProofs.
Import ListNotations.
Local Open Scope nat_scope.
Local Open Scope list_scope.

Lemma firstn_step n : forall (l : list Z) off, off < length l -> firstn (S n) (skipn off l) = nth off l 0%Z :: firstn n (skipn (S off) l).
Proof.
  induction l as [|a l IH]; intros [|off] L; cbn [length] in L; try lia; [reflexivity|].
  change (skipn (S (S off)) (a :: l)) with (skipn (S off) l). change (skipn (S off) (a :: l)) with (skipn off l). change (nth (S off) (a :: l) 0%Z) with (nth off l 0%Z). apply IH. lia.
Qed.
Lemma fst_combine {A B} : forall (l : list A) (k : list B), length k = length l -> map fst (combine l k) = l.
Proof. induction l as [|x l IH]; intros [|y k] H; try discriminate; cbn; [reflexivity|]. f_equal. apply IH. injection H as H. exact H. Qed.
Lemma filter_map {A B} (f : A -> B) p : forall l, filter p (map f l) = map f (filter (fun a => p (f a)) l).
Proof. induction l as [|a l IH]; [reflexivity|]. cbn. destruct (p (f a)); cbn; congruence. Qed.
(** *** The views *)
Definition seen_of (G : nat -> list Z) (a : nat * nat * Z) : seen := Seen (snd (fst a)) (fst (fst a)) (snd a) (G (fst (fst a))).
Lemma map_seq_nth {A B} (g : A -> B) : forall l (f : nat -> B) k, (forall i x, nth_error l i = Some x -> f (k + i) = g x) -> map f (seq k (length l)) = map g l.
Proof.
  induction l as [|x l IH]; intros f k H; [reflexivity|]. cbn [length seq map]. f_equal.
  - rewrite <- (Nat.add_0_r k). apply H. reflexivity.
  - apply IH. intros i y Hi. rewrite <- (H (S i) y Hi). f_equal. lia.
Qed.
Lemma nth_combine {A B} : forall (l : list A) (m : list B) i x y, nth_error (combine l m) i = Some (x, y) -> nth_error l i = Some x /\ nth_error m i = Some y.
Proof. induction l as [|a l IH]; intros [|b m] [|i] x y H; try discriminate; cbn in *; [injection H as -> ->; auto|apply IH; exact H]. Qed.
Lemma nth_error_pair {A B} (l : list A) : forall (m : list B) k a b, nth_error l k = Some a -> nth_error m k = Some b -> nth_error (combine l m) k = Some (a, b).
Proof. induction l as [|x l IH]; intros [|y m] [|k] a b H1 H2; try discriminate; cbn in *; [congruence|auto]. Qed.
Lemma frame_in {X} (ins : list (input X)) i o s : nth_error (frame ins) i = Some (o, s) -> exists x, nth_error ins i = Some x /\ offset x = o /\ source x = s.
Proof.
  intro H. unfold frame in H. destruct (nth_error ins i) as [x|] eqn:E.
  - rewrite (map_nth_error _ _ _ E) in H. injection H as <- <-. eauto.
  - apply nth_error_None in E. assert (nth_error (map (fun x => (offset x, source x)) ins) i = None) by (apply nth_error_None; rewrite map_length; exact E). congruence.
Qed.
Lemma view_frame d G : length (sets d) = length (pinputs (base d)) ->
  (forall i x, nth_error (pinputs (base d)) i = Some x -> get_indices (pinputs (base d)) i = G (offset x)) ->
  view d = map (seen_of G) (combine (frame (pinputs (base d))) (sets d)).
Proof.
  intros Hl HG. unfold view.
  replace (length (pinputs (base d))) with (length (combine (frame (pinputs (base d))) (sets d)))
    by (rewrite combine_length; unfold frame; rewrite map_length, Hl; lia).
  apply map_seq_nth. intros i ((o & s) & st) Hi. cbn [plus]. apply nth_combine in Hi. destruct Hi as (H1 & H2).
  apply frame_in in H1. destruct H1 as (x & Hx & <- & <-). rewrite Hx, (HG i x Hx). rewrite (nth_error_nth _ _ _ H2). reflexivity.
Qed.
Lemma in_view d i x : nth_error (pinputs (base d)) i = Some x -> In (Seen (source x) (offset x) (nth i (sets d) (-1)%Z) (get_indices (pinputs (base d)) i)) (view d).
Proof.
  intro H. unfold view. apply in_map_iff. exists i. rewrite H. split; [reflexivity|]. apply in_seq. assert (i < length (pinputs (base d))) by (apply nth_error_Some; congruence). lia.
Qed.

Lemma frame_combine : forall (l : list (input Z)) (k : list Z), combine (frame l) k = map (fun a => (offset (fst a), source (fst a), snd a)) (combine l k).
Proof. induction l as [|x l IH]; intros [|y k]; try reflexivity. cbn. f_equal. apply IH. Qed.
(** *** The texts of a set without corners *)
Lemma txt_none ins w w' fvs : fvs = [] -> txt ins w fvs = txt ins w' fvs. Proof. intros ->. reflexivity. Qed.
Lemma chunks_none ins w w' : forall cs off, sum cs = 0 -> map (txt ins w) (chunks off cs) = map (txt ins w') (chunks off cs).
Proof.
  induction cs as [|c cs IH]; intros off H; [reflexivity|]. cbn [sum fold_right] in H. fold (sum cs) in H. cbn [chunks map]. f_equal; [|apply IH; lia].
  apply txt_none. replace c with 0 by lia. reflexivity.
Qed.
Lemma face_chunks_none ins w w' : forall F off, size F = 0 -> map (map (txt ins w)) (face_chunks off F) = map (map (txt ins w')) (face_chunks off F).
Proof.
  induction F as [|f F IH]; intros off H; [reflexivity|]. unfold size in H. rewrite entries_cons, sum_app in H. cbn [face_chunks map]. f_equal.
  - apply chunks_none. lia.
  - apply IH. unfold size. lia.
Qed.

(** *** Writer and reader side by side *)
Section Round.
Variable m : mesh.
Variable d : dset.
Variable F : list face.
Hypothesis Hm : proper_mesh m.
Hypothesis Hc : consistent m d F.
Notation ins := (pinputs (base d)).
Notation P := (combine ins (sets d)).
Notation T := (size F).
Notation w0 := (index_owners ins).
Lemma all_good a : In a P -> good m a.
Proof.
  intro Ha. destruct a as (x & st). apply In_nth_error in Ha. destruct Ha as (i & Hi). apply nth_combine in Hi. destruct Hi as (Hx & Hs).
  pose proof (in_view d i x Hx) as Hv. rewrite (nth_error_nth _ _ _ Hs) in Hv.
  destruct (c_small _ _ _ Hc _ Hv) as (S1 & S2 & _). destruct (c_source _ _ _ Hc _ Hv) as (y & Hy & Hn). cbn [s_source s_offset s_set] in *.
  split; [exact S1|]. split; [exact S2|]. exists y. split; [exact Hy|]. split.
  - intro E. apply (c_zero _ _ _ Hc _ Hv). exact E.
  - intro E. apply Hn. exact E.
Qed.
Lemma lengths : length (sets d) = length ins. Proof. apply (c_sets _ _ _ Hc). Qed.
Lemma get_length i x : nth_error ins i = Some x -> length (get_indices ins i) = T.
Proof. intro H. exact (c_step _ _ _ Hc _ (in_view d i x H)). Qed.
Lemma get_fits i x : nth_error ins i = Some x -> fits (get_indices ins i).
Proof. intro H. exact (proj2 (proj2 (c_small _ _ _ Hc _ (in_view d i x H)))). Qed.
Lemma single_ins : single ins. Proof. exact (c_lists _ _ _ Hc). Qed.
Lemma w0_owns o i : nth_error w0 o = Some (Some i) -> exists x, nth_error ins i = Some x /\ offset x = o /\ owns x = true.
Proof. apply (proj2 (index_owners_spec ins)). Qed.
(** If there are corners every offset that is used has an owner. *)
Lemma w0_covers : 0 < T -> covers w0 (fun o => exists a, In a P /\ offset (fst a) = o).
Proof.
  intro HT. eapply covers_iff; [|exact (proj1 (index_owners_spec ins))]. intro o. split.
  - intros (i & x & Hx & Ho & _). assert (Li : i < length (sets d)) by (rewrite lengths; apply nth_error_Some; congruence).
    destruct (nth_error (sets d) i) as [st|] eqn:Es; [|apply nth_error_None in Es; lia].
    exists (x, st). split; [|exact Ho]. apply nth_error_In with (n := i). apply nth_error_pair; auto.
  - intros ((x & st) & Ha & Ho). apply In_nth_error in Ha. destruct Ha as (i & Hi). apply nth_combine in Hi. destruct Hi as (Hx & _). cbn [fst] in Ho.
    destruct (get_sees ins i x Hx) as [(k & z & K1 & K2 & K3 & K4)|(K1 & _)].
    + exists k, z. split; [exact K1|]. split; [congruence|exact K3].
    + pose proof (get_length i x Hx) as E. rewrite K1 in E. cbn in E. lia.
Qed.
Definition the_indices (o : nat) : list Z := column o (rows_of ins w0 (seq 0 T)).
Lemma column_row o i : nth_error w0 o = Some (Some i) -> forall n off, off + n <= length (get_indices ins i) ->
  column o (rows_of ins w0 (seq off n)) = firstn n (skipn off (get_indices ins i)).
Proof.
  intros Ho. induction n as [|n IH]; intros off H; [reflexivity|]. cbn [seq rows_of map column]. fold (rows_of ins w0 (seq (S off) n)).
  fold (column o (rows_of ins w0 (seq (S off) n))). rewrite IH by lia.
  assert (E : nth o (row ins w0 off) 0%Z = nth off (get_indices ins i) 0%Z).
  { unfold row. apply nth_error_nth. rewrite (map_nth_error _ _ _ Ho). reflexivity. }
  rewrite E. symmetry. apply firstn_step. lia.
Qed.
Lemma get_the i x : nth_error ins i = Some x -> get_indices ins i = the_indices (offset x).
Proof.
  intro Hx. unfold the_indices. destruct (Nat.eq_dec T 0) as [E|N].
  - rewrite E. cbn. pose proof (get_length i x Hx) as L. rewrite E in L. destruct (get_indices ins i); [reflexivity|discriminate].
  - assert (Hk : exists k, nth_error w0 (offset x) = Some (Some k)).
    { apply (proj1 (w0_covers ltac:(lia))). assert (Li : i < length (sets d)) by (rewrite lengths; apply nth_error_Some; congruence).
      destruct (nth_error (sets d) i) as [st|] eqn:Es; [|apply nth_error_None in Es; lia].
      exists (x, st). split; [|reflexivity]. apply nth_error_In with (n := i). apply nth_error_pair; auto. }
    destruct Hk as (k & Hk). destruct (w0_owns _ _ Hk) as (z & Hz & Zo & Zw).
    assert (Eg : get_indices ins i = get_indices ins k).
    { eapply sees_unique; [exact single_ins|apply get_sees; exact Hx|]. rewrite <- Zo. apply get_sees. exact Hz. }
    rewrite Eg. rewrite (column_row _ _ Hk) by (rewrite (get_length k z Hz); lia). cbn [skipn]. rewrite <- (get_length k z Hz). symmetry. apply firstn_all.
Qed.
Lemma view_d : view d = map (seen_of the_indices) (combine (frame ins) (sets d)).
Proof. apply view_frame; [exact lengths|]. intros i x H. apply get_the. exact H. Qed.

(** *** The state after the inputs *)
Variable t : prim.
Variable s : rstate.
Hypothesis Hi : inv m t (material d) P s.
Notation R := (rowners s).
Definition w2 : list (option nat) := if T =? 0 then map (fun _ => None) R else w0.
Definition fr : list (nat * nat) := frame (loaded_inputs m P).
Lemma HL : length R = length w2.
Proof.
  unfold w2. destruct (Nat.eqb_spec T 0) as [E|N]; [rewrite map_length; reflexivity|].
  apply (covers_same _ _ _ _ (i_cov _ _ _ _ _ Hi) (w0_covers ltac:(lia))). reflexivity.
Qed.
Lemma HR o i : nth_error R o = Some (Some i) -> exists k, nth_error fr i = Some (o, k).
Proof.
  intro H. destruct (i_own _ _ _ _ _ Hi o i H) as (x & Hx & E). exists (source x). unfold fr, frame. rewrite (map_nth_error _ _ _ Hx), E. reflexivity.
Qed.
Lemma fst_P : map fst P = ins.
Proof. apply fst_combine, lengths. Qed.
Lemma vertex_sources : map (fun a => source (fst a)) (filter (vx m) P) = vertex_srcs m.
Proof.
  rewrite <- (c_vertex _ _ _ Hc). rewrite <- fst_P at 2. rewrite filter_map, filter_map, map_map. reflexivity.
Qed.
Lemma some_vertex : exists a, In a P /\ vx m a = true /\ offset (fst a) = 0.
Proof.
  destruct Hm as (_ & _ & _ & Hne & _). rewrite <- vertex_sources in Hne. destruct (filter (vx m) P) as [|a l] eqn:E; [cbn in Hne; congruence|].
  assert (Ha : In a (filter (vx m) P)) by (rewrite E; left; reflexivity). apply filter_In in Ha. destruct Ha as (A1 & A2). exists a.
  split; [exact A1|]. split; [exact A2|]. destruct (all_good a A1) as (_ & _ & x & _ & G & _). auto.
Qed.
Lemma has_it : has_vertex s = true.
Proof. rewrite (i_has _ _ _ _ _ Hi). apply existsb_exists. destruct some_vertex as (a & A1 & A2 & _). eauto. Qed.
Lemma H0 : exists i, nth_error R 0 = Some (Some i).
Proof. apply (proj1 (i_cov _ _ _ _ _ Hi)). destruct some_vertex as (a & A1 & _ & A2). eauto. Qed.
Lemma Hfit fv : fv < T -> fits (row ins w2 fv).
Proof.
  intro H. unfold w2. destruct (Nat.eqb_spec T 0) as [E|N]; [lia|]. apply Forall_forall. intros v Hv. unfold row in Hv. apply in_map_iff in Hv.
  destruct Hv as ([i|] & <- & Ho); [|lia]. apply In_nth_error in Ho. destruct Ho as (o & Ho). destruct (w0_owns _ _ Ho) as (x & Hx & _).
  pose proof (get_fits i x Hx) as Hf. unfold fits in Hf. rewrite Forall_forall in Hf. apply Hf. apply nth_In. rewrite (get_length i x Hx). exact H.
Qed.
Lemma texts_same : map (map (txt ins w0)) (face_chunks 0 F) = map (map (txt ins w2)) (face_chunks 0 F).
Proof. unfold w2. destruct (Nat.eqb_spec T 0) as [E|N]; [apply face_chunks_none; exact E|reflexivity]. Qed.
Lemma loaded_bare x : In x (loaded_inputs m P) -> indices x = [].
Proof. unfold loaded_inputs. intro H. apply in_app_iff in H. destruct H as [H|H]; apply in_map_iff in H; destruct H as (y & <- & _); reflexivity. Qed.
Lemma start_single l : (forall x, In x l -> indices x = []) -> single (X := Z) l.
Proof. intros H i j x y Hx Hy _ W. apply nth_error_In in Hx. unfold owns in W. rewrite (H x Hx) in W. discriminate. Qed.
Lemma start cs hs : st ins w2 R fr 0 (PSet t cs hs (loaded_inputs m P)) (index_lists R).
Proof.
  constructor; cbn [pinputs].
  - reflexivity.
  - apply start_single. exact loaded_bare.
  - intros o i Ho. right. split; [reflexivity|]. intros k z Hk _. apply nth_error_In in Hk. unfold owns. rewrite (loaded_bare z Hk). reflexivity.
  - unfold index_lists. apply map_length.
  - intros o Ho. unfold index_lists. rewrite (map_nth_error _ _ _ Ho). reflexivity.
  - exists 0. intros o i Ho. exists []. unfold index_lists. rewrite (map_nth_error _ _ _ Ho). auto.
Qed.
Lemma frames : combine (frame ins) (sets d) = map (fun a => (offset (fst a), source (fst a), snd a)) P.
Proof. apply frame_combine. Qed.
Lemma combine_two {A B C D} (f : A -> C) (g : A -> D) (f1 : B -> C) (g1 : B -> D) : forall l k,
  combine (map f l ++ map f1 k) (map g l ++ map g1 k) = map (fun a => (f a, g a)) l ++ map (fun a => (f1 a, g1 a)) k.
Proof. induction l as [|a l IH]; intro k; cbn; [|f_equal; apply IH]. induction k as [|b k IHk]; cbn; [reflexivity|f_equal; apply IHk]. Qed.
(** The set that was read. *)
Lemma finish p1 all1 : st ins w2 R fr T p1 all1 -> ptype p1 = ptype (base d) -> pcounts p1 = pcounts (base d) -> pholes p1 = pholes (base d) ->
  same_set m d (DSet p1 (sets (rset s)) (material (rset s))).
Proof.
  intros [S1 S2 S3 S4 S5 S6] E1 E2 E3. rewrite (i_set _ _ _ _ _ Hi). cbn [sets material]. unfold same_set. cbn [base material].
  split; [exact E1|]. split; [exact E2|]. split; [exact E3|]. split; [reflexivity|].
  assert (Hlen : length (loaded_sets m P) = length (pinputs p1)).
  { assert (Hf : length (frame (pinputs p1)) = length fr) by (rewrite S1; reflexivity). unfold fr, frame in Hf. rewrite !map_length in Hf. rewrite Hf.
    unfold loaded_sets, loaded_inputs. rewrite !app_length, !map_length. reflexivity. }
  rewrite (view_frame (DSet p1 (loaded_sets m P) (material d)) the_indices Hlen).
  2:{ cbn [base]. intros i x Hx. apply (get_of_sees _ i x _ S2 Hx).
      assert (Hin : exists k, nth_error (loaded_inputs m P) i = Some k /\ offset k = offset x).
      { destruct (frame_nth (pinputs p1) (loaded_inputs m P) i x S1 Hx) as (y & ? & ? & _). eauto. }
      destruct Hin as (y & Hy & Hyx).
      assert (Ho : exists j, nth_error R (offset x) = Some (Some j)).
      { apply (proj1 (i_cov _ _ _ _ _ Hi)). rewrite <- Hyx. apply nth_error_In in Hy. unfold loaded_inputs in Hy. apply in_app_iff in Hy. destruct Hy as [Hy|Hy]; apply in_map_iff in Hy; destruct Hy as (a & <- & Ha).
        - destruct some_vertex as (b & B1 & _ & B2). exists b. auto.
        - exists a. unfold others in Ha. apply filter_In in Ha. split; [apply Ha|reflexivity]. }
      destruct Ho as (j & Hj). pose proof (S3 _ _ Hj) as Hs. unfold the_indices.
      replace (rows_of ins w0 (seq 0 T)) with (rows_of ins w2 (seq 0 T)); [exact Hs|].
      unfold w2. destruct (Nat.eqb_spec T 0) as [E|N]; [rewrite E|]; reflexivity. }
  cbn [base sets]. rewrite S1, view_d, frames. unfold fr, frame, loaded_inputs, loaded_sets. rewrite map_app, !map_map. cbn [bare offset source].
  rewrite combine_two, map_app, !map_map. rewrite !filter_map, !map_map. f_equal.
  - rewrite <- vertex_sources at 1. rewrite map_map. cbn [seen_of fst snd is_vertex s_source].
    apply map_ext_in. intros a Ha. apply filter_In in Ha. destruct Ha as (A1 & A2). destruct (all_good a A1) as (_ & _ & x & _ & G & _).
    unfold seen_of. cbn [fst snd s_source s_offset s_set s_indices]. rewrite (G A2). reflexivity.
Qed.
End Round.
