(** Lemmas about unique index buffers. *)
From Coq Require Import List Arith Bool NArith Lia.
From Verif Require Import PolyModel PolyProofs TriModel TriProps ReindexModel.
Import ListNotations.

(** *** The hash table *)
Lemma same_key_eq : forall a b, same_key a b = true <-> a = b.
Proof.
  induction a as [|x a IH]; intros [|y b]; cbn; try (split; [discriminate | discriminate]); [tauto|].
  rewrite andb_true_iff, Nat.eqb_eq, IH. split; [intros [-> ->] | intros E; injection E]; auto.
Qed.
Lemma lookup_store t : forall h items h', lookup (store t h items) h' = if N.eqb h h' then Some items else lookup t h'.
Proof.
  induction t as [|[k i] t IH]; intros h items h'; cbn.
  - reflexivity.
  - destruct (N.eqb_spec k h) as [->|N1]; cbn; [destruct (N.eqb_spec h h'); auto|].
    rewrite IH. destruct (N.eqb_spec k h') as [->|]; auto. destruct (N.eqb_spec h h'); congruence.
Qed.
Lemma find_match_app a : forall b key, find_match (a ++ b) key = match find_match a key with Some n => Some n | None => find_match b key end.
Proof. induction a as [|[k n] a IH]; intros b key; cbn; auto. destruct (same_key k key); auto. Qed.
Definition tfind (t : table) (key : list nat) : option nat := match lookup t (hash key) with Some items => find_match items key | None => None end.
(** The table behaves as one list of corners. *)
Lemma unique_step_spec t S total key : (forall k, tfind t k = find_match S k) ->
  match find_match S key with
  | Some n => unique_step t total key = (n, t, total)
  | None => exists t1, unique_step t total key = (total, t1, Datatypes.S total) /\ forall k, tfind t1 k = find_match (S ++ [(key, total)]) k
  end.
Proof.
  intro T. unfold unique_step. pose proof (T key) as Tk. unfold tfind in Tk. destruct (lookup t (hash key)) as [items|] eqn:L.
  - rewrite <- Tk. destruct (find_match items key) as [n|] eqn:F; auto. eexists. split; [reflexivity|]. intro k. rewrite find_match_app, <- T. unfold tfind. rewrite lookup_store.
    destruct (N.eqb_spec (hash key) (hash k)) as [E|E].
    + rewrite <- E, L, find_match_app. reflexivity.
    + cbn. destruct (same_key key k) eqn:K; [apply same_key_eq in K; congruence|]. destruct (lookup t (hash k)) as [it|]; auto. destruct (find_match it k); auto.
  - rewrite <- Tk. eexists. split; [reflexivity|]. intro k. rewrite find_match_app, <- T. unfold tfind. rewrite lookup_store.
    destruct (N.eqb_spec (hash key) (hash k)) as [E|E].
    + rewrite <- E, L. reflexivity.
    + cbn. destruct (same_key key k) eqn:K; [apply same_key_eq in K; congruence|]. destruct (lookup t (hash k)) as [it|]; auto. destruct (find_match it k); auto.
Qed.
Lemma find_match_combine K : forall t0 k n, find_match (combine K (seq t0 (length K))) k = Some n -> exists p, n = t0 + p /\ nth_error K p = Some k.
Proof.
  induction K as [|a K IH]; cbn; intros t0 k n H; [discriminate|]. destruct (same_key a k) eqn:E.
  - injection H as <-. exists 0. apply same_key_eq in E. subst. split; [lia | auto].
  - apply IH in H as (p & -> & N). exists (S p). split; [lia | auto].
Qed.
Lemma find_match_none K : forall (t0 : nat) k, find_match (combine K (seq t0 (length K))) k = None -> ~ In k K.
Proof.
  induction K as [|a K IH]; cbn; intros t0 k H; [tauto|]. destruct (same_key a k) eqn:E; [discriminate|]. intros [->|I]; [|now apply (IH (S t0) k)].
  assert (same_key k k = true) by now apply same_key_eq. congruence.
Qed.
Lemma combine_snoc {A} (K : list A) a t0 : combine K (seq t0 (length K)) ++ [(a, t0 + length K)] = combine (K ++ [a]) (seq t0 (length (K ++ [a]))).
Proof. rewrite app_length. cbn. revert t0. induction K as [|x K IH]; intro t0; cbn; [now rewrite Nat.add_0_r|]. f_equal. rewrite <- IH. do 3 f_equal. lia. Qed.
Lemma nth_error_app_some {A} (l r : list A) p a : nth_error l p = Some a -> nth_error (l ++ r) p = Some a.
Proof. intro H. rewrite nth_error_app1; auto. apply nth_error_Some. congruence. Qed.
Lemma NoDup_snoc {A} (l : list A) a : NoDup l -> ~ In a l -> NoDup (l ++ [a]).
Proof.
  intros N H. apply NoDup_rev in N. rewrite <- (rev_involutive (l ++ [a])). apply NoDup_rev. rewrite rev_app_distr. cbn. constructor; auto. now rewrite <- in_rev.
Qed.
Lemma unique_loop_spec t0 : forall keys K t, NoDup K -> (forall k, tfind t k = find_match (combine K (seq t0 (length K))) k) ->
  exists K', NoDup (K ++ K') /\ (forall k, In k K' -> In k keys) /\ snd (unique_loop t (t0 + length K) keys) = t0 + length (K ++ K') /\
    Forall2 (fun k n => exists p, n = t0 + p /\ nth_error (K ++ K') p = Some k) keys (fst (unique_loop t (t0 + length K) keys)).
Proof.
  induction keys as [|key keys IH]; intros K t N T; cbn [unique_loop].
  - exists []. rewrite app_nil_r. cbn. auto.
  - pose proof (unique_step_spec t _ (t0 + length K) key T) as St.
    destruct (find_match (combine K (seq t0 (length K))) key) as [n|] eqn:F.
    + rewrite St. destruct (IH K t N T) as (K' & N' & I' & L' & F'). exists K'.
      destruct (unique_loop t (t0 + length K) keys) as [out total2]. cbn [fst snd] in *. split; auto. split; [intros k Ik; right; auto|]. split; auto.
      constructor; auto. apply find_match_combine in F as (p & -> & Np). exists p. split; auto. now apply nth_error_app_some.
    + destruct St as (t1 & St & T1). rewrite St. apply find_match_none in F.
      assert (N1 : NoDup (K ++ [key])) by now apply NoDup_snoc.
      rewrite combine_snoc in T1. destruct (IH (K ++ [key]) t1 N1 T1) as (K' & N' & I' & L' & F').
      replace (t0 + length (K ++ [key])) with (S (t0 + length K)) in * by (rewrite app_length; cbn; lia). rewrite <- app_assoc in N', L', F'. exists (key :: K').
      destruct (unique_loop t1 (S (t0 + length K)) keys) as [out total2]. cbn [fst snd] in *. split; auto. split; [intros k [->|Ik]; [now left | right; auto]|]. split; auto.
      constructor; auto. exists (length K). split; auto. rewrite nth_error_app2, Nat.sub_diag by lia. reflexivity.
Qed.
Lemma Forall2_nth {A B} (P : A -> B -> Prop) l m : Forall2 P l m -> forall i a b, nth_error l i = Some a -> nth_error m i = Some b -> P a b.
Proof. induction 1; intros [|i] a b; cbn; intros E F; try discriminate; [congruence | eauto]. Qed.
Lemma Forall2_len {A B} (P : A -> B -> Prop) l m : Forall2 P l m -> length l = length m.
Proof. induction 1; cbn; auto. Qed.
(** One set: a new index per different corner, numbered without gap from the number of vertices so far. *)
Lemma unique_loop_props t0 keys out t1 : unique_loop [] t0 keys = (out, t1) ->
  length out = length keys /\ t0 <= t1 /\ (forall v, In v out <-> t0 <= v < t1) /\
  forall i j a b k l, nth_error out i = Some a -> nth_error out j = Some b -> nth_error keys i = Some k -> nth_error keys j = Some l -> (a = b <-> k = l).
Proof.
  intro E. destruct (unique_loop_spec t0 keys [] [] (NoDup_nil _)) as (K & N & I & L & F); [reflexivity|]. cbn in L, F, N. rewrite Nat.add_0_r, E in L, F. cbn in L, F. subst t1.
  assert (Len := Forall2_len _ _ _ F). split; [auto|]. split; [lia|]. split.
  - intro v. split.
    + intro Iv. apply In_nth_error in Iv as [i Ni]. assert (Hi : i < length keys) by (rewrite Len; apply nth_error_Some; congruence).
      destruct (nth_error keys i) as [k|] eqn:Nk; [|apply nth_error_None in Nk; lia]. destruct (Forall2_nth _ _ _ F i k v Nk Ni) as (p & -> & Np).
      assert (p < length K) by (apply nth_error_Some; congruence). lia.
    + intros [H1 H2]. destruct (nth_error K (v - t0)) as [k|] eqn:Np; [|apply nth_error_None in Np; lia].
      assert (Ik : In k keys) by (apply I; eapply nth_error_In; eauto). apply In_nth_error in Ik as [i Ni].
      assert (Hi : i < length out) by (rewrite <- Len; apply nth_error_Some; congruence).
      destruct (nth_error out i) as [w|] eqn:Nw; [|apply nth_error_None in Nw; lia]. destruct (Forall2_nth _ _ _ F i k w Ni Nw) as (q & -> & Nq).
      assert (q = v - t0) by (eapply NoDup_nth_error; eauto; [apply nth_error_Some; congruence | congruence]). subst q. apply nth_error_In in Nw. replace v with (t0 + (v - t0)) by lia. auto.
  - intros i j a b k l Na Nb Nk Nl. destruct (Forall2_nth _ _ _ F i k a Nk Na) as (p & -> & Np). destruct (Forall2_nth _ _ _ F j l b Nl Nb) as (q & -> & Nq). split.
    + intro Eq. assert (p = q) by lia. congruence.
    + intros ->. f_equal. eapply NoDup_nth_error; eauto; [apply nth_error_Some; congruence | congruence].
Qed.

(** *** Owners *)
Definition same_length (ins : list (input nat)) : Prop := forall x y, In x ins -> In y ins -> owns x = true -> owns y = true -> length (indices x) = length (indices y).
Lemma select_all ins : forall front, same_length ins -> (forall n x, front = Some n -> In x ins -> owns x = true -> n = length (indices x)) -> select_owners front ins = map (@indices nat) (filter owns ins).
Proof.
  induction ins as [|x ins IH]; intros front H F; cbn [select_owners filter]; auto.
  assert (H' : same_length ins) by (intros a b Ia Ib; apply H; now right).
  destruct (owns x) eqn:W; cbn [andb map].
  - assert (Ok : (match front with None => true | Some n => Nat.eqb n (length (indices x)) end) = true).
    { destruct front as [n|]; auto. apply Nat.eqb_eq. apply F; auto. now left. }
    rewrite Ok. f_equal. apply IH; auto. intros n y E Iy Wy. destruct front as [m|].
    + injection E as ->. apply (F n y); auto. now right.
    + injection E as <-. apply H; auto; [now left | now right].
  - apply IH; auto. intros n y E Iy Wy. apply (F n y); auto. now right.
Qed.
(** With equal lengths, the corner keys are compared by all lists the inputs see. *)
Lemma seen_is_owner (ins : list (input nat)) i : get_indices ins i <> [] -> In (get_indices ins i) (map (@indices nat) (filter owns ins)).
Proof.
  intro G. destruct (get_own ins i) as [H|(x & I & W & E)]; [congruence|]. rewrite E. apply in_map. apply filter_In. auto.
Qed.
Lemma owner_seen (ins : list (input nat)) x : In x ins -> owns x = true -> exists i, i < length ins /\ get_indices ins i = indices x.
Proof. intros I W. apply In_nth_error in I as [i N]. exists i. split; [apply nth_error_Some; congruence | now apply get_owner]. Qed.
Lemma corner_keys_props ins : same_length ins -> let keys := corner_keys (select_owners None ins) in
  (forall i, get_indices ins i <> [] -> length (get_indices ins i) = length keys) /\
  forall j k a b, nth_error keys j = Some a -> nth_error keys k = Some b ->
    (a = b <-> forall i, i < length ins -> nth_error (get_indices ins i) j = nth_error (get_indices ins i) k).
Proof.
  intros H keys. unfold keys. rewrite (select_all ins None H) by discriminate.
  assert (Len : forall l m, In l (map (@indices nat) (filter owns ins)) -> In m (map (@indices nat) (filter owns ins)) -> length l = length m).
  { intros l m Il Im. apply in_map_iff in Il as (x & <- & Ix). apply in_map_iff in Im as (y & <- & Iy). apply filter_In in Ix as [? ?], Iy as [? ?]. auto. }
  assert (Lk : forall l, In l (map (@indices nat) (filter owns ins)) -> length l = length (corner_keys (map (@indices nat) (filter owns ins)))).
  { intros l Il. unfold corner_keys. destruct (map (@indices nat) (filter owns ins)) as [|l0 r] eqn:E; [destruct Il|]. rewrite map_length, seq_length. apply Len; [exact Il | now left]. }
  split; [intros i G; apply Lk, seen_is_owner; auto|]. intros j k a b Nj Nk.
  assert (Hj : j < length (corner_keys (map (@indices nat) (filter owns ins)))) by (apply nth_error_Some; congruence).
  assert (Hk : k < length (corner_keys (map (@indices nat) (filter owns ins)))) by (apply nth_error_Some; congruence).
  assert (Key : forall q c, nth_error (corner_keys (map (@indices nat) (filter owns ins))) q = Some c -> c = map (fun l => nth q l 0) (map (@indices nat) (filter owns ins))).
  { intros q c Nq. unfold corner_keys in Nq. destruct (map (@indices nat) (filter owns ins)) as [|l0 r]; [destruct q; discriminate|]. rewrite nth_error_map in Nq.
    assert (Hq : q < length l0). { destruct (nth_error (seq 0 (length l0)) q) eqn:E; [|discriminate]. rewrite <- (seq_length (length l0) 0). apply nth_error_Some. congruence. }
    rewrite (nth_error_nth' (seq 0 (length l0)) 0) in Nq by now rewrite seq_length. rewrite seq_nth in Nq by auto. cbn [option_map Nat.add] in Nq. injection Nq as <-. reflexivity. }
  rewrite (Key j a Nj), (Key k b Nk). split.
  - intros E i Hi. destruct (get_indices ins i) as [|v w] eqn:G; [destruct j, k; reflexivity|]. rewrite <- G.
    assert (G' : get_indices ins i <> []) by (rewrite G; discriminate). apply seen_is_owner in G'. pose proof (Lk _ G') as Ll.
    rewrite (nth_error_nth' _ 0), (nth_error_nth' (get_indices ins i) 0) by lia. f_equal. rewrite map_ext_in_iff in E. apply E. exact G'.
  - intros E. apply map_ext_in. intros l Il. pose proof (Lk _ Il) as Ll. apply in_map_iff in Il as (x & <- & Ix). apply filter_In in Ix as [Ix W].
    destruct (owner_seen ins x Ix W) as (i & Hi & Gi). specialize (E i Hi). rewrite Gi in E.
    rewrite (nth_error_nth' _ 0), (nth_error_nth' (indices x) 0) in E by lia. congruence.
Qed.

(** *** All sets *)
Lemma unique_sets_length : forall ss t, length (fst (unique_sets t ss)) = length ss.
Proof.
  induction ss as [|s ss IH]; intro t; cbn; auto. destruct (unique_loop [] t _) as [out t1]. specialize (IH t1). destruct (unique_sets t1 ss) as [outs t2]. cbn in *. auto.
Qed.
Lemma unique_sets_props : forall ss t0 bs t1, unique_sets t0 ss = (bs, t1) ->
  t0 <= t1 /\ (forall v, t0 <= v < t1 <-> exists b, In b bs /\ In v b) /\
  (forall p q b c v, nth_error bs p = Some b -> nth_error bs q = Some c -> In v b -> In v c -> p = q) /\
  (forall p s b, nth_error ss p = Some s -> nth_error bs p = Some b -> exists t u, unique_loop [] t (corner_keys (select_owners None (pinputs s))) = (b, u)).
Proof.
  induction ss as [|s ss IH]; intros t0 bs t1 E; cbn in E.
  - injection E as <- <-. split; [lia|]. split; [|split].
    + intro v. split; [lia | intros (b & [] & _)].
    + intros [|p]; discriminate.
    + intros [|p]; discriminate.
  - destruct (unique_loop [] t0 (corner_keys (select_owners None (pinputs s)))) as [out u] eqn:El. destruct (unique_sets u ss) as [outs t2] eqn:Es. injection E as <- <-.
    destruct (unique_loop_props _ _ _ _ El) as (L & Hu & Iv & _). destruct (IH _ _ _ Es) as (H2 & Iv2 & D2 & P2). split; [lia|]. split; [|split].
    + intro v. split.
      * intros Hv. destruct (Nat.lt_ge_cases v u) as [Lt|Ge]; [exists out; split; [now left | apply Iv; lia]|]. destruct (proj1 (Iv2 v)) as (b & Ib & Ivb); [lia|]. exists b. split; auto. now right.
      * intros (b & [<-|Ib] & Ivb); [apply Iv in Ivb; lia|]. assert (u <= v < t2) by (apply Iv2; eauto). lia.
    + assert (D : forall q c v, nth_error outs q = Some c -> In v out -> In v c -> False).
      { intros q c v Nc I1 I2. apply Iv in I1. assert (u <= v < t2) by (apply Iv2; exists c; split; auto; eapply nth_error_In; eauto). lia. }
      intros [|p] [|q] b c v Nb Nc I1 I2; cbn in Nb, Nc; auto.
      * injection Nb as <-. exfalso. eauto.
      * injection Nc as <-. exfalso. eauto.
      * f_equal. eauto.
    + intros [|p] s' b Ns Nb; cbn in Ns, Nb; [injection Ns as <-; injection Nb as <-; eauto | eauto].
Qed.

(** *** The copied values *)
Definition write {A} (vs : list A) (buffer : list A) (e : nat * nat) : list A := match nth_error vs (snd e) with Some v => set_nth buffer (fst e) v | None => buffer end.
Lemma copy_values_writes {A} (vs : list A) : forall news olds buffer, copy_values vs news olds buffer = fold_left (write vs) (combine news olds) buffer.
Proof. induction news as [|n ns IH]; intros [|o os] buffer; cbn; auto. Qed.
Fixpoint events (d : nat) (ss : list (pset nat)) (bs : list (list nat)) : list (nat * nat) :=
  match ss, bs with
  | s :: r, b :: br => (match find_input (pinputs s) d with Some i => combine b (get_indices (pinputs s) i) | None => [] end) ++ events d r br
  | _, _ => []
  end.
Lemma copy_sets_writes {A} (vs : list A) d : forall ss bs buffer, copy_sets vs d ss bs buffer = fold_left (write vs) (events d ss bs) buffer.
Proof.
  induction ss as [|s ss IH]; intros [|b bs] buffer; cbn; auto. rewrite fold_left_app, IH. f_equal. destruct (find_input (pinputs s) d); auto. apply copy_values_writes.
Qed.
Lemma write_length {A} (vs : list A) : forall E buffer, length (fold_left (write vs) E buffer) = length buffer.
Proof. induction E as [|e E IH]; intro buffer; cbn; auto. rewrite IH. unfold write. destruct (nth_error vs (snd e)); auto. apply set_nth_length. Qed.
Lemma write_spec {A} (vs : list A) : forall E buffer n o v, (forall o', In (n, o') E -> o' = o) -> In (n, o) E -> n < length buffer -> nth_error vs o = Some v ->
  nth_error (fold_left (write vs) E buffer) n = Some v.
Proof.
  induction E as [|[n' o'] E IH] using rev_ind; intros buffer n o v U I L V; [destruct I|]. rewrite fold_left_app. cbn. unfold write at 1. cbn [fst snd].
  destruct (Nat.eq_dec n' n) as [->|Ne].
  - assert (o' = o) by (apply U; apply in_or_app; right; now left). subst o'. rewrite V. apply set_nth_same. now rewrite write_length.
  - assert (I' : In (n, o) E) by (apply in_app_iff in I as [I|[I|[]]]; [auto | congruence]).
    assert (U' : forall o'0, In (n, o'0) E -> o'0 = o) by (intros; apply U; apply in_or_app; now left).
    destruct (nth_error vs o'); [rewrite set_nth_other by auto|]; eapply IH; eauto.
Qed.
Lemma nth_error_combine {A B} (l : list A) : forall (m : list B) k a b, nth_error l k = Some a -> nth_error m k = Some b -> nth_error (combine l m) k = Some (a, b).
Proof. induction l as [|x l IH]; intros [|y m] [|k] a b; cbn; intros; try discriminate; [congruence | auto]. Qed.
Lemma in_combine_nth {A B} (l : list A) : forall (m : list B) a b, In (a, b) (combine l m) -> exists k, nth_error l k = Some a /\ nth_error m k = Some b.
Proof.
  induction l as [|x l IH]; intros [|y m] a b I; cbn in I; try destruct I as []. 
  - injection H as <- <-. exists 0. auto.
  - destruct (IH m a b H) as (k & ? & ?). exists (S k). auto.
Qed.
Lemma events_in d : forall ss bs n o, In (n, o) (events d ss bs) <-> exists p s b i k, nth_error ss p = Some s /\ nth_error bs p = Some b /\ find_input (pinputs s) d = Some i /\
  nth_error b k = Some n /\ nth_error (get_indices (pinputs s) i) k = Some o.
Proof.
  induction ss as [|s ss IH]; intros bs n o.
  - cbn. split; [intros [] | intros (p & s & b & i & k & H & _); destruct p; discriminate].
  - destruct bs as [|b bs].
    + cbn. split; [intros [] | intros (p & s' & b & i & k & _ & H & _); destruct p; discriminate].
    + cbn. rewrite in_app_iff, IH. split.
      * intros [I|(p & s' & b' & i & k & H)].
        -- destruct (find_input (pinputs s) d) as [i|] eqn:F; [|destruct I]. apply in_combine_nth in I as (k & A & B). exists 0, s, b, i, k. cbn. auto.
        -- exists (S p), s', b', i, k. exact H.
      * intros (p & s' & b' & i & k & Hs & Hb & F & A & B). destruct p as [|p]; cbn in Hs, Hb.
        -- injection Hs as ->. injection Hb as ->. left. rewrite F. eapply nth_error_In. eapply nth_error_combine; eauto.
        -- right. exists p, s', b', i, k. auto.
Qed.
Lemma map_sources_nth {A} (f : nat -> list A -> list A) : forall l d i, i < length l -> nth i (map_sources f d l) [] = f (d + i) (nth i l []).
Proof.
  induction l as [|x l IH]; intros d i H; cbn in H; [lia|]. destruct i as [|i]; cbn; [now rewrite Nat.add_0_r|]. rewrite IH by lia. now rewrite Nat.add_succ_r.
Qed.
Lemma map_sources_length {A} (f : nat -> list A -> list A) : forall l d, length (map_sources f d l) = length l.
Proof. induction l; intro d; cbn; auto. Qed.

(** *** Per-vertex sources *)
Lemma find_input_some : forall ins d i, find_input ins d = Some i -> exists x, nth_error ins i = Some x /\ source x = d.
Proof.
  induction ins as [|x ins IH]; cbn; intros d i H; [discriminate|]. destruct (Nat.eqb_spec (source x) d) as [E|E]; [injection H as <-; exists x; auto|].
  destruct (find_input ins d) as [j|] eqn:F; [|discriminate]. injection H as <-. exact (IH d j F).
Qed.
Lemma find_input_unique : forall ins d i x, NoDup (map source ins) -> nth_error ins i = Some x -> source x = d -> find_input ins d = Some i.
Proof.
  induction ins as [|y ins IH]; intros d [|i] x N Nx Sx; cbn in *; try discriminate.
  - injection Nx as ->. now rewrite Sx, Nat.eqb_refl.
  - inversion N as [|? ? N1 N2]; subst. destruct (Nat.eqb_spec (source y) (source x)) as [E|E].
    + exfalso. apply N1. rewrite E. apply (in_map source). eapply nth_error_In; eauto.
    + rewrite (IH (source x) i x); auto.
Qed.
Lemma to_vertex_keeps d ins e : In e (map source ins) -> In e (map source (to_vertex d ins)).
Proof.
  intro I. unfold to_vertex. rewrite map_app, in_app_iff. destruct (Nat.eq_dec e d) as [->|Ne]; [right; now left|]. left.
  destruct (find_input ins d) as [i|] eqn:F; auto. apply find_input_some in F as (x & Nx & Sx). unfold release_input. rewrite map_app, in_app_iff.
  rewrite <- (firstn_skipn i ins), map_app, in_app_iff in I. destruct I as [I|I]; auto. right.
  assert (E : skipn i ins = x :: skipn (S i) ins).
  { clear - Nx. revert i Nx. induction ins as [|y ins IH]; intros [|i] Nx; cbn in *; try discriminate; [now injection Nx as -> | now apply IH]. }
  rewrite E in I. destruct I as [I|I]; auto. congruence.
Qed.
Lemma skipn_S_incl {A} (l : list A) : forall i a, In a (skipn (S i) l) -> In a (skipn i l).
Proof. induction l as [|x l IH]; intros [|i] a I; auto; [now right | apply (IH i); exact I]. Qed.
Lemma to_vertex_adds d ins e : In e (map source (to_vertex d ins)) -> e = d \/ In e (map source ins).
Proof.
  unfold to_vertex. rewrite map_app, in_app_iff. intros [I|[I|[]]]; [|now left]. right. destruct (find_input ins d) as [i|]; auto. unfold release_input in I.
  rewrite map_app, in_app_iff in I. rewrite <- (firstn_skipn i ins), map_app, in_app_iff. destruct I as [I|I]; auto. right.
  apply in_map_iff in I as (y & <- & Iy). apply (in_map source). now apply skipn_S_incl.
Qed.
Lemma all_vertex_fold {A} (ds : list nat) : forall (m : mesh A), exists F,
  let m' := fold_left (fun m d => if existsb (Nat.eqb d) (vertex m) then m else AddVertexSource m d) ds m in
  sources m' = sources m /\ sets m' = map (on_inputs F) (sets m) /\
  (forall ins e, In e (map source ins) -> In e (map source (F ins))) /\ (forall ins e, In e (map source (F ins)) -> In e ds \/ In e (map source ins)) /\
  (forall d, In d (vertex m') <-> In d (vertex m) \/ In d ds).
Proof.
  induction ds as [|d ds IH]; intro m; cbn [fold_left].
  - exists (fun x => x). cbn. split; auto. split; [|split; [auto|split; [auto|tauto]]]. rewrite <- (map_id (sets m)) at 1. apply map_ext. intros [? ? ? ?]. reflexivity.
  - destruct (existsb (Nat.eqb d) (vertex m)) eqn:Ex.
    + destruct (IH m) as (F & A1 & A2 & A3 & A4 & A5). exists F. cbn in *. repeat split; auto.
      * intros ins e I. apply A4 in I as [|]; auto.
      * intro H. apply A5 in H. tauto.
      * intros [H|[<-|H]]; apply A5; auto. left. apply existsb_exists in Ex as (y & Iy & Ey). apply Nat.eqb_eq in Ey. now subst.
    + destruct (IH (AddVertexSource m d)) as (F & A1 & A2 & A3 & A4 & A5). exists (fun ins => F (to_vertex d ins)). cbn in *. repeat split.
      * rewrite A1. reflexivity.
      * rewrite A2, map_map. apply map_ext. intros [? ? ? ?]. reflexivity.
      * intros ins e I. apply A3. now apply to_vertex_keeps.
      * intros ins e I. apply A4 in I as [|I]; auto. apply to_vertex_adds in I as [->|]; auto.
      * intro H. apply A5 in H as [H|H]; auto. apply in_app_iff in H as [H|[H|[]]]; auto.
      * intros [H|[H|H]]; apply A5; auto; left; apply in_or_app; [now left | right; now left].
Qed.

(** *** Setting the new indices *)
Lemma first_owner_flags {X} (s t : list (input X)) o : length s = length t ->
  (forall i x y, nth_error s i = Some x -> nth_error t i = Some y -> offset x = offset y /\ (offset x = o -> owns x = owns y)) -> first_owner s o = first_owner t o.
Proof.
  revert t. induction s as [|x s IH]; intros [|y t] L H; cbn in *; try discriminate; auto.
  destruct (H 0 x y eq_refl eq_refl) as [H1 H2]. rewrite <- H1. rewrite (IH t) by (auto; intros i a b Na Nb; apply (H (S i)); auto).
  destruct (Nat.eqb_spec (offset x) o) as [E|E]; cbn; auto. now rewrite (H2 E).
Qed.
Lemma get_value {X} (s : list (input X)) i x b : b <> [] -> nth_error s i = Some x ->
  (get_indices s i = b <-> indices x = b \/ (indices x = [] /\ exists j y, first_owner s (offset x) = Some j /\ nth_error s j = Some y /\ indices y = b)).
Proof.
  intros Nb Nx. unfold get_indices, find_indices. rewrite Nx. unfold owns. destruct (indices x) as [|a r] eqn:Ix.
  - split.
    + destruct (first_owner s (offset x)) as [j|] eqn:F.
      * intro E. right. split; auto. destruct (first_owner_some _ _ _ F) as (y & Ny & _). rewrite Ny in E. exists j, y. auto.
      * rewrite Nx, Ix. intro. left. auto.
    + intros [E|[_ (j & y & F & Ny & E)]]; [congruence|]. now rewrite F, Ny.
  - rewrite Nx, Ix. split; [auto | intros [|[? _]]; [auto | discriminate]].
Qed.
Lemma set_get_same {X} (s : list (input X)) k b : b <> [] -> k < length s -> get_indices (set_indices s k b) k = b.
Proof.
  intros Nb Hk. destruct (nth_error s k) as [x|] eqn:Nx; [|apply nth_error_None in Nx; lia]. unfold set_indices, find_indices. rewrite Nx.
  assert (Self : get_indices (set_nth s k (Input (offset x) (source x) b)) k = b).
  { apply (get_value _ k (Input (offset x) (source x) b)); auto. now apply set_nth_same. }
  destruct (owns x) eqn:W; [rewrite Nx; exact Self|]. destruct (first_owner s (offset x)) as [j|] eqn:F; [|rewrite Nx; exact Self].
  destruct (first_owner_some _ _ _ F) as (y & Ny & Wy & Oy). rewrite Ny. destruct (Nat.eq_dec j k) as [->|Ne]; [congruence|].
  assert (Hj : j < length s) by (apply nth_error_Some; congruence).
  apply (get_value _ k x); auto; [now rewrite set_nth_other|]. right. split; [unfold owns in W; destruct (indices x); congruence|].
  exists j, (Input (offset y) (source y) b). split; [|split; [now apply set_nth_same | reflexivity]].
  rewrite <- F. apply first_owner_flags; [apply set_nth_length|]. intros i a c Na Nc. destruct (Nat.eq_dec j i) as [<-|Nj].
  - rewrite set_nth_same in Na by auto. injection Na as <-. assert (c = y) by congruence. subst. cbn. split; auto. intros _. rewrite Wy. unfold owns. cbn. destruct b; [congruence | auto].
  - rewrite set_nth_other in Na by auto. assert (a = c) by congruence. now subst.
Qed.
Lemma set_get_other {X} (s : list (input X)) k i b : b <> [] -> k < length s -> i < length s -> get_indices s i = b -> get_indices (set_indices s k b) i = b.
Proof.
  intros Nb Hk Hi G. destruct (nth_error s k) as [x|] eqn:Nx; [|apply nth_error_None in Nx; lia]. destruct (nth_error s i) as [z|] eqn:Nz; [|apply nth_error_None in Nz; lia].
  unfold set_indices. assert (Fi : exists j y, find_indices s k = Some j /\ nth_error s j = Some y /\ offset y = offset x /\ (owns y = true \/ (j = k /\ first_owner s (offset x) = None))).
  { unfold find_indices. rewrite Nx. destruct (owns x) eqn:W; [exists k, x; auto 10|]. destruct (first_owner s (offset x)) as [j|] eqn:F; [|exists k, x; auto 10].
    destruct (first_owner_some _ _ _ F) as (y & Ny & Wy & Oy). exists j, y. auto 10. }
  destruct Fi as (j & y & Fi & Ny & Oy & Cy). rewrite Fi, Ny. assert (Hj : j < length s) by (apply nth_error_Some; congruence).
  destruct (Nat.eq_dec j i) as [<-|Ne].
  - apply (get_value _ j (Input (offset y) (source y) b)); auto. now apply set_nth_same.
  - apply (get_value s i z b Nb Nz) in G. apply (get_value _ i z); auto; [now rewrite set_nth_other|]. destruct G as [G|[Gz (m & w & Fm & Nw & Iw)]]; [now left|]. right. split; auto.
    assert (Fl : first_owner (set_nth s j (Input (offset y) (source y) b)) (offset z) = Some m).
    { rewrite <- Fm. apply first_owner_flags; [apply set_nth_length|]. intros q a c Na Nc. destruct (Nat.eq_dec j q) as [<-|Nq].
      - rewrite set_nth_same in Na by auto. injection Na as <-. assert (c = y) by congruence. subst c. cbn. split; auto. intro Oz.
        destruct Cy as [Cy|[_ Cy]]; [rewrite Cy; unfold owns; cbn; destruct b; [congruence | auto]|]. rewrite <- Oy, Oz in Cy. congruence.
      - rewrite set_nth_other in Na by auto. assert (a = c) by congruence. now subst. }
    destruct (Nat.eq_dec j m) as [<-|Nm].
    + exists j, (Input (offset y) (source y) b). split; auto. split; [now apply set_nth_same | auto].
    + exists m, w. split; auto. split; auto. now rewrite set_nth_other.
Qed.
Lemma set_indices_frame {X} (s : list (input X)) k b : same_frame (set_indices s k b) s.
Proof.
  unfold set_indices. destruct (find_indices s k) as [j|]; [|split; auto]. destruct (nth_error s j) as [y|] eqn:Ny; [|split; auto]. exact (set_nth_frame s j y b Ny).
Qed.
Lemma frame_sources {X} (s t : list (input X)) : same_frame s t -> map source s = map source t.
Proof. intros [_ H]. exact H. Qed.
Lemma enforce_all {A} (srcs : list (list A)) b ins : b <> [] -> (forall d, In d (map source ins) -> nth d srcs [] <> []) ->
  map source (enforce srcs b ins) = map source ins /\ forall i, i < length ins -> get_indices (enforce srcs b ins) i = b.
Proof.
  intros Nb V.
  assert (G : forall n, n <= length ins -> let s := fold_left (fun s i => match nth_error s i with
                        | Some x => match nth (source x) srcs [], b with [], _ => s | _, [] => s | _, _ => set_indices s i b end
                        | None => s end) (seq 0 n) ins in same_frame s ins /\ forall i, i < n -> get_indices s i = b).
  { induction n as [|n IH]; intro L; [cbn; split; [split; auto | intros; lia]|].
    destruct IH as [Fr IH]; [lia|]. rewrite seq_S, fold_left_app. cbn [fold_left Nat.add].
    set (s := fold_left _ (seq 0 n) ins) in *. assert (Ls := frame_length _ _ Fr). assert (Hn : n < length s) by lia.
    destruct (nth_error s n) as [x|] eqn:Nx; [|apply nth_error_None in Nx; lia].
    assert (Vx : nth (source x) srcs [] <> []). { apply V. rewrite <- (frame_sources _ _ Fr). apply (in_map source). eapply nth_error_In; eauto. }
    destruct (nth (source x) srcs []) as [|v w]; [congruence|]. destruct b as [|b0 b']; [congruence|].
    assert (Fr1 := set_indices_frame s n (b0 :: b')). split; [destruct Fr, Fr1; split; congruence|].
    intros i Hi. destruct (Nat.eq_dec i n) as [->|]; [apply set_get_same; auto|]. apply set_get_other; auto; [lia|]. apply IH. lia. }
  destruct (G (length ins) (le_n _)) as [Fr H]. fold (enforce srcs b ins) in Fr, H. split; [apply frame_sources; exact Fr | exact H].
Qed.
Lemma enforce_sets_nth {A} (srcs : list (list A)) : forall ss bs p s b, nth_error ss p = Some s -> nth_error bs p = Some b -> nth_error (enforce_sets srcs ss bs) p = Some (on_inputs (enforce srcs b) s).
Proof. induction ss as [|s ss IH]; intros [|b bs] [|p] s' b' Hs Hb; cbn in *; try discriminate; [congruence | eauto]. Qed.
Lemma enforce_sets_length {A} (srcs : list (list A)) : forall ss bs, length ss = length bs -> length (enforce_sets srcs ss bs) = length ss.
Proof. induction ss as [|s ss IH]; intros [|b bs] H; cbn in *; try discriminate; auto. Qed.
Lemma enforce_nil {A} (srcs : list (list A)) ins : enforce srcs [] ins = ins.
Proof.
  unfold enforce. generalize (seq 0 (length ins)). intro l. revert ins. induction l as [|i l IH]; intro t0; cbn [fold_left]; auto.
  destruct (nth_error t0 i) as [x|]; [destruct (nth (source x) srcs [])|]; apply IH.
Qed.
