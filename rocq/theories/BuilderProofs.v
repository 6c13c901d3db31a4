(** Lemmas about the string builder. *)
From Coq Require Import List ZArith Bool Arith Lia.
From Verif Require Import BuilderModel BuilderSpec.
Import ListNotations.

(** *** Cells *)
Lemma put_same : forall A (f : nat -> A) i x, put f i x i = x.
Proof. intros. unfold put. now rewrite Nat.eqb_refl. Qed.
Lemma put_other : forall A (f : nat -> A) i x j, j <> i -> put f i x j = f j.
Proof. intros. unfold put. now rewrite (proj2 (Nat.eqb_neq j i)). Qed.

Lemma set_nth_mid : forall A (pre : list A) x post c, set_nth (pre ++ x :: post) (length pre) c = pre ++ c :: post.
Proof. induction pre; intros; cbn; f_equal; auto. Qed.

Lemma set_cells_spec : forall cs mid m a pre post, m a = Some (pre ++ mid ++ post) -> length mid = length cs ->
  exists m', set_cells m (Some a) (length pre) cs = Some m' /\ m' a = Some (pre ++ cs ++ post) /\
    forall x, x <> a -> m' x = m x.
Proof.
  induction cs as [|c cs IH]; intros mid m a pre post Hm Hl.
  - destruct mid; [|discriminate]. exists m. auto.
  - destruct mid as [|x mid]; [discriminate|]. cbn [set_cells set_cell]. rewrite Hm.
    rewrite (proj2 (Nat.ltb_lt _ _)) by (rewrite app_length; cbn; lia).
    cbn [app] in *. rewrite set_nth_mid.
    destruct (IH mid (put m a (Some (pre ++ c :: mid ++ post))) a (pre ++ [c]) post) as (m' & E & H1 & H2).
    + rewrite put_same. rewrite <- app_assoc. reflexivity.
    + cbn in Hl. lia.
    + rewrite app_length in E. cbn [length] in E. rewrite Nat.add_1_r in E. exists m'. split; [exact E|]. split.
      * rewrite H1. rewrite <- app_assoc. reflexivity.
      * intros y Hy. rewrite H2 by auto. now apply put_other.
Qed.

(** *** Builders that hold a text *)
Definition holds (m : heap) (fr : nat) (b : builder) (t : list Z) : Prop :=
  match buffer b with
  | None => size b = 0 /\ reserved b = 0 /\ t = []
  | Some a => a < fr /\ exists rest, m a = Some (map Some t ++ rest) /\ length t = size b /\
                length t + length rest = reserved b
  end.
Definition good (s : state) (t : list Z) : Prop :=
  let '(m, fr, b) := s in holds m fr b t /\ forall a, fr <= a -> m a = None.
(** What an operation may change: its own block, or fresh ones; no block is lost. *)
Definition trans (s s' : state) : Prop :=
  let '(m, fr, b) := s in
  let '(m', fr', b') := s' in
  fr <= fr' /\ (forall a, a < fr -> buffer b <> Some a -> m' a = m a) /\
  (buffer b' = buffer b \/ buffer b' = None \/ exists a, buffer b' = Some a /\ fr <= a) /\
  (forall a, m' a <> None -> buffer b' = Some a \/ (a < fr /\ buffer b <> Some a)).

Lemma opt_dec : forall (p : option nat) a, p = Some a \/ p <> Some a.
Proof.
  intros [x|] a; [|right; discriminate]. destruct (Nat.eq_dec x a) as [E|E]; [left|right]; congruence.
Qed.

Lemma trans_refl : forall s t, good s t -> trans s s.
Proof.
  intros ((m, fr), b) t (Hh & Hf). repeat split; auto. intros a Ha.
  destruct (opt_dec (buffer b) a); auto. right. split; auto.
  destruct (le_lt_dec fr a) as [H0|H0]; auto. apply Hf in H0. contradiction.
Qed.
Lemma trans_trans : forall s1 s2 s3, trans s1 s2 -> trans s2 s3 -> trans s1 s3.
Proof.
  intros ((m1, f1), b1) ((m2, f2), b2) ((m3, f3), b3) (A1 & A2 & A3 & A4) (B1 & B2 & B3 & B4).
  assert (K : forall a, a < f1 -> buffer b1 <> Some a -> buffer b2 <> Some a).
  { intros a Ha Hb. destruct A3 as [E|[E|(x & E & Hx)]]; rewrite E; try congruence.
    intro. injection H as ->. lia. }
  repeat split.
  - lia.
  - intros a Ha Hb. rewrite B2; auto. lia.
  - destruct B3 as [E|[E|(x & E & Hx)]].
    + rewrite E. exact A3.
    + auto.
    + right; right. exists x. split; auto. lia.
  - intros a Ha. destruct (B4 a Ha) as [|(C1 & C2)]; auto. right.
    rewrite B2 in Ha by auto. destruct (A4 a Ha); auto. contradiction.
Qed.

Lemma app_split_at : forall A (l : list A) n, n <= length l -> exists a b, l = a ++ b /\ length a = n.
Proof.
  intros A l n H. exists (firstn n l), (skipn n l). split; [symmetry; apply firstn_skipn|].
  rewrite firstn_length. lia.
Qed.

(** Moving the first [n] cells to a new block. *)
Lemma realloc_spec : forall m fr b t n k, good (m, fr, b) t -> k = min (size b) n -> 0 < n ->
  exists m2 m3, match get_cells (put m fr (Some (repeat None n))) (buffer b) k with
           | None => None
           | Some cs => set_cells (put m fr (Some (repeat None n))) (Some fr) 0 cs
           end = Some m2 /\
    delete_array m2 (buffer b) = Some m3 /\
    good (m3, S fr, {| buffer := Some fr; size := k; reserved := n |}) (firstn n t) /\
    trans (m, fr, b) (m3, S fr, {| buffer := Some fr; size := k; reserved := n |}).
Proof.
  intros m fr b t n k (Hh & Hf) Hk Hn.
  set (m1 := put m fr (Some (repeat None n))).
  assert (Hg : get_cells m1 (buffer b) k = Some (map Some (firstn n t)) /\ length (firstn n t) = k).
  { unfold holds in Hh. destruct (buffer b) as [a|].
    - destruct Hh as (Ha & rest & Hm & Hl & Hr).
      assert (Hfl : length (firstn n t) = k) by (rewrite firstn_length; lia).
      split; auto. unfold get_cells. destruct (Nat.eqb_spec k 0) as [E|E].
      + rewrite E in Hfl. destruct (firstn n t); [reflexivity|discriminate].
      + unfold m1. rewrite put_other by lia. rewrite Hm.
        rewrite (proj2 (Nat.leb_le _ _)) by (rewrite app_length, map_length; lia).
        f_equal. rewrite firstn_app, map_length. replace (k - length t) with 0 by lia.
        rewrite firstn_O, app_nil_r. rewrite firstn_map. f_equal.
        destruct (le_lt_dec (length t) n) as [H|H].
        * rewrite !firstn_all2 by lia. reflexivity.
        * f_equal. lia.
    - destruct Hh as (H1 & H2 & ->). rewrite H1 in Hk. cbn in Hk. subst k. rewrite firstn_nil. auto. }
  destruct Hg as (Hg & Hlen). rewrite Hg.
  destruct (app_split_at cell (repeat None n) k) as (u & v & Euv & Hu).
  { rewrite repeat_length. lia. }
  destruct (set_cells_spec (map Some (firstn n t)) u m1 fr [] v) as (m2 & E2 & H2a & H2o).
  { unfold m1. rewrite put_same. cbn. now rewrite Euv. }
  { rewrite map_length. lia. }
  cbn [length app] in *. rewrite E2. exists m2.
  assert (Hd : exists m3, delete_array m2 (buffer b) = Some m3 /\ m3 fr = m2 fr /\
    (forall x, x <> fr -> buffer b <> Some x -> m3 x = m x) /\ (forall x, buffer b = Some x -> m3 x = None)).
  { unfold delete_array. unfold holds in Hh. destruct (buffer b) as [a|].
    - destruct Hh as (Ha & rest & Hm & Hl & Hr). rewrite H2o by lia. unfold m1 at 1. rewrite put_other by lia.
      rewrite Hm. eexists. split; [reflexivity|]. split; [now rewrite put_other by lia|]. split.
      + intros x Hx Hxa. rewrite put_other by congruence. rewrite H2o by auto. unfold m1. now apply put_other.
      + intros x Hx. injection Hx as ->. apply put_same.
    - exists m2. repeat split; auto; try discriminate. intros x Hx _. rewrite H2o by auto. unfold m1.
      now apply put_other. }
  destruct Hd as (m3 & E3 & H3a & H3b & H3c). exists m3. split; [reflexivity|]. split; [exact E3|].
  assert (Hlenv : k + length v = n).
  { rewrite <- Hu. rewrite <- app_length, <- Euv. apply repeat_length. }
  assert (Hbf : forall x, fr <= x -> buffer b <> Some x).
  { intros x Hx E. unfold holds in Hh. rewrite E in Hh. destruct Hh. lia. }
  split; [split|].
  - unfold holds. cbn [buffer size reserved]. split; [lia|]. exists v. rewrite H3a, H2a. split; auto.
    rewrite Hlen. auto.
  - intros x Hx. rewrite H3b; auto; try lia. apply Hf. lia. apply Hbf. lia.
  - cbn [trans buffer]. split; [lia|]. split; [|split].
    + intros x Hx Hxb. apply H3b; auto. lia.
    + right; right. exists fr. auto.
    + intros x Hx. destruct (Nat.eq_dec fr x) as [->|N]; auto. right.
      destruct (opt_dec (buffer b) x) as [E|E]; [rewrite H3c in Hx by auto; congruence|].
      split; auto. rewrite H3b in Hx by auto. destruct (le_lt_dec fr x) as [H0|H0]; auto.
      apply Hf in H0. contradiction.
Qed.

Lemma holds_size : forall m fr b t, holds m fr b t -> size b = length t /\ length t <= reserved b.
Proof.
  intros m fr b t H. unfold holds in H. destruct (buffer b).
  - destruct H as (_ & rest & _ & H1 & H2). lia.
  - destruct H as (H1 & H2 & ->). cbn. lia.
Qed.

Lemma reserve_spec : forall n m fr b t, good (m, fr, b) t -> exists m' fr' b',
  reserve n (m, fr, b) = Some (m', fr', b') /\ good (m', fr', b') (firstn n t) /\
  trans (m, fr, b) (m', fr', b') /\ reserved b' = n.
Proof.
  intros n m fr b t Hg. pose proof (holds_size _ _ _ _ (proj1 Hg)) as (Hs & Hr).
  unfold reserve. destruct (Nat.ltb_spec (reserved b) n) as [H|H].
  - destruct (realloc_spec m fr b t n (size b) Hg) as (m2 & m3 & E2 & E3 & G & T); [lia|lia|].
    destruct (get_cells (put m fr (Some (repeat None n))) (buffer b) (size b)) as [cs|]; [|discriminate].
    rewrite E2, E3. eauto 10.
  - destruct (Nat.eqb_spec n 0) as [E|E].
    + subst n. destruct Hg as (Hh & Hf). unfold delete_array. unfold holds in Hh.
      destruct (buffer b) as [a|] eqn:Eb.
      * destruct Hh as (Ha & rest & Hm & Hl & Hrr). rewrite Hm. do 3 eexists. split; [reflexivity|].
        split; [split|split]; auto.
        -- cbn. auto.
        -- intros x Hx. rewrite put_other by lia. now apply Hf.
        -- cbn [trans buffer]. rewrite Eb. split; [lia|]. split; [|split]; auto.
           ++ intros x Hx Hxb. apply put_other. congruence.
           ++ intros x Hx. right. destruct (Nat.eq_dec x a) as [->|N]; [rewrite put_same in Hx; congruence|].
              rewrite put_other in Hx by auto. split; [|congruence].
              destruct (le_lt_dec fr x) as [H0|H0]; auto. apply Hf in H0. contradiction.
      * do 3 eexists. split; [reflexivity|]. split; [split|split]; auto.
        -- cbn. auto.
        -- cbn [trans buffer]. rewrite Eb. repeat split; auto; try lia. intros x Hx. right. split; [|discriminate].
           destruct (le_lt_dec fr x) as [H0|H0]; auto. apply Hf in H0. contradiction.
    + destruct (Nat.ltb_spec n (reserved b)) as [H1|H1].
      * destruct (realloc_spec m fr b t n (min (size b) n) Hg) as (m2 & m3 & E2 & E3 & G & T); [lia|lia|].
        destruct (get_cells (put m fr (Some (repeat None n))) (buffer b) (min (size b) n)) as [cs|]; [|discriminate].
        rewrite E2, E3. eauto 10.
      * do 3 eexists. split; [reflexivity|]. rewrite firstn_all2 by lia. split; auto. split; [|lia].
        eapply trans_refl; eauto.
Qed.

Lemma enlarge_spec : forall k m fr b t, good (m, fr, b) t -> exists m' fr' b',
  enlarge k (m, fr, b) = Some (m', fr', b') /\ good (m', fr', b') t /\
  trans (m, fr, b) (m', fr', b') /\ reserved b + k + 32 <= reserved b'.
Proof.
  intros k m fr b t Hg. pose proof (holds_size _ _ _ _ (proj1 Hg)) as (Hs & Hr).
  unfold enlarge. set (n := max (reserved b + k + 32) (2 * reserved b + 32)).
  destruct (reserve_spec n m fr b t Hg) as (m' & fr' & b' & E & G & T & R). rewrite firstn_all2 in G by lia.
  exists m', fr', b'. split; [exact E|]. split; [exact G|]. split; [exact T|]. lia.
Qed.

(** Writing behind the text. *)
Lemma push_cells_spec : forall u m fr b t, good (m, fr, b) t -> size b + length u <= reserved b ->
  exists m', push_cells (map Some u) (m, fr, b) = Some (m', fr, {| buffer := buffer b; size := size b + length u; reserved := reserved b |}) /\
  good (m', fr, {| buffer := buffer b; size := size b + length u; reserved := reserved b |}) (t ++ u) /\
  trans (m, fr, b) (m', fr, {| buffer := buffer b; size := size b + length u; reserved := reserved b |}).
Proof.
  intros u m fr b t Hg Hl. pose proof Hg as (Hh & Hf). unfold push_cells. rewrite map_length.
  unfold holds in Hh. destruct (buffer b) as [a|] eqn:Eb.
  - destruct Hh as (Ha & rest & Hm & Hlt & Hr).
    destruct (app_split_at _ rest (length u)) as (x & y & Exy & Hx); [lia|].
    destruct (set_cells_spec (map Some u) x m a (map Some t) y) as (m' & E & H1 & H2).
    { now rewrite Hm, Exy. }
    { rewrite map_length. auto. }
    rewrite map_length, Hlt in E. rewrite E. exists m'. split; [reflexivity|]. split; [split|].
    + unfold holds. cbn [buffer size reserved]. split; auto. exists y. rewrite H1, map_app, <- app_assoc.
      split; auto. rewrite app_length. subst rest. rewrite app_length in Hr. lia.
    + intros z Hz. rewrite H2 by lia. auto.
    + cbn [trans buffer]. rewrite Eb. split; auto. split; [|split; auto].
      * intros z Hz Hza. apply H2. congruence.
      * intros z Hz. destruct (Nat.eq_dec a z) as [->|N]; auto. right. rewrite H2 in Hz by auto.
        split; [|congruence]. destruct (le_lt_dec fr z) as [H0|H0]; auto. apply Hf in H0. contradiction.
  - destruct Hh as (H1 & H2 & ->). assert (u = []) by (destruct u; [auto|cbn in Hl; lia]). subst u.
    cbn [map set_cells length app]. rewrite Nat.add_0_r. exists m. split; [reflexivity|]. split; [split|].
    + unfold holds. cbn. auto.
    + auto.
    + pose proof (trans_refl _ _ Hg) as T. cbn [trans] in *. cbn [buffer]. rewrite Eb in *. exact T.
Qed.

Lemma push_spec : forall c m fr b t, good (m, fr, b) t -> size b < reserved b -> exists m',
  push c (m, fr, b) = Some (m', fr, {| buffer := buffer b; size := S (size b); reserved := reserved b |}) /\
  good (m', fr, {| buffer := buffer b; size := S (size b); reserved := reserved b |}) (t ++ [c]) /\
  trans (m, fr, b) (m', fr, {| buffer := buffer b; size := S (size b); reserved := reserved b |}).
Proof.
  intros c m fr b t Hg Hl. destruct (push_cells_spec [c] m fr b t Hg) as (m' & E & G & T); auto.
  { cbn. lia. }
  cbn [length] in *. rewrite Nat.add_1_r in *. exists m'. split; auto.
  unfold push_cells in E. cbn [map set_cells length] in E. rewrite Nat.add_1_r in E. unfold push.
  destruct (set_cell m (buffer b) (size b) (Some c)); auto.
Qed.

Definition does (f : state -> option state) (s : state) (t' : list Z) : Prop :=
  exists s', f s = Some s' /\ good s' t' /\ trans s s'.

Lemma append_char_spec : forall c s t, good s t -> does (append_char c) s (t ++ [c]).
Proof.
  intros c ((m, fr), b) t Hg. unfold does, append_char.
  destruct (Nat.leb_spec (reserved b) (size b + 1)) as [H|H].
  - destruct (enlarge_spec 2 m fr b t Hg) as (m1 & f1 & b1 & E & G & T & R). rewrite E.
    pose proof (holds_size _ _ _ _ (proj1 G)) as (Hs & _). pose proof (holds_size _ _ _ _ (proj1 Hg)) as (Hs0 & Hr0).
    destruct (push_spec c m1 f1 b1 t G) as (m2 & E2 & G2 & T2); [lia|]. rewrite E2. eexists. split; [reflexivity|].
    split; auto. eapply trans_trans; eauto.
  - destruct (push_spec c m fr b t Hg) as (m2 & E2 & G2 & T2); [lia|]. rewrite E2. eauto.
Qed.

Lemma append_text_spec : forall u s t, good s t -> does (append_text u) s (t ++ u).
Proof.
  induction u as [|c u IH]; intros s t Hg.
  - exists s. rewrite app_nil_r. split; [reflexivity|]. split; auto. eapply trans_refl; eauto.
  - destruct s as ((m, fr), b). unfold does. cbn [append_text].
    assert (Hpush : exists s1, match (if reserved b <=? size b then enlarge 64 (m, fr, b) else @Some state (m, fr, b)) with
        | Some s => push c s | None => None end = Some s1 /\ good s1 (t ++ [c]) /\ trans (m, fr, b) s1).
    { destruct (Nat.leb_spec (reserved b) (size b)) as [H|H].
      - destruct (enlarge_spec 64 m fr b t Hg) as (m1 & f1 & b1 & E & G & T & R). rewrite E.
        pose proof (holds_size _ _ _ _ (proj1 G)) as (Hs & _). pose proof (holds_size _ _ _ _ (proj1 Hg)) as (Hs0 & Hr0).
        destruct (push_spec c m1 f1 b1 t G) as (m2 & E2 & G2 & T2); [lia|]. rewrite E2. eexists. split; [reflexivity|].
        split; auto. eapply trans_trans; eauto.
      - destruct (push_spec c m fr b t Hg) as (m2 & E2 & G2 & T2); [lia|]. rewrite E2. eauto. }
    destruct Hpush as (s1 & E1 & G1 & T1).
    destruct (if reserved b <=? size b then enlarge 64 (m, fr, b) else @Some state (m, fr, b)) as [s0|]; [|discriminate].
    rewrite E1. destruct (IH s1 _ G1) as (s2 & E2 & G2 & T2). rewrite E2. exists s2. split; auto.
    rewrite <- app_assoc in G2. split; auto. eapply trans_trans; eauto.
Qed.

Lemma append_len_spec : forall u s t, good s t -> does (append_len u) s (t ++ u).
Proof.
  intros u ((m, fr), b) t Hg. unfold does, append_len.
  pose proof (holds_size _ _ _ _ (proj1 Hg)) as (Hs0 & Hr0).
  destruct (Nat.leb_spec (reserved b) (size b + length u)) as [H|H].
  - destruct (enlarge_spec (max 64 (size b + length u + 1)) m fr b t Hg) as (m1 & f1 & b1 & E & G & T & R). rewrite E.
    pose proof (holds_size _ _ _ _ (proj1 G)) as (Hs & _).
    destruct (push_cells_spec u m1 f1 b1 t G) as (m2 & E2 & G2 & T2); auto; [lia|]. rewrite E2. eexists.
    split; [reflexivity|]. split; auto. eapply trans_trans; eauto.
  - destruct (push_cells_spec u m fr b t Hg) as (m2 & E2 & G2 & T2); auto; [lia|]. rewrite E2. eauto.
Qed.

Lemma get_cells_text : forall m fr b t, holds m fr b t -> get_cells m (buffer b) (length t) = Some (map Some t).
Proof.
  intros m fr b t H. unfold holds in H. unfold get_cells. destruct (buffer b) as [a|].
  - destruct H as (_ & rest & Hm & Hl & Hr). destruct (Nat.eqb_spec (length t) 0) as [E|E].
    + destruct t; [reflexivity|discriminate].
    + rewrite Hm. rewrite (proj2 (Nat.leb_le _ _)) by (rewrite app_length, map_length; lia).
      rewrite firstn_app, map_length, Nat.sub_diag, firstn_O, app_nil_r.
      rewrite <- (map_length (@Some Z)). now rewrite firstn_all.
  - destruct H as (_ & _ & ->). reflexivity.
Qed.

Lemma append_self_spec : forall s t, good s t -> does (append_builder None) s (t ++ t).
Proof.
  intros ((m, fr), b) t Hg. unfold does, append_builder.
  pose proof (holds_size _ _ _ _ (proj1 Hg)) as (Hs0 & Hr0).
  destruct (Nat.leb_spec (reserved b) (size b + size b)) as [H|H].
  - destruct (enlarge_spec (64 + size b + size b - reserved b) m fr b t Hg) as (m1 & f1 & b1 & E & G & T & R). rewrite E.
    pose proof (holds_size _ _ _ _ (proj1 G)) as (Hs & _).
    rewrite Hs0. rewrite (get_cells_text m1 f1 b1 t (proj1 G)).
    destruct (push_cells_spec t m1 f1 b1 t G) as (m2 & E2 & G2 & T2); auto; [lia|]. rewrite E2. eexists.
    split; [reflexivity|]. split; auto. eapply trans_trans; eauto.
  - rewrite Hs0. rewrite (get_cells_text m fr b t (proj1 Hg)).
    destruct (push_cells_spec t m fr b t Hg) as (m2 & E2 & G2 & T2); auto; [lia|]. rewrite E2. eauto.
Qed.

Lemma holds_trans : forall m fr b m' fr' b' o u, trans (m, fr, b) (m', fr', b') -> holds m fr o u ->
  (forall a, buffer o = Some a -> buffer b <> Some a) -> holds m' fr' o u.
Proof.
  intros m fr b m' fr' b' o u (T1 & T2 & _) H Hd. unfold holds in *. destruct (buffer o) as [a|]; auto.
  destruct H as (Ha & rest & Hm & Hr). split; [lia|]. exists rest. rewrite T2 by auto. auto.
Qed.

Lemma append_other_spec : forall o u m fr b t, good (m, fr, b) t -> holds m fr o u ->
  (forall a, buffer o = Some a -> buffer b <> Some a) -> does (append_builder (Some o)) (m, fr, b) (t ++ u).
Proof.
  intros o u m fr b t Hg Ho Hd. unfold does, append_builder.
  pose proof (holds_size _ _ _ _ (proj1 Hg)) as (Hs0 & Hr0). pose proof (holds_size _ _ _ _ Ho) as (Ho0 & _).
  destruct (Nat.leb_spec (reserved b) (size b + size o)) as [H|H].
  - destruct (enlarge_spec (64 + size b + size o - reserved b) m fr b t Hg) as (m1 & f1 & b1 & E & G & T & R). rewrite E.
    pose proof (holds_size _ _ _ _ (proj1 G)) as (Hs & _).
    rewrite Ho0. rewrite (get_cells_text m1 f1 o u (holds_trans _ _ _ _ _ _ _ _ T Ho Hd)).
    destruct (push_cells_spec u m1 f1 b1 t G) as (m2 & E2 & G2 & T2); auto; [lia|]. rewrite E2. eexists.
    split; [reflexivity|]. split; auto. eapply trans_trans; eauto.
  - rewrite Ho0. rewrite (get_cells_text m fr o u Ho).
    destruct (push_cells_spec u m fr b t Hg) as (m2 & E2 & G2 & T2); auto; [lia|]. rewrite E2. eauto.
Qed.

Lemma append_line_spec : forall u s t, good s t -> does (append_line u) s (t ++ u ++ [10%Z]).
Proof.
  intros u s t Hg. unfold does, append_line. destruct (append_text_spec u s t Hg) as (s1 & E1 & G1 & T1). rewrite E1.
  destruct (append_char_spec 10 s1 _ G1) as (s2 & E2 & G2 & T2). exists s2. split; auto.
  rewrite app_assoc. split; auto. eapply trans_trans; eauto.
Qed.

Lemma append_fields_spec : forall ts s t, good s t -> does (append_fields ts) s (t ++ fields ts).
Proof.
  induction ts as [|u ts IH]; intros s t Hg.
  - exists s. cbn. rewrite app_nil_r. split; auto. split; auto. eapply trans_refl; eauto.
  - destruct ts as [|v ts]; [apply append_text_spec; auto|].
    unfold does. change (fields (u :: v :: ts)) with (u ++ [32%Z] ++ fields (v :: ts)).
    change (append_fields (u :: v :: ts) s) with (match append_text u s with
               | Some s => match append_char 32 s with Some s => append_fields (v :: ts) s | None => None end
               | None => None end).
    destruct (append_text_spec u s t Hg) as (s1 & E1 & G1 & T1). rewrite E1.
    destruct (append_char_spec 32 s1 _ G1) as (s2 & E2 & G2 & T2). rewrite E2.
    destruct (IH s2 _ G2) as (s3 & E3 & G3 & T3). exists s3. split; auto.
    rewrite <- !app_assoc in G3. split; auto. eapply trans_trans; [|eauto]. eapply trans_trans; eauto.
Qed.

Lemma get_cell_text : forall m fr b t i c, holds m fr b t -> nth_error t i = Some c ->
  get_cell m (buffer b) i = Some (Some c).
Proof.
  intros m fr b t i c H Hn. unfold holds in H. unfold get_cell. destruct (buffer b) as [a|].
  - destruct H as (_ & rest & Hm & Hl & Hr). rewrite Hm. rewrite nth_error_app1.
    + rewrite nth_error_map, Hn. reflexivity.
    + rewrite map_length. apply nth_error_Some. congruence.
  - destruct H as (_ & _ & ->). destruct i; discriminate.
Qed.

Lemma append_vector_spec : forall ts s t, good s t ->
  does (append_vector ts) s (match t with [] => fields ts | _ => t ++ [32%Z] ++ fields ts end).
Proof.
  intros ts ((m, fr), b) t Hg. unfold does, append_vector.
  pose proof (holds_size _ _ _ _ (proj1 Hg)) as (Hs & Hr). destruct t as [|c t].
  - rewrite Hs. cbn [length Nat.eqb]. apply (append_fields_spec ts _ _ Hg).
  - set (u := c :: t) in *. rewrite (proj2 (Nat.eqb_neq _ _)) by (rewrite Hs; cbn; lia).
    assert (Hb : exists d, back m b = Some d).
    { unfold back. rewrite (proj2 (Nat.ltb_lt _ _)) by (rewrite Hs; cbn; lia).
      destruct (nth_error u (size b - 1)) as [d|] eqn:E.
      - rewrite (get_cell_text m fr b u _ d (proj1 Hg) E). eauto.
      - apply nth_error_None in E. rewrite Hs in E. cbn in E. lia. }
    destruct Hb as (d & Eb). rewrite Eb.
    assert (Hsep : (negb (d =? 32) || negb (d =? 9) || negb (d =? 10) || negb (d =? 13))%Z = true).
    { destruct (Z.eqb_spec d 32) as [->|]; reflexivity. }
    rewrite Hsep. destruct (append_char_spec 32 (m, fr, b) u Hg) as (s1 & E1 & G1 & T1). rewrite E1.
    destruct (append_fields_spec ts s1 _ G1) as (s2 & E2 & G2 & T2). exists s2. split; auto.
    rewrite <- app_assoc in G2. split; auto. eapply trans_trans; eauto.
Qed.

(** *** Shortening *)
Lemma shorten_good : forall m fr b t n, good (m, fr, b) t -> n <= length t ->
  good (m, fr, {| buffer := buffer b; size := n; reserved := reserved b |}) (firstn n t) /\
  trans (m, fr, b) (m, fr, {| buffer := buffer b; size := n; reserved := reserved b |}).
Proof.
  intros m fr b t n Hg Hn. split.
  - destruct Hg as (Hh & Hf). split; auto. unfold holds in *. cbn [buffer size reserved].
    destruct (buffer b) as [a|].
    + destruct Hh as (Ha & rest & Hm & Hl & Hr). split; auto. exists (map Some (skipn n t) ++ rest).
      rewrite app_assoc, <- map_app, firstn_skipn. split; auto. rewrite firstn_length, app_length, map_length, skipn_length.
      lia.
    + destruct Hh as (H1 & H2 & ->). cbn in Hn. replace n with 0 by lia. auto.
  - exact (trans_refl _ _ Hg).
Qed.

Lemma clear_spec : forall s t, good s t -> does clear s [].
Proof.
  intros ((m, fr), b) t Hg. destruct (shorten_good m fr b t 0 Hg) as (G & T); [lia|].
  eexists. split; [reflexivity|]. auto.
Qed.
Lemma removelast_first : forall (t : list Z), removelast t = firstn (length t - 1) t.
Proof. intro t. rewrite removelast_firstn_len. f_equal. lia. Qed.
Lemma pop_back_spec : forall s t, good s t -> does pop_back s (removelast t).
Proof.
  intros ((m, fr), b) t Hg. pose proof (holds_size _ _ _ _ (proj1 Hg)) as (Hs & _).
  destruct (shorten_good m fr b t (size b - 1) Hg) as (G & T); [lia|].
  eexists. split; [reflexivity|]. rewrite removelast_first, <- Hs. auto.
Qed.

Lemma to_int32_id : forall n, (Z.of_nat n < 2147483648)%Z -> to_int32 n = Z.of_nat n.
Proof. intros n H. unfold to_int32. rewrite Z.mod_small; lia. Qed.

Lemma remove1_spec : forall z s t, good s t -> (Z.of_nat (length t) < 2147483648)%Z ->
  does (remove1 z) s (if ((0 <=? z) && (z <? Z.of_nat (length t)))%Z then firstn (Z.to_nat z) t else t).
Proof.
  intros z ((m, fr), b) t Hg Hl. pose proof (holds_size _ _ _ _ (proj1 Hg)) as (Hs & _).
  unfold does, remove1. rewrite Hs, to_int32_id by auto. rewrite andb_comm.
  destruct ((0 <=? z) && (z <? Z.of_nat (length t)))%Z eqn:E.
  - apply andb_true_iff in E as (E1 & E2). apply Z.leb_le in E1. apply Z.ltb_lt in E2.
    destruct (shorten_good m fr b t (Z.to_nat z) Hg) as (G & T); [lia|]. eauto.
  - eexists. split; [reflexivity|]. split; auto. eapply trans_refl; eauto.
Qed.

Lemma skipn_twice : forall A n i (l : list A), skipn n (skipn i l) = skipn (n + i) l.
Proof.
  intros A n i. induction i as [|i IH]; intro l; [now rewrite Nat.add_0_r|]. rewrite Nat.add_succ_r.
  destruct l as [|x l]; cbn [skipn]; [apply skipn_nil|apply IH].
Qed.

Lemma move_down_spec : forall t3 t2 m a t1 rest d, m a = Some (map Some t1 ++ map Some t2 ++ map Some t3 ++ rest) ->
  length t2 = d -> 0 < d ->
  exists m' rest', move_down (length t3) m (Some a) (length t1) d = Some m' /\
    m' a = Some (map Some t1 ++ map Some t3 ++ rest') /\ length rest' = d + length rest /\
    forall x, x <> a -> m' x = m x.
Proof.
  induction t3 as [|c t3 IH]; intros t2 m a t1 rest d Hm Hd Hp.
  - exists m, (map Some t2 ++ rest). cbn [length move_down map app] in *. split; auto. split; auto.
    split; auto. rewrite app_length, map_length. lia.
  - cbn [length move_down]. cbn [get_cell set_cell]. rewrite Hm.
    assert (Hn : nth_error (map Some t1 ++ map Some t2 ++ map Some (c :: t3) ++ rest) (length t1 + d) = Some (Some c)).
    { rewrite nth_error_app2 by (rewrite map_length; lia). rewrite map_length.
      rewrite nth_error_app2 by (rewrite map_length; lia). rewrite map_length.
      replace (length t1 + d - length t1 - length t2) with 0 by lia. reflexivity. }
    match goal with |- context [@nth_error ?A ?l ?i] => replace (@nth_error A l i) with (Some (Some c)) by (symmetry; exact Hn) end.
    rewrite (proj2 (Nat.ltb_lt _ _)) by (rewrite !app_length, !map_length; cbn [length]; lia).
    destruct t2 as [|e t2]; [cbn in Hd; lia|]. cbn [map app].
    match goal with |- context [set_nth ?l ?n ?x] =>
      replace (set_nth l n x) with (map Some t1 ++ Some c :: map Some t2 ++ Some c :: map Some t3 ++ rest)
        by (rewrite <- (map_length (@Some Z) t1); symmetry; exact (set_nth_mid cell _ _ _ _)) end.
    destruct (IH (t2 ++ [c]) (put m a (Some (map Some t1 ++ Some c :: map Some t2 ++ Some c :: map Some t3 ++ rest))) a
      (t1 ++ [c]) rest d) as (m' & rest' & E & H1 & H2 & H3); auto.
    + rewrite put_same. f_equal. rewrite !map_app, <- !app_assoc. reflexivity.
    + rewrite app_length. cbn in *. lia.
    + rewrite app_length in E. cbn [length] in E. rewrite Nat.add_1_r in E. exists m', rest'. split; [exact E|].
      split; [rewrite H1; rewrite map_app, <- app_assoc; reflexivity|]. split; auto.
      intros x Hx. rewrite H3 by auto. now apply put_other.
Qed.

Lemma remove2_spec : forall y z s t, good s t -> (Z.of_nat (length t) < 2147483648)%Z ->
  (-2147483648 <= z - y <= 2147483647)%Z ->
  does (remove2 y z) s (if ((0 <=? y) && (y <? z) && (z <=? Z.of_nat (length t)))%Z
    then firstn (Z.to_nat y) t ++ skipn (Z.to_nat z) t else t).
Proof.
  intros y z ((m, fr), b) t Hg Hl Hd. pose proof (holds_size _ _ _ _ (proj1 Hg)) as (Hs & _).
  unfold does, remove2.
  assert (E32 : in_int32 (z - y) = true) by (unfold in_int32; rewrite andb_true_iff, !Z.leb_le; lia).
  rewrite E32. cbn [negb]. rewrite Hs, to_int32_id by auto.
  replace ((z <=? Z.of_nat (length t)) && (0 <=? y) && (0 <? z - y))%Z
    with ((0 <=? y) && (y <? z) && (z <=? Z.of_nat (length t)))%Z.
  2:{ replace (0 <? z - y)%Z with (y <? z)%Z.
      - destruct (0 <=? y)%Z, (y <? z)%Z, (z <=? Z.of_nat (length t))%Z; reflexivity.
      - destruct (Z.ltb_spec y z), (Z.ltb_spec 0 (z - y)); auto; lia. }
  destruct ((0 <=? y) && (y <? z) && (z <=? Z.of_nat (length t)))%Z eqn:E.
  2:{ eexists. split; [reflexivity|]. split; auto. eapply trans_refl; eauto. }
  rewrite !andb_true_iff, Z.ltb_lt, !Z.leb_le in E. destruct E as ((E1 & E2) & E3).
  set (i := Z.to_nat y). set (j := Z.to_nat z). set (d := Z.to_nat (z - y)).
  assert (Hij : i < j <= length t /\ d = j - i) by (unfold i, j, d; lia). destruct Hij as (Hij & Hdd).
  pose proof Hg as (Hh & Hf). unfold holds in Hh. destruct (buffer b) as [a|] eqn:Eb.
  2:{ destruct Hh as (_ & _ & ->). cbn in Hij. lia. }
  destruct Hh as (Ha & rest & Hm & Hlt & Hr).
  destruct (move_down_spec (skipn j t) (firstn d (skipn i t)) m a (firstn i t) rest d) as (m' & rest' & Em & H1 & H2 & H3).
  { rewrite Hm. f_equal. rewrite !app_assoc. f_equal. rewrite <- !map_app. f_equal.
    rewrite <- (firstn_skipn i t) at 1. rewrite <- app_assoc. f_equal.
    rewrite <- (firstn_skipn d (skipn i t)) at 1. f_equal. rewrite skipn_twice. f_equal. lia. }
  { rewrite firstn_length, skipn_length. lia. }
  { lia. }
  rewrite skipn_length, firstn_length in Em. replace (min i (length t)) with i in Em by lia.
  replace (length t - d - i) with (length t - j) by lia. rewrite Em.
  eexists. split; [reflexivity|]. split; [split|].
  - unfold holds. cbn [buffer size reserved]. split; auto. exists rest'. rewrite map_app, <- app_assoc. split; auto.
    rewrite app_length, firstn_length, skipn_length. lia.
  - intros x Hx. rewrite H3 by lia. auto.
  - cbn [trans buffer]. rewrite Eb. split; auto. split; [|split; auto].
    + intros x Hx Hxa. apply H3. congruence.
    + intros x Hx. destruct (Nat.eq_dec a x) as [->|N]; auto. right. rewrite H3 in Hx by auto.
      split; [|congruence]. destruct (le_lt_dec fr x) as [H0|H0]; auto. apply Hf in H0. contradiction.
Qed.

(** *** ToCharPtr *)
Lemma ToCharPtr_spec : forall m fr b t, good (m, fr, b) t -> exists m' fr' b' a blk,
  ToCharPtr (m, fr, b) = Some ((m', fr', b'), Some a) /\ good (m', fr', b') t /\ trans (m, fr, b) (m', fr', b') /\
  m' a = Some blk /\ firstn (length t + 1) blk = map Some (t ++ [0%Z]).
Proof.
  intros m fr b t Hg. unfold ToCharPtr. pose proof (holds_size _ _ _ _ (proj1 Hg)) as (Hs & Hr).
  assert (H1 : exists m1 f1 b1, (if reserved b <? size b + 1 then enlarge 1 (m, fr, b) else @Some state (m, fr, b)) = Some (m1, f1, b1)
     /\ good (m1, f1, b1) t /\ trans (m, fr, b) (m1, f1, b1) /\ size b1 < reserved b1).
  { destruct (Nat.ltb_spec (reserved b) (size b + 1)) as [H|H].
    - destruct (enlarge_spec 1 m fr b t Hg) as (m1 & f1 & b1 & E & G & T & R).
      pose proof (holds_size _ _ _ _ (proj1 G)) as (Hs1 & Hr1). exists m1, f1, b1. split; [exact E|]. split; [exact G|]. split; [exact T|]. lia.
    - exists m, fr, b. split; auto. split; auto. split; [eapply trans_refl; eauto|lia]. }
  destruct H1 as (m1 & f1 & b1 & E & G & T & Hlt). rewrite E.
  destruct (push_spec 0 m1 f1 b1 t G Hlt) as (m2 & E2 & G2 & T2). unfold push in E2.
  destruct (set_cell m1 (buffer b1) (size b1) (Some 0%Z)) as [m3|] eqn:Es; [|discriminate]. injection E2 as ->.
  pose proof (holds_size _ _ _ _ (proj1 G)) as (Hs1 & Hr1).
  destruct (shorten_good m2 f1 _ _ (size b1) G2) as (G3 & T3); [rewrite app_length; cbn; lia|].
  cbn [buffer size reserved] in G3, T3. rewrite firstn_app in G3. rewrite Hs1, Nat.sub_diag, firstn_all, firstn_O, app_nil_r in G3.
  assert (Eb1 : {| buffer := buffer b1; size := length t; reserved := reserved b1 |} = b1).
  { rewrite <- Hs1. destruct b1. reflexivity. }
  rewrite Eb1 in G3.
  destruct G2 as (Hh2 & _). unfold holds in Hh2. cbn [buffer size reserved] in Hh2.
  destruct (buffer b1) as [a|] eqn:Ebuf; [|destruct Hh2; discriminate].
  destruct Hh2 as (_ & rest & Hm & Hl2 & Hr2).
  exists m2, f1, b1, a. eexists. split; [reflexivity|]. split; [exact G3|]. split.
  - eapply trans_trans; [exact T|]. cbn [trans buffer] in *. rewrite Ebuf in *. exact T2.
  - split; [exact Hm|]. rewrite firstn_app, map_length, app_length. cbn [length].
    rewrite Nat.sub_diag, firstn_O, app_nil_r. rewrite firstn_all2; auto. rewrite map_length, app_length. cbn. lia.
Qed.

(** *** The world *)
Definition inv (w : world) (T : texts * nat) : Prop :=
  count w = snd T /\
  (forall i, match builders w i, fst T i with
             | Some b, Some t => holds (mem w) (fresh w) b t /\ i < count w
             | None, None => True
             | _, _ => False
             end) /\
  (forall a, fresh w <= a -> mem w a = None) /\
  (forall i j b c a, builders w i = Some b -> builders w j = Some c -> i <> j -> buffer b = Some a -> buffer c <> Some a) /\
  (forall a, mem w a <> None -> exists i b, builders w i = Some b /\ buffer b = Some a).

Lemma inv_start : inv start no_texts.
Proof. repeat split; cbn; auto; discriminate || congruence. Qed.

(** Replace builder [i] by the result of an operation. *)
Lemma inv_update : forall w T k i b m' fr' b' t' cnt, inv w (T, k) ->
  (builders w i = Some b \/ builders w i = None /\ b = null_builder) ->
  trans (mem w, fresh w, b) (m', fr', b') -> good (m', fr', b') t' -> i < cnt -> count w <= cnt ->
  inv {| mem := m'; fresh := fr'; builders := put (builders w) i (Some b'); count := cnt |} (texts_put T i (Some t'), cnt).
Proof.
  intros w T k i b m' fr' b' t' cnt (I1 & I2 & I3 & I4 & I5) Hb HT (Hh & Hf) Hi Hc.
  pose proof HT as (T1 & T2 & T3 & T4).
  assert (Hdis : forall j c a, j <> i -> builders w j = Some c -> buffer c = Some a -> buffer b <> Some a).
  { intros j c a Hj Hjc Ha. destruct Hb as [Hb|(Hb & ->)]; [|discriminate].
    intro Hx. exact (I4 j i c b a Hjc Hb Hj Ha Hx). }
  assert (Hown : forall j c a, builders w j = Some c -> buffer c = Some a -> a < fresh w).
  { intros j c a Hj Ha. specialize (I2 j). rewrite Hj in I2. cbn [fst] in I2. destruct (T j); [|contradiction].
    destruct I2 as (I2 & _). unfold holds in I2. rewrite Ha in I2. apply I2. }
  unfold inv. cbn [mem fresh builders count fst snd]. repeat split.
  - intro j. unfold put, texts_put. destruct (Nat.eqb_spec j i) as [->|N]; [auto|].
    specialize (I2 j). cbn [fst] in I2. destruct (builders w j) as [c|] eqn:Ej, (T j) as [u|]; auto.
    destruct I2 as (I2 & I2'). split; [|lia]. eapply holds_trans; eauto.
  - exact Hf.
  - intros j1 j2 c1 c2 a H1 H2 Hn Ha Hx. unfold put in *.
    assert (Hnew : forall j c, j <> i -> builders w j = Some c -> buffer b' = Some a -> buffer c = Some a -> False).
    { intros j c Hj Hc' Hb' Hca. destruct T3 as [E|[E|(x & E & Hxf)]].
      - rewrite E in Hb'. exact (Hdis j c a Hj Hc' Hca Hb').
      - congruence.
      - rewrite E in Hb'. injection Hb' as ->. specialize (Hown j c a Hc' Hca). lia. }
    destruct (Nat.eqb_spec j1 i) as [E1|E1], (Nat.eqb_spec j2 i) as [E2|E2].
    + congruence.
    + injection H1 as <-. eapply Hnew; eauto.
    + injection H2 as <-. eapply Hnew; eauto.
    + exact (I4 j1 j2 c1 c2 a H1 H2 Hn Ha Hx).
  - intros a Ha. destruct (T4 a Ha) as [E|(E1 & E2)].
    + exists i, b'. split; [apply put_same|auto].
    + rewrite T2 in Ha by auto. destruct (I5 a Ha) as (j & c & Hj & Hc'). exists j, c. split; auto.
      rewrite put_other; auto. intros ->. destruct Hb as [Hb|(Hb & _)]; congruence.
Qed.

Lemma on_spec : forall w T k i t t' f, inv w (T, k) -> T i = Some t ->
  (forall b, builders w i = Some b -> good (mem w, fresh w, b) t -> does f (mem w, fresh w, b) t') ->
  exists w', on w i f = Some w' /\ inv w' (texts_put T i (Some t'), k).
Proof.
  intros w T k i t t' f HI Ht Hf. pose proof HI as (I1 & I2 & I3 & I4 & I5). specialize (I2 i). cbn [fst] in I2.
  rewrite Ht in I2. unfold on. destruct (builders w i) as [b|] eqn:Eb; [|contradiction]. destruct I2 as (Hh & Hi).
  destruct (Hf b eq_refl (conj Hh I3)) as (((m', fr'), b') & E & G & T').
  rewrite E. eexists. split; [reflexivity|]. cbn [snd] in I1. rewrite <- I1.
  eapply inv_update; eauto.
Qed.

Lemma construct_spec : forall w T k t' f, inv w (T, k) ->
  (forall s, s = (mem w, fresh w, null_builder) -> good s [] -> does f s t') ->
  exists w', construct w f = Some w' /\ inv w' (texts_put T k (Some t'), S k).
Proof.
  intros w T k t' f HI Hf. pose proof HI as (I1 & I2 & I3 & I4 & I5). unfold construct.
  destruct (Hf _ eq_refl) as (((m', fr'), b') & E & G & T').
  { split; auto. cbn. auto. }
  rewrite E. eexists. split; [reflexivity|]. cbn [snd] in I1. rewrite <- I1.
  assert (Hnone : builders w (count w) = None).
  { specialize (I2 (count w)). destruct (builders w (count w)) as [b|]; auto. destruct (fst (T, k) (count w)); [|contradiction].
    destruct I2. lia. }
  eapply inv_update; eauto; lia.
Qed.

Lemma fill_spec : forall n c s t, good s t -> (let '(_, _, b) := s in size b + n <= reserved b) ->
  does (fill n c) s (t ++ repeat c n).
Proof.
  induction n as [|n IH]; intros c ((m, fr), b) t Hg Hl.
  - exists (m, fr, b). cbn [repeat]. rewrite app_nil_r. split; auto. split; auto. exact (trans_refl _ _ Hg).
  - unfold does. cbn [fill repeat]. destruct (push_spec c m fr b t Hg) as (m1 & E1 & G1 & T1); [lia|]. rewrite E1.
    destruct (IH c _ _ G1) as (s2 & E2 & G2 & T2); [cbn; lia|]. exists s2. split; auto.
    rewrite <- app_assoc in G2. split; auto. eapply trans_trans; eauto.
Qed.

Lemma step_spec : forall w T o T', inv w T -> int32s (fst T) o -> change T o T' ->
  exists w', step w o = Some w' /\ inv w' T'.
Proof.
  intros w T o T' HI H32 Hc. destruct Hc as [T k n|T k t|T k c n|T k i t Ht|T k o i t t' Ht He].
  - apply construct_spec; auto. intros s -> Hg. destruct (reserve_spec n _ _ _ _ Hg) as (m' & fr' & b' & E & G & Tr & _).
    rewrite firstn_nil in G. eexists. split; [exact E|]. auto.
  - apply construct_spec; auto. intros s -> Hg. unfold does.
    destruct (reserve_spec (length t + 32) _ _ _ _ Hg) as (m' & fr' & b' & E & G & Tr & _). rewrite E. rewrite firstn_nil in G.
    destruct (append_text_spec t _ _ G) as (s2 & E2 & G2 & T2). exists s2. split; auto. split; auto. eapply trans_trans; eauto.
  - apply construct_spec; auto. intros s -> Hg. unfold does.
    destruct (reserve_spec (n + 32) _ _ _ _ Hg) as (m' & fr' & b' & E & G & Tr & Hr). rewrite E. rewrite firstn_nil in G.
    pose proof (holds_size _ _ _ _ (proj1 G)) as (Hs & _).
    destruct (fill_spec n c _ _ G) as (s2 & E2 & G2 & T2); [cbn in Hs; lia|]. exists s2. split; auto. split; auto. eapply trans_trans; eauto.
  - cbn [step]. destruct (on_spec w T k i t [] (reserve 0) HI Ht) as (w1 & E1 & I1).
    { intros b _ Hg. destruct (reserve_spec 0 _ _ _ _ Hg) as (m' & fr' & b' & E & G & Tr & _). eexists. split; [exact E|]. auto. }
    rewrite E1. eexists. split; [reflexivity|].
    (* the deleted builder holds no block *)
    assert (Hnull : forall b, builders w1 i = Some b -> buffer b = None).
    { intros b Hb. unfold on in E1. destruct (builders w i) as [b0|] eqn:Eb0; [|discriminate].
      destruct (reserve 0 (mem w, fresh w, b0)) as [((m', fr'), b')|] eqn:Er; [|discriminate]. injection E1 as <-.
      cbn in Hb. rewrite put_same in Hb. injection Hb as <-. clear -Er. unfold reserve in Er.
      destruct (Nat.ltb_spec (reserved b0) 0); [lia|]. cbn [Nat.eqb] in Er.
      destruct (delete_array (mem w) (buffer b0)); [|discriminate]. injection Er as _ _ <-. reflexivity. }
    destruct I1 as (J1 & J2 & J3 & J4 & J5). unfold inv. cbn [mem fresh builders count fst snd] in *.
    split; [auto|]. split; [|split; [auto|split]].
    + intro j. unfold put, texts_put in *. specialize (J2 j). destruct (Nat.eqb_spec j i) as [Hji|N]; auto.
    + intros j1 j2 c1 c2 a H1 H2 Hn Ha. unfold put in *. destruct (j1 =? i), (j2 =? i); try discriminate. eauto.
    + intros a Ha. destruct (J5 a Ha) as (j & c & Hj & Hca). exists j, c. split; auto. rewrite put_other; auto.
      intros ->. rewrite (Hnull c Hj) in Hca. discriminate.
  - destruct He; cbn [step].
    + apply (on_spec w T k i t); auto. intros b _ Hg. destruct (reserve_spec n _ _ _ _ Hg) as (m' & fr' & b' & E & G & Tr & _).
      eexists. split; [exact E|]. auto.
    + apply (on_spec w T k i t); auto. intros. now apply clear_spec with t.
    + apply (on_spec w T k i t); auto. intros. now apply pop_back_spec.
    + apply (on_spec w T k i t); auto. intros. now apply append_char_spec.
    + apply (on_spec w T k i t); auto. intros. now apply append_text_spec.
    + apply (on_spec w T k i t); auto. intros. now apply append_len_spec.
    + apply (on_spec w T k i t); auto. intros. now apply append_line_spec.
    + destruct (Nat.eqb_spec i j) as [E|N].
      * subst j. assert (u = t) by congruence. subst u. apply (on_spec w T k i t); auto. intros. now apply append_self_spec.
      * pose proof HI as (_ & I2 & _ & I4 & _). pose proof (I2 j) as Ij. cbn [fst] in Ij. rewrite H in Ij.
        destruct (builders w j) as [ob|] eqn:Ej; [|contradiction].
        apply (on_spec w T k i t); auto. intros b Hb Hg. apply append_other_spec; [auto|apply Ij|].
        intros a Ha. exact (I4 j i ob b a Ej Hb (not_eq_sym N) Ha).
    + apply (on_spec w T k i t); auto. intros b _ Hg. pose proof (append_vector_spec ts _ _ Hg) as D. now subst t.
    + apply (on_spec w T k i t); auto. intros b _ Hg. pose proof (append_vector_spec ts _ _ Hg) as D. now destruct t.
    + apply (on_spec w T k i t); auto. intros b _ Hg. pose proof (remove1_spec (Z.of_nat a) _ _ Hg (H32 t Ht)) as D.
      rewrite (proj2 (Z.leb_le _ _)), (proj2 (Z.ltb_lt _ _)), Nat2Z.id in D by lia. exact D.
    + apply (on_spec w T k i t); auto. intros b _ Hg. pose proof (remove1_spec z _ _ Hg (H32 t Ht)) as D.
      replace ((0 <=? z) && (z <? Z.of_nat (length t)))%Z with false in D; [exact D|].
      symmetry. apply andb_false_iff. rewrite Z.leb_gt, Z.ltb_ge. lia.
    + apply (on_spec w T k i t); auto. intros b0 _ Hg.
      pose proof (remove2_spec (Z.of_nat a) (Z.of_nat b) _ _ Hg (proj2 H32 t Ht) (proj1 H32)) as D.
      rewrite (proj2 (Z.leb_le _ _)), (proj2 (Z.ltb_lt _ _)), (proj2 (Z.leb_le _ _)), !Nat2Z.id in D by lia. exact D.
    + apply (on_spec w T k i t); auto. intros b _ Hg. pose proof (remove2_spec y z _ _ Hg (proj2 H32 t Ht) (proj1 H32)) as D.
      replace ((0 <=? y) && (y <? z) && (z <=? Z.of_nat (length t)))%Z with false in D; [exact D|].
      symmetry. rewrite !andb_false_iff. rewrite !Z.leb_gt, Z.ltb_ge. lia.
    + apply (on_spec w T k i t); auto. intros b _ Hg. destruct (ToCharPtr_spec _ _ _ _ Hg) as (m' & fr' & b' & a & blk & E & G & Tr & _).
      unfold does. rewrite E. cbn. eauto.
Qed.

Lemma run_spec : forall os w T T', inv w T -> changes T os T' -> exists w', run w os = Some w' /\ inv w' T'.
Proof.
  induction os as [|o os IH]; intros w T T' HI Hc; inversion Hc as [|X1 X2 T1 X3 X4 A B C]; subst.
  - exists w. auto.
  - destruct (step_spec w T o T1 HI A B) as (w1 & E & I1). cbn [run]. rewrite E. eauto.
Qed.
