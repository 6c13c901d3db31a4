(** C76: the sub ids of scene nodes. *)
From Coq Require Import List Arith ZArith Bool Lia Relations Permutation.
From Verif Require Import TextModel TextSpec TextProofs UniqueSpec UniqueModel UniqueProofs IdModel IdProps SceneModel SceneSpec SceneProofs SceneIterProofs SceneProps SubIdModel SubIdProofs.
Import ListNotations.
Local Open Scope Z_scope.
Local Open Scope nat_scope.

(** The text s_k. *)
Definition with_number (s : list Z) (k : nat) (r : list Z) : Prop := exists ds, decimal (Z.of_nat k) ds /\ r = s ++ [95%Z] ++ ds.

(** FindSubId ends and gives the first node in pre-order with the sub id, among the node and its descendants; NULL if
    there is none. *)
Theorem C76_find : forall g sub s n, history g ->
  exists t, unfolds (Graph (next g) (alive g) (par g) (chi g) (fun _ => []) (doc g)) false n t /\
  (forall x, In x (preorder t) <-> x = n \/ descendant g n x) /\
  exists fuel0 r, (forall fuel, fuel0 <= fuel -> FindSubId fuel g sub s n = Done r) /\
  match r with
  | Some m => exists before after, preorder t = before ++ m :: after /\ sub m = s /\ forall x, In x before -> sub x <> s
  | None => forall x, In x (preorder t) -> sub x <> s
  end.
Proof.
  intros g sub s n H. destruct (find_spec g n (history_ok g H)) as (t & U & M). exists t. split; [exact U|]. split; [exact M|].
  exists (height t), (find (fun m => str_eqb (sub m) s) (preorder t)). split; [intros fuel Hf; now apply FindSubId_tree|].
  generalize (preorder t). intro l. induction l as [|x l IH]; cbn [find]; [intros x []|].
  destruct (str_eqb (sub x) s) eqn:E.
  - apply str_eqb_eq in E. exists [], l. repeat split; auto.
  - assert (N : sub x <> s) by (intro C; subst s; rewrite str_eqb_refl in E; discriminate).
    destruct (find _ l) as [m|].
    + destruct IH as (b & a & -> & Em & Hb). exists (x :: b), a. repeat split; auto. intros y [->|I]; auto.
    + intros y [->|I]; auto.
Qed.
Print Assumptions C76_find.

Lemma numbered_with s k : with_number s k (numbered s (Z.of_nat k)).
Proof.
  unfold with_number, numbered. exists (append_i32 (Z.of_nat k)). split; auto. unfold append_i32.
  rewrite (proj2 (Z.ltb_ge _ 0)) by lia. apply dec_decimal. lia.
Qed.

(** SetSubId ends; only this node's sub id changes.  The empty text clears it.  A text whose cleaned form no ancestor and
    no descendant has becomes that form; else the text itself - not the cleaned form - with "_" and a number is taken: the
    least number whose text is free, or 512. *)
Theorem C76_choice : forall g sub n s, history g -> exists fuel0 sub',
  (forall fuel, fuel0 <= fuel -> SetSubId fuel g sub n s = Done sub') /\ (forall m, m <> n -> sub' m = sub m) /\
  (s = [] -> sub' n = []) /\
  (s <> [] -> (forall m, descendant g n m \/ descendant g m n -> sub m <> CleanSubId s) -> sub' n = CleanSubId s) /\
  (s <> [] -> (exists m, (descendant g n m \/ descendant g m n) /\ sub m = CleanSubId s) ->
     exists k, k <= 512 /\ with_number s k (sub' n) /\
     (forall j, j < k -> exists t m, with_number s j t /\ (descendant g n m \/ descendant g m n) /\ sub m = t) /\
     (k = 512 \/ forall m, descendant g n m \/ descendant g m n -> sub m <> sub' n)).
Proof.
  intros g sub n s H. pose proof (history_ok g H) as O. destruct (list_eq_dec Z.eq_dec s []) as [->|Hs].
  - exists 0, (upd sub n []). split; [reflexivity|]. split; [intros m Hm; now apply upd_other|].
    split; [intros _; apply upd_same|]. split; congruence.
  - destruct (set_spec g sub n s O Hs) as (f0 & r & E & C). exists f0, (upd (upd sub n []) n r). split; [exact E|].
    split; [intros m Hm; now rewrite !upd_other|]. split; [congruence|]. rewrite upd_same. split; intros _.
    + intros F. destruct C as [(_ & ->)|((m & R & Em) & _)]; auto. exfalso. exact (F m R Em).
    + intros U. destruct C as [(N & _)|(_ & k & Hk & -> & Hj & D)]; [contradiction N|].
      exists k. split; auto. split; [apply numbered_with|]. split.
      * intros j L. destruct (Hj j L) as (m & R & Em). exists (numbered s (Z.of_nat j)), m. split; [apply numbered_with | auto].
      * destruct D as [D|D]; [right | now left]. intros m R Em. apply D. now exists m.
Qed.
Print Assumptions C76_choice.

(** *** Uniqueness *)
(** Full statement: after SetSubId with a text that is not empty, no ancestor and no descendant has the sub id of the
    node.  Proved: this holds if the ancestors and descendants have at most 513 different sub ids - so always in scenes
    of up to 514 nodes; missing: more, where it fails (C76_unique_refuted). *)
Definition candidates (s : list Z) : list (list Z) := CleanSubId s :: map (fun k => numbered s (Z.of_nat k)) (seq 0 513).
Lemma numbers_nodup s len : forall a, NoDup (map (fun k => numbered s (Z.of_nat k)) (seq a len)).
Proof.
  induction len as [|l IH]; intro a; cbn [seq map]; constructor; auto.
  intro I. apply in_map_iff in I as (k & E & Ik). apply in_seq in Ik. apply numbered_inj in E; lia.
Qed.
Lemma candidates_nodup s : NoDup (candidates s).
Proof.
  unfold candidates. constructor.
  - intro I. apply in_map_iff in I as (k & E & _). now apply numbered_not_clean in E.
  - apply numbers_nodup.
Qed.
Lemma candidates_length s : length (candidates s) = 514.
Proof. unfold candidates. cbn [length]. now rewrite map_length, seq_length. Qed.
Theorem C76_unique_partial : forall g sub n s others, history g -> s <> [] ->
  (forall m, descendant g n m \/ descendant g m n -> In (sub m) others) -> length others <= 513 ->
  exists fuel0 sub', (forall fuel, fuel0 <= fuel -> SetSubId fuel g sub n s = Done sub') /\
  sub' n <> [] /\ forall m, descendant g n m \/ descendant g m n -> sub' m <> sub' n.
Proof.
  intros g sub n s others H Hs Cov Len. pose proof (history_ok g H) as O. destruct (set_spec g sub n s O Hs) as (f0 & r & E & C).
  exists f0, (upd (upd sub n []) n r). split; [exact E|]. rewrite upd_same.
  assert (Q : r <> [] /\ ~ used g sub n r).
  { destruct C as [(C & ->)|(C & k & Hk & -> & Hj & D)]; [split; [now apply clean_ne | exact C]|]. split; [apply numbered_ne|].
    destruct D as [D| ->]; auto. intro U.
    assert (I : incl (candidates s) others).
    { intros t [<-|I]; [destruct C as (m & R & <-); now apply Cov|]. apply in_map_iff in I as (j & <- & Ij). apply in_seq in Ij.
      destruct (Nat.eq_dec j 512) as [Ej|Ej]; [rewrite Ej; destruct U as (m & R & Em); rewrite <- Em; now apply Cov|].
      destruct (Hj j) as (m & R & Em); [lia|]. rewrite <- Em. now apply Cov. }
    pose proof (NoDup_incl_length (candidates_nodup s) I) as L. rewrite candidates_length in L. lia. }
  destruct Q as [Q1 Q2]. split; auto. intros m R Em. rewrite !upd_other in Em by (eapply relative_other; eauto). apply Q2. now exists m.
Qed.
Print Assumptions C76_unique_partial.

(** A scene with k nodes below node 0. *)
Lemma star k : exists g, history g /\ alive g 0 = true /\ forall i, 1 <= i <= k -> In i (chi g 0).
Proof.
  assert (Q : exists g, history g /\ alive g 0 = true /\ next g = S k /\ forall i, 1 <= i <= k -> In i (chi g 0)).
  - induction k as [|k (g & H & A & N & I)].
    + exists (NewNode no_nodes 0). repeat split; [repeat constructor | intros i Hi; lia].
    + pose proof (h_new g 0 H) as H'. pose proof (history_ok g H) as O. pose proof (history_ok _ H') as O'. set (g' := NewNode g 0) in *.
      assert (A0 : alive g' 0 = true). { unfold g'. cbn. unfold upd. now destruct (0 =? next g). }
      assert (A1 : alive g' (S k) = true). { unfold g'. cbn. rewrite N. apply upd_same. }
      assert (Nd : forall x y, In y (chi g x) -> x <> S k /\ y <> S k).
      { intros x y E. apply (ok_alive g O) in E as [E1 E2]. apply (ok_next g O) in E1. apply (ok_next g O) in E2. lia. }
      destruct (add_spec g' 0 (S k) O' A0 A1) as [f [(N1 & N2 & N3 & F)|[R F]]].
      * exists (joined g' 0 (S k)). split; [eapply h_add; [exact H' | exact A0 | | exact (F f (le_n f))]; intros x [= <-]; exact A1|].
        split; [exact A0|]. split; [unfold g'; cbn; now rewrite N|]. intros i Hi. cbn. rewrite in_app_iff. cbn.
        destruct (Nat.eq_dec i (S k)) as [->|]; auto. left. apply I. lia.
      * exfalso. destruct R as [R|[R|R]]; [discriminate | apply Nd in R; lia |]. apply clos_trans_t1n in R. inversion R as [y E|y z E _]; apply Nd in E; lia.
  - destruct Q as (g & H & A & _ & I). eauto.
Qed.

(** With the cleaned text and all 513 numbered texts in use below it, the node gets a sub id that a child has. *)
Theorem C76_unique_refuted : ~ forall g sub n s, history g -> s <> [] ->
  exists fuel0 sub', (forall fuel, fuel0 <= fuel -> SetSubId fuel g sub n s = Done sub') /\
  forall m, descendant g n m \/ descendant g m n -> sub' m <> sub' n.
Proof.
  intro All. pose (s := [97%Z]). destruct (star 514) as (g & H & A & I). pose (sub := fun m => nth (m - 1) (candidates s) []).
  assert (Hs : s <> []) by discriminate.
  assert (U : forall t, In t (candidates s) -> used g sub 0 t).
  { intros t It. apply (In_nth _ _ []) in It as (i & Hi & E). rewrite candidates_length in Hi. exists (S i). split.
    - left. apply t_step. apply I. lia.
    - unfold sub. replace (S i - 1) with i by lia. exact E. }
  pose proof (history_ok g H) as O. destruct (All g sub 0 s H Hs) as (f1 & sub' & E & Un). destruct (set_spec g sub 0 s O Hs) as (f2 & r & E2 & C).
  specialize (E (f1 + f2)). specialize (E2 (f1 + f2)). rewrite E in E2 by lia. assert (Es : sub' = upd (upd sub 0 []) 0 r) by (specialize (E2 ltac:(lia)); congruence).
  assert (Ir : In r (candidates s)).
  { destruct C as [(_ & ->)|(_ & k & Hk & -> & _)]; [now left | right]. apply in_map_iff. exists k. split; auto. apply in_seq. lia. }
  destruct (U _ Ir) as (m & R & Em). apply (Un m R). assert (Hm : m <> 0) by (eapply relative_other; eauto).
  rewrite Es, upd_same, !upd_other by exact Hm. exact Em.
Qed.
Print Assumptions C76_unique_refuted.

(** *** Legality *)
(** Full statement: the sub id after SetSubId with a text that is not empty is a legal name.  Proved: if no relative has
    the cleaned text, or the text is itself legal; missing: an illegal text whose cleaned form is in use
    (C76_legal_refuted). *)
Theorem C76_legal_partial : forall g sub n s, history g -> s <> [] ->
  legal name_char s \/ (forall m, descendant g n m \/ descendant g m n -> sub m <> CleanSubId s) ->
  exists fuel0 sub', (forall fuel, fuel0 <= fuel -> SetSubId fuel g sub n s = Done sub') /\ legal name_char (sub' n).
Proof.
  intros g sub n s H Hs L. pose proof (history_ok g H) as O. destruct (set_spec g sub n s O Hs) as (f0 & r & E & C).
  exists f0, (upd (upd sub n []) n r). split; [exact E|]. rewrite upd_same.
  pose proof C16_clean_partial as (_ & Cl & _). destruct (Cl s Hs) as (Lc & _).
  destruct C as [(_ & ->)|((m & R & Em) & k & Hk & -> & _)]; [exact Lc|].
  destruct L as [L|L]; [|exfalso; exact (L m R Em)].
  unfold numbered. destruct s as [|c s]; [congruence|]. cbn [app legal] in *. destruct L as [L1 L2]. split; auto.
  apply Forall_app. split; auto. constructor; [unfold name_char; tauto|]. unfold append_i32. rewrite (proj2 (Z.ltb_ge _ 0)) by lia.
  destruct (dec_spec (Z.of_nat k)) as (_ & F & _); [lia|]. eapply Forall_impl; [|exact F]. intros a Ha. right. left. now apply digit_iff.
Qed.
Print Assumptions C76_legal_partial.

Definition pair : graph := add new6 0 1.
Lemma history_pair : history pair.
Proof. eapply history_add; [| reflexivity | reflexivity | reflexivity]. repeat constructor. Qed.
Definition ab (m : nat) : list Z := match m with 0 => [97; 95; 98]%Z | _ => [] end.
(** The text "a b" below a node with the sub id "a_b" becomes "a b_0". *)
Theorem C76_legal_refuted : ~ forall g sub n s, history g -> s <> [] ->
  exists fuel0 sub', (forall fuel, fuel0 <= fuel -> SetSubId fuel g sub n s = Done sub') /\ legal name_char (sub' n).
Proof.
  intro All. pose (s := [97; 32; 98]%Z). assert (Hs : s <> []) by discriminate. pose proof (history_ok _ history_pair) as O.
  destruct (All pair ab 1 s history_pair Hs) as (f1 & sub' & E & L). destruct (set_spec pair ab 1 s O Hs) as (f2 & r & E2 & C).
  specialize (E (f1 + f2)). specialize (E2 (f1 + f2)). rewrite E in E2 by lia. assert (Es : sub' = upd (upd ab 1 []) 1 r) by (specialize (E2 ltac:(lia)); congruence).
  rewrite Es, upd_same in L. destruct C as [(N & _)|(_ & k & Hk & -> & _)].
  - apply N. exists 0. split; [|reflexivity]. right. apply t_step. left. reflexivity.
  - unfold numbered, s in L. cbn [app legal] in L. destruct L as [_ L]. inversion L as [|? ? L1 _]. clear - L1. unfold name_char, is_letter, is_digit in L1. lia.
Qed.
Print Assumptions C76_legal_refuted.

(** In the diamond 0 -> 1, 2 -> 3, with the sub ids a, none, a_0 and none: 3 gets "a_1", 1 too, as it has no relation to 2,
    "a_0"; and "3 d" is cleaned. *)
Definition four (m : nat) : list Z := match m with 0 => [97]%Z | 2 => [97; 95; 48]%Z | _ => [] end.
Definition got (r : res (nat -> list Z)) (m : nat) : option (list Z) := match r with Done f => Some (f m) | _ => None end.
Example C76_demo : history diamond /\ descendant diamond 0 3 /\
  got (SetSubId 30 diamond four 3 [97]%Z) 3 = Some [97; 95; 49]%Z /\
  got (SetSubId 30 diamond four 1 [97]%Z) 1 = Some [97; 95; 48]%Z /\
  got (SetSubId 30 diamond four 0 [97; 95; 48]%Z) 0 = Some [97; 95; 48; 95; 48]%Z /\
  got (SetSubId 30 diamond four 0 [97]%Z) 0 = Some [97]%Z /\
  got (SetSubId 30 diamond four 3 [51; 32; 100]%Z) 3 = Some [95; 95; 100]%Z /\
  got (SetSubId 30 pair ab 1 [97; 32; 98]%Z) 1 = Some [97; 32; 98; 95; 48]%Z /\
  FindSubId 30 diamond four [97; 95; 48]%Z 0 = Done (Some 2) /\ FindSubId 30 diamond four [97; 95; 48]%Z 1 = Done None.
Proof.
  split; [exact history_diamond|]. split; [eapply t_trans; apply t_step; [now left|]; now left|]. vm_compute. auto 20.
Qed.
