(** C48: the target count of scene nodes. *)
From Coq Require Import List Arith NArith Bool Lia.
From Verif Require Import TargetModel.
Import ListNotations.

(** ** Specification *)
(** How many entity numbers below [m] satisfy [P]. *)
Definition how_many (P : nat -> bool) (m : nat) : nat := length (filter P (seq 0 m)).
Definition aims_at (s : state) (n e : nat) : bool :=
  match target s e with Some m => m =? n | None => false end.
(** The number of live entities whose target is [n]. *)
Definition aiming (s : state) (n : nat) : nat := how_many (fun e => ent_alive s e && aims_at s n e) (next_ent s).
(** How many entities were destroyed in a history while [n] was their target. *)
Definition destroys_aiming (s : state) (o : op) (n : nat) : nat :=
  match o with OReleaseEntity e => if aims_at s n e then 1 else 0 | _ => 0 end.
Fixpoint destroyed_aiming (s : state) (os : list op) (n : nat) : nat :=
  match os with
  | [] => 0
  | o :: r => destroys_aiming s o n + match step s o with Some s' => destroyed_aiming s' r n | None => 0 end
  end.
(** No entity is destroyed while it has a target. *)
Fixpoint untargeted_first (s : state) (os : list op) : Prop :=
  match os with
  | [] => True
  | o :: r => match o with OReleaseEntity e => target s e = None | _ => True end /\
              match step s o with Some s' => untargeted_first s' r | None => True end
  end.

(** ** Proofs *)
Definition bit (b : bool) : nat := if b then 1 else 0.
Lemma how_many_S : forall P m, how_many P (S m) = how_many P m + bit (P m).
Proof.
  intros P m. unfold how_many. rewrite seq_S, filter_app, app_length. cbn. destruct (P m); reflexivity.
Qed.
Lemma how_many_ext : forall P Q m, (forall e, e < m -> P e = Q e) -> how_many P m = how_many Q m.
Proof.
  induction m as [|m IH]; intro H; [reflexivity|]. rewrite !how_many_S, IH, H; auto.
Qed.
Lemma how_many_change : forall P Q e m, e < m -> (forall x, x <> e -> P x = Q x) ->
  how_many P m + bit (Q e) = how_many Q m + bit (P e).
Proof.
  induction m as [|m IH]; intros L H; [lia|]. rewrite !how_many_S. destruct (Nat.eq_dec e m) as [->|N].
  - rewrite (how_many_ext P Q m); [lia|]. intros x Lx. apply H. lia.
  - rewrite (H m) by auto. assert (e < m) by lia. specialize (IH H0 H). lia.
Qed.
Lemma how_many_le : forall P Q m, (forall e, e < m -> P e = true -> Q e = true) -> how_many P m <= how_many Q m.
Proof.
  induction m as [|m IH]; intro H; [apply Nat.le_refl|]. rewrite !how_many_S.
  assert (how_many P m <= how_many Q m) by auto. specialize (H m (Nat.lt_succ_diag_r m)).
  destruct (P m); cbn [bit]; [rewrite H by reflexivity; cbn; lia|destruct (Q m); cbn; lia].
Qed.
Lemma how_many_zero : forall P m, (forall e, e < m -> P e = false) -> how_many P m = 0.
Proof. induction m as [|m IH]; intro H; [reflexivity|]. rewrite how_many_S, IH, H; auto. Qed.
Lemma how_many_pos : forall P m, 0 < how_many P m <-> exists e, e < m /\ P e = true.
Proof.
  induction m as [|m IH]; [split; [cbn; lia|intros (e & L & _); lia]|]. rewrite how_many_S. split.
  - intro H. destruct (P m) eqn:E; [exists m; auto|]. cbn in H. rewrite Nat.add_0_r in H. apply IH in H.
    destruct H as (e & L & Q). exists e. split; [lia|exact Q].
  - intros (e & L & Q). destruct (Nat.eq_dec e m) as [->|N]; [rewrite Q; cbn; lia|].
    assert (0 < how_many P m) by (apply IH; exists e; split; [lia|exact Q]). lia.
Qed.

Lemma upd_same : forall A (f : nat -> A) i v, upd f i v i = v.
Proof. intros. unfold upd. now rewrite Nat.eqb_refl. Qed.
Lemma upd_other : forall A (f : nat -> A) i v x, x <> i -> upd f i v x = f x.
Proof. intros. unfold upd. destruct (Nat.eqb_spec x i); congruence. Qed.

(** [k n]: entities destroyed so far while aiming at [n]. *)
Record inv (s : state) (k : nat -> nat) : Prop := {
  inv_count : forall n, node_alive s n = true -> (N.of_nat (next_ent s) < 4294967296)%N ->
              count s n = N.of_nat (aiming s n + k n);
  inv_room : forall n, how_many (ent_alive s) (next_ent s) + k n <= next_ent s;
  inv_target : forall e n, ent_alive s e = true -> target s e = Some n -> node_alive s n = true;
  inv_node : forall n, node_alive s n = true -> n < next_node s;
  inv_new : forall n, next_node s <= n -> k n = 0;
  inv_ent : forall e, ent_alive s e = true -> e < next_ent s }.

Lemma inv_start : inv start (fun _ => 0).
Proof. split; cbn; intros; try discriminate; auto. Qed.

Lemma inv_new_node : forall s k, inv s k -> inv (NewNode s) k.
Proof.
  intros s k [C R T Nd Nw E]. split; cbn [NewNode node_alive count next_ent ent_alive target next_node]; auto.
  - intros n A L. unfold upd in *. destruct (Nat.eqb_spec n (next_node s)) as [En|N]; [subst n|exact (C n A L)].
    rewrite (Nw _ (le_n _)). unfold aiming. rewrite how_many_zero; [reflexivity|]. intros e Le. cbn.
    destruct (ent_alive s e) eqn:Ae; [|reflexivity]. unfold aims_at. cbn. destruct (target s e) as [m|] eqn:Te; [|reflexivity].
    cbn. apply Nat.eqb_neq. intros ->. apply T in Te; [|exact Ae]. apply Nd in Te. lia.
  - intros e n Ae Te. unfold upd. destruct (n =? next_node s); [reflexivity|]. eapply T; eauto.
  - intros n A. unfold upd in A. destruct (Nat.eqb_spec n (next_node s)); [lia|]. apply Nd in A. lia.
  - intros n L. apply Nw. lia.
Qed.
Lemma inv_new_entity : forall s k, inv s k -> inv (NewEntity s) k.
Proof.
  intros s k [C R T Nd Nw E].
  assert (D : ent_alive s (next_ent s) = false).
  { destruct (ent_alive s (next_ent s)) eqn:A; [apply E in A; lia|reflexivity]. }
  split; cbn [NewEntity node_alive count next_ent ent_alive target next_node]; auto.
  - intros n A L. rewrite C by (try exact A; lia). unfold aiming. cbn [next_ent ent_alive target NewEntity].
    rewrite how_many_S.
    assert (F : aims_at (NewEntity s) n (next_ent s) = false) by (unfold aims_at; cbn [target NewEntity]; rewrite upd_same; reflexivity).
    rewrite F, andb_false_r. cbn [bit]. rewrite Nat.add_0_r. do 2 f_equal. apply how_many_ext. intros e Le.
    unfold aims_at. cbn [target NewEntity]. rewrite !upd_other by lia. reflexivity.
  - intro n. rewrite how_many_S, upd_same. cbn.
    rewrite (how_many_ext _ (ent_alive s)); [specialize (R n); lia|]. intros e Le. apply upd_other. lia.
  - intros e n Ae Te. unfold upd in *. destruct (e =? next_ent s); [discriminate|]. eapply T; eauto.
  - intros e Ae. unfold upd in Ae. destruct (Nat.eqb_spec e (next_ent s)); [lia|]. apply E in Ae. lia.
Qed.

Lemma aiming_le_alive : forall s n, aiming s n <= how_many (ent_alive s) (next_ent s).
Proof. intros. apply how_many_le. intros e _ H. apply andb_prop in H. apply H. Qed.

Lemma inv_set : forall s k e t, inv s k -> ent_alive s e = true ->
  match t with Some n => node_alive s n = true | None => True end -> inv (SetTargetNode s e t) k.
Proof.
  intros s k e t [C R T Nd Nw E] Ae At.
  split; cbn [SetTargetNode node_alive count next_ent ent_alive target next_node]; auto.
  - intros n A L.
    assert (Le := E _ Ae).
    assert (H := how_many_change (fun x => ent_alive s x && aims_at s n x)
                  (fun x => ent_alive s x && aims_at (SetTargetNode s e t) n x) e (next_ent s) Le).
    assert (H0 : forall x, x <> e ->
      ent_alive s x && aims_at s n x = ent_alive s x && aims_at (SetTargetNode s e t) n x).
    { intros x Nx. unfold aims_at, SetTargetNode. cbn [target]. rewrite upd_other by exact Nx. reflexivity. }
    specialize (H H0). cbv beta in H. rewrite Ae in H. cbn [andb] in H.
    assert (B := aiming_le_alive (SetTargetNode s e t) n). assert (Rn := R n).
    cbn [SetTargetNode next_ent ent_alive] in B.
    unfold aiming in B |- *. cbn [SetTargetNode next_ent ent_alive] in B |- *.
    assert (Cn := C n A L). unfold aiming in Cn.
    set (p := how_many (fun x => ent_alive s x && aims_at s n x) (next_ent s)) in *.
    set (q := how_many (fun x => ent_alive s x && aims_at (SetTargetNode s e t) n x) (next_ent s)) in *.
    assert (Q : N.of_nat (q + k n) = (count s n - N.of_nat (bit (aims_at s n e)) + N.of_nat (bit (aims_at (SetTargetNode s e t) n e)))%N
                /\ (N.of_nat (bit (aims_at s n e)) <= count s n)%N).
    { assert (bit (aims_at s n e) <= p).
      { destruct (aims_at s n e) eqn:Z; cbn; [|lia]. apply how_many_pos. exists e. rewrite Ae, Z. auto. }
      lia. }
    assert (Lt : (N.of_nat (q + k n) < 4294967296)%N) by lia.
    destruct Q as [Q Q2]. rewrite Q. rewrite Q in Lt. clear H B Rn Cn. clearbody p q.
    assert (C1 : (match target s e with Some m => upd (count s) m (Decrement (count s m)) | None => count s end) n =
                 (count s n - N.of_nat (bit (aims_at s n e)))%N).
    { unfold aims_at in *. destruct (target s e) as [m|] eqn:Te; cbn [bit]; [|lia].
      destruct (Nat.eqb_spec m n) as [->|Nm].
      - rewrite upd_same. unfold Decrement. cbn in Q2 |- *. destruct (N.ltb_spec 0 (count s n)); lia.
      - rewrite upd_other by auto. cbn. lia. }
    set (c1 := match target s e with Some m => upd (count s) m (Decrement (count s m)) | None => count s end) in *.
    clearbody c1. unfold aims_at at 2. unfold aims_at at 2 in Lt. cbn [target SetTargetNode] in *. rewrite upd_same in *.
    destruct t as [m|]; cbn [bit] in *; [|rewrite C1; lia].
    destruct (Nat.eqb_spec m n) as [->|Nm].
    + rewrite upd_same. unfold Increment. rewrite C1. apply N.mod_small. exact Lt.
    + rewrite upd_other by auto. rewrite C1. cbn. lia.
  - intros x n Ax Tx. unfold upd in Tx. destruct (Nat.eqb_spec x e) as [->|_]; [subst t; exact At|]. eapply T; eauto.
Qed.

Lemma step_inv : forall s k o s', inv s k -> step s o = Some s' -> inv s' (fun n => k n + destroys_aiming s o n).
Proof.
  intros s k o s' I H.
  assert (Z : (forall n, destroys_aiming s o n = 0) -> inv s' k -> inv s' (fun n => k n + destroys_aiming s o n)).
  { intros D [C R T Nd Nw E]. split; auto; intros; rewrite ?D, ?Nat.add_0_r; auto. }
  destruct o as [| |e t|e|e e'|e|n0]; cbn [step] in H.
  - injection H as <-. apply Z; [reflexivity|]. now apply inv_new_node.
  - injection H as <-. apply Z; [reflexivity|]. now apply inv_new_entity.
  - destruct (ent_alive s e) eqn:Ae; [|discriminate]. cbn in H.
    destruct t as [n|]; [destruct (node_alive s n) eqn:An; [|discriminate]|]; injection H as <-;
      (apply Z; [reflexivity|]; apply inv_set; auto).
  - destruct (ent_alive s e) eqn:Ae; [|discriminate]. injection H as <-. apply Z; [reflexivity|].
    unfold Clone. apply inv_set; [now apply inv_new_entity| |].
    + cbn. apply upd_same.
    + cbn. destruct (target s e) as [n|] eqn:Te; [|exact Logic.I]. exact (inv_target _ _ I e n Ae Te).
  - destruct (ent_alive s e) eqn:Ae; [|discriminate]. destruct (ent_alive s e') eqn:Ae'; [|discriminate].
    injection H as <-. apply Z; [reflexivity|]. unfold CloneInto. apply inv_set; [exact I|exact Ae'|].
    destruct (target s e) as [n|] eqn:Te; [|exact Logic.I]. exact (inv_target _ _ I e n Ae Te).
  - destruct (ent_alive s e) eqn:Ae; [|discriminate]. injection H as <-. destruct I as [C R T Nd Nw E].
    assert (Le := E _ Ae).
    split; cbn [ReleaseEntity node_alive count next_ent ent_alive target next_node destroys_aiming]; auto.
    + intros n A L. rewrite C by assumption.
      assert (H := how_many_change (fun x => ent_alive s x && aims_at s n x)
                    (fun x => upd (ent_alive s) e false x && aims_at s n x) e (next_ent s) Le).
      assert (H0 : forall x, x <> e -> ent_alive s x && aims_at s n x = upd (ent_alive s) e false x && aims_at s n x).
      { intros x Nx. rewrite upd_other by exact Nx. reflexivity. }
      specialize (H H0). cbv beta in H. rewrite upd_same, Ae in H. cbn [andb bit] in H. unfold aiming. cbn [ReleaseEntity next_ent ent_alive].
      change (aims_at (State (next_node s) (node_alive s) (count s) (next_ent s) (upd (ent_alive s) e false) (target s)) n)
        with (aims_at s n).
      replace (fun e0 : nat => upd (ent_alive s) e false e0 && aims_at (ReleaseEntity s e) n e0) with
        (fun x : nat => upd (ent_alive s) e false x && aims_at s n x) by reflexivity.
      unfold bit in H. destruct (aims_at s n e); lia.
    + intro n. assert (H := how_many_change (ent_alive s) (upd (ent_alive s) e false) e (next_ent s) Le).
      assert (H0 : forall x, x <> e -> ent_alive s x = upd (ent_alive s) e false x)
        by (intros x Nx; rewrite upd_other by exact Nx; reflexivity).
      specialize (H H0). rewrite upd_same, Ae in H. cbn in H. specialize (R n). destruct (aims_at s n e); lia.
    + intros x n Ax Tx. unfold upd in Ax. destruct (x =? e); [discriminate|]. eapply T; eauto.
    + intros n L. rewrite (Nw n L). unfold aims_at. destruct (target s e) as [m|] eqn:Te; [|reflexivity].
      destruct (Nat.eqb_spec m n) as [->|_]; [|reflexivity]. apply T in Te; [|exact Ae]. apply Nd in Te. lia.
    + intros x Ax. unfold upd in Ax. destruct (x =? e); [discriminate|]. auto.
  - destruct (node_alive s n0) eqn:An; [|discriminate]. injection H as <-. apply Z; [reflexivity|].
    destruct I as [C R T Nd Nw E].
    split; cbn [ReleaseNode node_alive count next_ent ent_alive target next_node]; auto.
    + intros n A L. unfold upd in A. destruct (Nat.eqb_spec n n0) as [En|N]; [discriminate|]. rewrite C by assumption.
      do 2 f_equal. apply how_many_ext. intros e Le. unfold aims_at. cbn [target ReleaseNode ent_alive].
      destruct (ent_alive s e); [|reflexivity]. cbn. destruct (target s e) as [m|]; [|reflexivity].
      destruct (Nat.eqb_spec m n0) as [->|_]; [|reflexivity]. apply Nat.eqb_neq. auto.
    + intros e n Ae Te. rewrite Ae in Te. destruct (target s e) as [m|] eqn:Tm; [|discriminate].
      destruct (Nat.eqb_spec m n0) as [->|Nm]; [discriminate|]. injection Te as <-. rewrite upd_other by exact Nm. eapply T; eauto.
    + intros n A. unfold upd in A. destruct (n =? n0); [discriminate|]. auto.
Qed.

Lemma inv_ext : forall s k k', (forall n, k n = k' n) -> inv s k -> inv s k'.
Proof.
  intros s k k' H [C R T Nd Nw E]. split; auto; intros; rewrite <- ?H; auto.
Qed.
Lemma run_inv : forall os s k s', inv s k -> run s os = Some s' -> inv s' (fun n => k n + destroyed_aiming s os n).
Proof.
  induction os as [|o os IH]; cbn [run destroyed_aiming]; intros s k s' I H.
  - injection H as <-. revert I. apply inv_ext. intro n. lia.
  - destruct (step s o) as [s1|] eqn:St; [|discriminate]. apply step_inv with (2 := St) in I.
    generalize (IH _ _ _ I H). apply inv_ext. intro n. lia.
Qed.

Lemma untargeted_zero : forall os s n, untargeted_first s os -> destroyed_aiming s os n = 0.
Proof.
  induction os as [|o os IH]; cbn; intros s n H; [reflexivity|]. destruct H as [H1 H2].
  assert (destroys_aiming s o n = 0).
  { destruct o; cbn; auto. unfold aims_at. rewrite H1. reflexivity. }
  rewrite H. destruct (step s o); [apply IH, H2|reflexivity].
Qed.

(** ** Theorems *)

(** C48 (partial).  After every history, with fewer than 2^32 entities made: the count of a live node is the number
    of live entities aiming at it plus the number of entities that were destroyed while aiming at it.  So a node
    that is aimed at is always a target; and the counts are exact when entities give up their target
    before they are destroyed.  Missing for the full claim: entities destroyed with a target
    (C48_destroyed_entity_refuted). *)
Theorem C48_count_partial : forall os s n,
  run start os = Some s -> (N.of_nat (next_ent s) < 4294967296)%N -> node_alive s n = true ->
  count s n = N.of_nat (aiming s n + destroyed_aiming start os n) /\
  ((exists e, ent_alive s e = true /\ target s e = Some n) -> IsTarget s n = true) /\
  (untargeted_first start os ->
     count s n = N.of_nat (aiming s n) /\
     (IsTarget s n = true <-> exists e, ent_alive s e = true /\ target s e = Some n)).
Proof.
  intros os s n H L A. pose proof (run_inv os start _ s inv_start H) as [C R T Nd Nw E]. cbn in C, E.
  specialize (C n A L).
  assert (P : 0 < aiming s n <-> exists e, ent_alive s e = true /\ target s e = Some n).
  { unfold aiming. rewrite how_many_pos. split.
    - intros (e & Le & Q). apply andb_prop in Q. destruct Q as [Q1 Q2]. exists e. split; [exact Q1|].
      unfold aims_at in Q2. destruct (target s e) as [m|]; [|discriminate]. apply Nat.eqb_eq in Q2. congruence.
    - intros (e & Ae & Te). exists e. split; [auto|]. rewrite Ae. unfold aims_at. rewrite Te, Nat.eqb_refl. reflexivity. }
  split; [exact C|split].
  - intro Q. apply P in Q. unfold IsTarget. rewrite C. apply N.ltb_lt. lia.
  - intro U. apply untargeted_zero with (n := n) in U. rewrite U, Nat.add_0_r in C. split; [exact C|].
    rewrite <- P. unfold IsTarget. rewrite C. rewrite N.ltb_lt. lia.
Qed.
Print Assumptions C48_count_partial.

(** The pointer side of the claim: a live entity never aims at a destroyed node. *)
Theorem C48_no_dangling_target : forall os s e n,
  run start os = Some s -> ent_alive s e = true -> target s e = Some n -> node_alive s n = true.
Proof. intros os s e n H. exact (inv_target _ _ (run_inv os start _ s inv_start H) e n). Qed.
Print Assumptions C48_no_dangling_target.

(** C48 is false: the destructor of an entity does not count down, so the node stays a target of nothing. *)
Theorem C48_destroyed_entity_refuted :
  exists os s n, run start os = Some s /\ node_alive s n = true /\ aiming s n = 0 /\ IsTarget s n = true.
Proof.
  exists [ONewNode; ONewEntity; OSetTarget 0 (Some 0); OReleaseEntity 0].
  eexists. exists 0. split; [reflexivity|]. split; [reflexivity|]. split; reflexivity.
Qed.
Print Assumptions C48_destroyed_entity_refuted.

(** Two cameras, one cloned, one retargeted, one freed of its target before its release. *)
Example C48_demo :
  let os := [ONewNode; ONewNode; ONewEntity; ONewEntity; OSetTarget 0 (Some 1); OSetTarget 1 (Some 1); OClone 1;
             OSetTarget 1 (Some 0); OSetTarget 0 None; OReleaseEntity 0; OReleaseNode 0] in
  untargeted_first start os /\
  match run start os with
  | Some s => node_alive s 1 = true /\ aiming s 1 = 1 /\ count s 1 = 1%N /\ target s 1 = None
  | None => False
  end.
Proof. vm_compute. repeat split. Qed.
