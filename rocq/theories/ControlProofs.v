(** Proofs about chains of controllers. *)
From Coq Require Import List Arith Bool Lia.
From Verif Require Import ControlModel ControlSpec.
Import ListNotations.

(** *** Reading and changing the world *)
Inductive sort := S_geometry | S_controller | S_other.
Definition sort_of (w : world) (i : nat) : option sort :=
  match ent w i with
  | Some (Item _ (Geometry _)) => Some S_geometry
  | Some (Item _ (Controller _)) => Some S_controller
  | Some (Item _ Other) => Some S_other
  | None => None
  end.
Lemma control_ent : forall w c k, control_of w c = Some k -> exists b, ent w c = Some (Item b (Controller k)).
Proof. intros w c k H. unfold control_of in H. destruct (ent w c) as [[b [s|k'|]]|]; try discriminate. injection H as ->. eauto. Qed.
Lemma shape_ent : forall w c s, shape_of w c = Some s -> exists b, ent w c = Some (Item b (Geometry s)).
Proof. intros w c s H. unfold shape_of in H. destruct (ent w c) as [[b [s'|k'|]]|]; try discriminate. injection H as ->. eauto. Qed.
Lemma control_sort : forall w c, sort_of w c = Some S_controller <-> exists k, control_of w c = Some k.
Proof. intros w c. unfold sort_of, control_of. destruct (ent w c) as [[b [s|k|]]|]; split; try discriminate; eauto; intros (k' & H); discriminate. Qed.
Lemma shape_sort : forall w c, sort_of w c = Some S_geometry <-> exists k, shape_of w c = Some k.
Proof. intros w c. unfold sort_of, shape_of. destruct (ent w c) as [[b [s|k|]]|]; split; try discriminate; eauto; intros (k' & H); discriminate. Qed.
Lemma sort_alive : forall w c, ent w c <> None <-> exists x, sort_of w c = Some x.
Proof. intros w c. unfold sort_of. destruct (ent w c) as [[b [s|k|]]|]; split; eauto; try congruence. intros (x & H); discriminate. Qed.
Lemma base_controller : forall w c b, GetBaseTarget w c = Some b -> exists k, control_of w c = Some k.
Proof. intros w c b H. unfold GetBaseTarget in H. destruct (control_of w c) as [k|]; eauto. discriminate. Qed.

Lemma put_ent_other : forall w i b j, j <> i -> ent (put w i b) j = ent w j.
Proof. intros. cbn. now rewrite (proj2 (Nat.eqb_neq _ _)). Qed.
Lemma put_ent_same : forall w i b, ent (put w i b) i = option_map (fun x => Item (listed x) b) (ent w i).
Proof. intros. cbn. now rewrite Nat.eqb_refl. Qed.
Lemma put_control : forall w i k k', control_of w i = Some k -> control_of (put w i (Controller k')) i = Some k'.
Proof. intros w i k k' H. apply control_ent in H as (b & H). unfold control_of. rewrite put_ent_same, H. reflexivity. Qed.
Lemma put_control_other : forall w i b j, j <> i -> control_of (put w i b) j = control_of w j.
Proof. intros. unfold control_of. now rewrite put_ent_other. Qed.
Lemma put_shape_other : forall w i b j, j <> i -> shape_of (put w i b) j = shape_of w j.
Proof. intros. unfold shape_of. now rewrite put_ent_other. Qed.
Lemma put_shape : forall w i k k' j, control_of w i = Some k -> shape_of (put w i (Controller k')) j = shape_of w j.
Proof.
  intros w i k k' j H. destruct (Nat.eq_dec j i) as [->|Hn]; [|now apply put_shape_other].
  apply control_ent in H as (b & H). unfold shape_of. rewrite put_ent_same, H. reflexivity.
Qed.
Lemma put_sort : forall w i k k' j, control_of w i = Some k -> sort_of (put w i (Controller k')) j = sort_of w j.
Proof.
  intros w i k k' j H. unfold sort_of. destruct (Nat.eq_dec j i) as [->|Hn]; [|now rewrite put_ent_other].
  apply control_ent in H as (b & H). rewrite put_ent_same, H. reflexivity.
Qed.
Lemma put_alive : forall w i b j, ent (put w i b) j <> None <-> ent w j <> None.
Proof.
  intros w i b j. destruct (Nat.eq_dec j i) as [->|Hn]; [|now rewrite put_ent_other].
  rewrite put_ent_same. destruct (ent w i); cbn; split; congruence.
Qed.
Lemma put_find : forall w i b j, FindEntity (put w i b) j = FindEntity w j.
Proof.
  intros w i b j. unfold FindEntity. destruct (Nat.eq_dec j i) as [->|Hn]; [|now rewrite put_ent_other].
  rewrite put_ent_same. destruct (ent w i) as [x|]; reflexivity.
Qed.
Lemma put_entity : forall w i b e x, GetEntity (put w i b) e x = GetEntity w e x.
Proof. intros w i b [e|] [x|]; cbn; auto. apply put_find. Qed.
Lemma put_base_other : forall w i b j, j <> i -> GetBaseTarget (put w i b) j = GetBaseTarget w j.
Proof.
  intros w i b j H. unfold GetBaseTarget. rewrite put_control_other by auto.
  destruct (control_of w j) as [[|e x n|p ts]|]; auto. apply put_entity.
Qed.
Lemma put_put : forall w i b b' j, ent (put (put w i b) i b') j = ent (put w i b') j.
Proof.
  intros w i b b' j. destruct (Nat.eq_dec j i) as [->|Hn]; [|now rewrite !put_ent_other].
  rewrite !put_ent_same. destruct (ent w i); reflexivity.
Qed.

(** *** Paths *)
Inductive path (w : world) : nat -> list nat -> option nat -> Prop :=
| P_geometry : forall e s, shape_of w e = Some s -> path w e [] (Some e)
| P_other : forall e, sort_of w e = Some S_other -> path w e [] None
| P_none : forall e k, control_of w e = Some k -> GetBaseTarget w e = None -> path w e [e] None
| P_step : forall e b l r, GetBaseTarget w e = Some b -> path w b l r -> path w e (e :: l) r.

Lemma not_both : forall w e s k, shape_of w e = Some s -> control_of w e = Some k -> False.
Proof. intros w e s k H1 H2. apply shape_ent in H1 as (b & H1). unfold control_of in H2. rewrite H1 in H2. discriminate. Qed.
Lemma other_not : forall w e, sort_of w e = Some S_other -> shape_of w e = None /\ control_of w e = None.
Proof. intros w e H. unfold sort_of, shape_of, control_of in *. destruct (ent w e) as [[b [s|k|]]|]; try discriminate. auto. Qed.

Lemma path_unique : forall w e l r, path w e l r -> forall l' r', path w e l' r' -> l = l' /\ r = r'.
Proof.
  intros w e l r H. induction H as [e s Hs|e Ho|e k Hk Hb|e b l r Hb H IH]; intros l' r' H'.
  - inversion H' as [? ? X|? X|? ? X Y|? ? ? ? X Y]; subst; auto.
    + destruct (other_not _ _ X). congruence.
    + destruct (not_both _ _ _ _ Hs X).
    + destruct (base_controller _ _ _ X) as (k & Hk). destruct (not_both _ _ _ _ Hs Hk).
  - destruct (other_not _ _ Ho) as (O1 & O2). inversion H' as [? ? X|? X|? ? X Y|? ? ? ? X Y]; subst; auto; try congruence.
    destruct (base_controller _ _ _ X) as (k & Hk). congruence.
  - inversion H' as [? ? X|? X|? ? X Y|? ? ? ? X Y]; subst; auto; try congruence.
    + destruct (not_both _ _ _ _ X Hk).
    + destruct (other_not _ _ X). congruence.
  - destruct (base_controller _ _ _ Hb) as (k & Hk). inversion H' as [? ? X|? X|? ? X Y|? b' l2 ? X Y]; subst; try congruence.
    + destruct (not_both _ _ _ _ X Hk).
    + destruct (other_not _ _ X). congruence.
    + assert (b' = b) by congruence. subst b'. destruct (IH _ _ Y) as (-> & ->). auto.
Qed.
Lemma path_suffix : forall w e l r, path w e l r -> forall x, In x l -> exists l1 l2, l = l1 ++ l2 /\ path w x l2 r.
Proof.
  intros w e l r H. induction H as [e s Hs|e Ho|e k Hk Hb|e b l r Hb H IH]; intros x Hx; try (destruct Hx; fail).
  - destruct Hx as [<-|[]]. exists [], [e]. split; auto. eapply P_none; eauto.
  - destruct Hx as [<-|Hx].
    + exists [], (e :: l). split; auto. eapply P_step; eauto.
    + destruct (IH x Hx) as (l1 & l2 & -> & Hp). exists (e :: l1), l2. auto.
Qed.
Lemma path_nodup : forall w e l r, path w e l r -> NoDup l.
Proof.
  intros w e l r H. induction H as [e s Hs|e Ho|e k Hk Hb|e b l r Hb H IH]; try constructor; auto; [constructor|].
  intro Hx. destruct (path_suffix _ _ _ _ H e Hx) as (l1 & l2 & El & Hp).
  assert (Hq : path w e (e :: l) r) by (eapply P_step; eauto). destruct (path_unique _ _ _ _ Hq _ _ Hp) as (E & _).
  apply (f_equal (@length nat)) in E. rewrite El in E. cbn in E. rewrite app_length in E. lia.
Qed.
Lemma path_controllers : forall w e l r, path w e l r -> forall x, In x l -> exists k, control_of w x = Some k.
Proof.
  intros w e l r H. induction H as [e s Hs|e Ho|e k Hk Hb|e b l r Hb H IH]; intros x Hx; try (destruct Hx; fail).
  - destruct Hx as [<-|[]]. eauto.
  - destruct Hx as [<-|Hx]; auto. eapply base_controller; eauto.
Qed.
Lemma path_end : forall w e l g, path w e l (Some g) -> exists s, shape_of w g = Some s.
Proof. intros w e l g H. remember (Some g) as r eqn:Er. induction H; try discriminate; auto. injection Er as ->. eauto. Qed.
Lemma path_cut_none : forall w e l r c, path w e l r -> In c l -> GetBaseTarget w c = None -> r = None.
Proof.
  intros w e l r c H Hc Hn. destruct (path_suffix _ _ _ _ H c Hc) as (l1 & l2 & _ & Hp).
  inversion Hp as [? s X|? X|? ? X Y|? ? ? ? X Y]; subst; auto; try congruence.
  destruct (path_controllers _ _ _ _ H _ Hc) as (k & Hk). destruct (not_both _ _ _ _ X Hk).
Qed.
Lemma path_alive : forall w e l r, path w e l r -> ent w e <> None.
Proof.
  intros w e l r H. apply sort_alive. inversion H as [? s X|? X|? ? X Y|? ? ? ? X Y]; subst; eauto.
  - exists S_geometry. apply shape_sort. eauto.
  - exists S_controller. apply control_sort. eauto.
  - exists S_controller. apply control_sort. eapply base_controller; eauto.
Qed.
Lemma path_controller : forall w c k l r, path w c l r -> control_of w c = Some k -> exists l', l = c :: l' /\
  match GetBaseTarget w c with Some b => path w b l' r | None => l' = [] /\ r = None end.
Proof.
  intros w c k l r H Hk. inversion H as [? s X|? X|? ? X Y|? ? l' ? X Y]; subst.
  - destruct (not_both _ _ _ _ X Hk).
  - destruct (other_not _ _ X). congruence.
  - exists []. rewrite Y. auto.
  - exists l'. rewrite X. auto.
Qed.

Lemma base_loop_path : forall w b l r, path w b l r -> forall f, length l <= f -> base_loop w f (Some b) = Some r.
Proof.
  intros w b l r H. induction H as [e s Hs|e Ho|e k Hk Hb|e b l r Hb H IH]; intros f Hf.
  - apply shape_ent in Hs as (y & Hs). destruct f; cbn; rewrite Hs; auto.
  - unfold sort_of in Ho. destruct f; cbn; destruct (ent w e) as [[y [s|k|]]|]; try discriminate; auto.
  - apply control_ent in Hk as (y & Hk). cbn in Hf. destruct f as [|f]; [lia|]. cbn. rewrite Hk, Hb. destruct f; reflexivity.
  - destruct (base_controller _ _ _ Hb) as (k & Hk). apply control_ent in Hk as (y & Hk). cbn in Hf. destruct f as [|f]; [lia|].
    cbn [base_loop]. rewrite Hk, Hb. apply IH. lia.
Qed.

(** *** What holds of every document *)
Record Inv (w : world) : Prop := {
  I_fresh : forall i, count w <= i -> ent w i = None;
  I_path : forall i, ent w i <> None -> exists l r, path w i l r;
  I_targets : forall c b ts g, control_of w c = Some (Morph b ts) -> In (Some g) ts -> exists s, shape_of w g = Some s;
  I_ids : forall c e i n, control_of w c = Some (Skin e (Some i) n) -> i < count w;
  I_skin : forall c e i n, control_of w c = Some (Skin (Some e) i n) -> i = Some e }.

Lemma path_length : forall w e l r, Inv w -> path w e l r -> length l <= count w.
Proof.
  intros w e l r HI H. rewrite <- (seq_length (count w) 0). apply NoDup_incl_length; [eapply path_nodup; eauto|].
  intros x Hx. apply in_seq. destruct (path_controllers _ _ _ _ H x Hx) as (k & Hk). apply control_ent in Hk as (y & Hk).
  destruct (Nat.lt_ge_cases x (count w)) as [Hl|Hl]; [lia|]. rewrite (I_fresh _ HI x Hl) in Hk. discriminate.
Qed.
Lemma actual_path : forall w e l r, Inv w -> path w e l r -> actual_base w (Some e) = Some r.
Proof.
  intros w e l r HI H. pose proof (path_length _ _ _ _ HI H) as Hl. unfold actual_base.
  inversion H as [? s X|? X|? ? X Y|? b l' ? X Y]; subst.
  - apply shape_ent in X as (y & X). now rewrite X.
  - unfold sort_of in X. destruct (ent w e) as [[y [s|k|]]|]; try discriminate. reflexivity.
  - apply control_ent in X as (y & X). rewrite X. unfold GetBaseGeometry. rewrite Y. destruct (count w); reflexivity.
  - destruct (base_controller _ _ _ X) as (k & Hk). apply control_ent in Hk as (y & Hk). rewrite Hk. unfold GetBaseGeometry. rewrite X.
    eapply base_loop_path; eauto. cbn in Hl. lia.
Qed.
Lemma GetBaseGeometry_path : forall w c k l r, Inv w -> control_of w c = Some k -> path w c l r -> GetBaseGeometry w c = Some r.
Proof.
  intros w c k l r HI Hk H. pose proof (actual_path _ _ _ _ HI H) as Ha. unfold actual_base in Ha.
  apply control_ent in Hk as (y & Hk). now rewrite Hk in Ha.
Qed.

(** Chains in terms of GetBaseTarget. *)
Lemma path_based : forall w e l g, path w e l (Some g) -> e = g \/ based_on w e g.
Proof.
  intros w e l g H. remember (Some g) as r eqn:Er. induction H as [e s Hs|e Ho|e k Hk Hb|e b l r Hb H IH]; try discriminate.
  - left. congruence.
  - right. destruct (IH Er) as [->|Hd]; [now apply B_direct|eapply B_chain; eauto].
Qed.
Lemma based_path : forall w e b, based_on w e b -> forall l r, path w b l r -> exists l', path w e (e :: l') r /\ length l <= length l'.
Proof.
  intros w e b H. induction H as [c b Hb|c d b Hd H IH]; intros l r Hp.
  - exists l. split; auto. eapply P_step; eauto.
  - destruct (IH l r Hp) as (l' & Hq & Hl). exists (d :: l'). split; [eapply P_step; eauto|]. cbn. lia.
Qed.
Lemma not_self : forall w e, Inv w -> ~ based_on w e e.
Proof.
  intros w e HI H. assert (He : ent w e <> None).
  { assert (Hc : exists b, GetBaseTarget w e = Some b) by (inversion H; eauto). destruct Hc as (b & Hb).
    destruct (base_controller _ _ _ Hb) as (k & Hk). apply control_ent in Hk as (y & Hk). congruence. }
  destruct (I_path _ HI e He) as (l & r & Hp). destruct (based_path _ _ _ H _ _ Hp) as (l' & Hq & Hl).
  destruct (path_unique _ _ _ _ Hp _ _ Hq) as (-> & _). cbn in Hl. lia.
Qed.
Lemma deforms_path : forall w e g s, deforms w e g s -> exists l, path w e l (Some g).
Proof.
  intros w e g s (Hs & [->|H]); [exists []; eapply P_geometry; eauto|].
  destruct (based_path _ _ _ H [] (Some g)) as (l & Hp & _); [eapply P_geometry; eauto|]. eauto.
Qed.

(** *** Cutting chains *)
Record cut (w w' : world) : Prop := {
  K_sort : forall i, ent w' i <> None -> sort_of w' i = sort_of w i;
  K_base : forall i b, GetBaseTarget w' i = Some b -> GetBaseTarget w i = Some b /\ ent w' b <> None }.

Lemma cut_forward : forall w w' e l r, cut w w' -> path w e l r -> ent w' e <> None -> exists l' r', path w' e l' r'.
Proof.
  intros w w' e l r K H. induction H as [e s Hs|e Ho|e k Hk Hb|e b l r Hb H IH]; intro He.
  - pose proof (K_sort _ _ K e He) as E. rewrite (proj2 (shape_sort w e)) in E by eauto. apply shape_sort in E as (s' & E). exists [], (Some e). eapply P_geometry; eauto.
  - exists [], None. apply P_other. rewrite (K_sort _ _ K e He). auto.
  - pose proof (K_sort _ _ K e He) as E. rewrite (proj2 (control_sort w e)) in E by eauto. apply control_sort in E as (k' & E).
    destruct (GetBaseTarget w' e) as [b|] eqn:Eb; [apply (K_base _ _ K) in Eb; destruct Eb; congruence|]. exists [e], None. eapply P_none; eauto.
  - pose proof (K_sort _ _ K e He) as E. rewrite (proj2 (control_sort w e)) in E by (eapply base_controller; eauto). apply control_sort in E as (k' & E).
    destruct (GetBaseTarget w' e) as [b'|] eqn:Eb.
    + destruct (K_base _ _ K e b' Eb) as (Eb' & Ha). assert (b' = b) by congruence. subst b'. destruct (IH Ha) as (l' & r' & Hp).
      exists (e :: l'), r'. eapply P_step; eauto.
    + exists [e], None. eapply P_none; eauto.
Qed.
Lemma cut_back : forall w w' e l g, cut w w' -> path w' e l (Some g) -> path w e l (Some g).
Proof.
  intros w w' e l g K H. remember (Some g) as r eqn:Er. induction H as [e s Hs|e Ho|e k Hk Hb|e b l r Hb H IH]; try discriminate.
  - assert (He : ent w' e <> None) by (apply shape_ent in Hs as (y & Hs); congruence). pose proof (K_sort _ _ K e He) as E.
    rewrite (proj2 (shape_sort w' e)) in E by eauto. symmetry in E. apply shape_sort in E as (s' & E). injection Er as <-. eapply P_geometry; eauto.
  - eapply P_step; [apply (K_base _ _ K); eauto|auto].
Qed.

(** A new base for one controller. *)
Lemma extend : forall w w' c e le re,
  (forall i, sort_of w' i = sort_of w i) -> (forall i, i <> c -> GetBaseTarget w' i = GetBaseTarget w i) -> GetBaseTarget w' c = Some e ->
  path w e le re -> ~ In c le ->
  path w' e le re /\ forall i l r, path w i l r -> exists l' r', path w' i l' r'.
Proof.
  intros w w' c e le re Hs Hb Hc He Hn.
  assert (He' : path w' e le re).
  { revert Hn. clear Hc. induction He as [e s X|e Ho|e k Hk X|e b l r X H IH]; intro Hn.
    - assert (Y : sort_of w' e = Some S_geometry) by (rewrite Hs; apply shape_sort; eauto). apply shape_sort in Y as (s' & Y). eapply P_geometry; eauto.
    - apply P_other. now rewrite Hs.
    - assert (Y : sort_of w' e = Some S_controller) by (rewrite Hs; apply control_sort; eauto). apply control_sort in Y as (k' & Y).
      eapply P_none; eauto. rewrite Hb; auto. cbn in Hn. tauto.
    - cbn in Hn. eapply P_step; [rewrite Hb by tauto; eauto|]. apply IH; tauto. }
  split; auto. intros i l r H. induction H as [i s X|i Ho|i k Hk X|i b l r X H IH].
  - assert (Y : sort_of w' i = Some S_geometry) by (rewrite Hs; apply shape_sort; eauto). apply shape_sort in Y as (s' & Y). exists [], (Some i). eapply P_geometry; eauto.
  - exists [], None. apply P_other. now rewrite Hs.
  - assert (Y : sort_of w' i = Some S_controller) by (rewrite Hs; apply control_sort; eauto). apply control_sort in Y as (k' & Y).
    destruct (Nat.eq_dec i c) as [->|Hi]; [exists (c :: le), re; eapply P_step; eauto|].
    exists [i], None. eapply P_none; eauto. now rewrite Hb.
  - destruct (Nat.eq_dec i c) as [->|Hi]; [exists (c :: le), re; eapply P_step; eauto|].
    destruct IH as (l' & r' & Hp). exists (i :: l'), r'. eapply P_step; eauto. now rewrite Hb.
Qed.
Lemma through : forall w w1 c e l r, (forall i, i <> c -> GetBaseTarget w1 i = GetBaseTarget w i) -> path w1 e l r -> In c l -> e = c \/ based_on w e c.
Proof.
  intros w w1 c e l r Hb H. induction H as [e s X|e Ho|e k Hk X|e b l r X H IH]; intro Hc; try (destruct Hc; fail).
  - destruct Hc as [->|[]]. auto.
  - destruct (Nat.eq_dec e c) as [->|Hn]; auto. right. destruct Hc as [->|Hc]; [congruence|]. rewrite Hb in X by auto.
    destruct (IH Hc) as [->|Hd]; [now apply B_direct|eapply B_chain; eauto].
Qed.
