(** Ids of scene nodes: insertion into the map of names, references "#id", the search for a node and the chain of open nodes. *)
From Coq Require Import String List ZArith QArith Bool Lia Relations.
From Verif Require Import TextModel TextProofs StringModel StringProofs DaeModel DaeSpec RigSpec RigProofs UniqueSpec IdProps UriModel SceneModel SceneSpec SceneProofs NodeModel NodeSpec NodeTextProofs.
From Verif Require IdModel UniqueModel UniqueProofs.
Import ListNotations.
Local Open Scope nat_scope.
Local Open Scope list_scope.

(** *** The map of unique names *)
Notation split_name := UniqueModel.SplitString.
Lemma insert_fresh m x : UniqueModel.contains m x = false -> exists m', UniqueModel.insert m x = (x, m') /\
  (forall y, UniqueModel.contains m' y = true <-> split_name y = split_name x \/ UniqueModel.contains m y = true).
Proof.
  unfold UniqueModel.contains, UniqueModel.insert. destruct (split_name x) as [p n] eqn:Ex. intro H. rewrite H.
  eexists. split; [reflexivity|]. intro y. destruct (split_name y) as [q k] eqn:Ey. rewrite UniqueProofs.lookup_update.
  destruct (UniqueModel.str_eqb q p) eqn:E.
  - apply UniqueProofs.str_eqb_eq in E. subst q. rewrite UniqueProofs.mem_insert, orb_true_iff, Z.eqb_eq. split; intros [A|A]; auto; [left; congruence|left; congruence].
  - split; [auto|]. intros [A|A]; auto. injection A as -> ->. rewrite UniqueProofs.str_eqb_refl in E. discriminate.
Qed.
Lemma same_name_refl x : same_name x x.
Proof.
  destruct (UniqueProofs.parts_exist x) as (p & ds & H). exists p, ds, ds. split; auto. split; auto. destruct ds; [left; auto|right; repeat split; discriminate].
Qed.
Lemma told_app l1 : forall l2, told_apart (l1 ++ l2) -> told_apart l1 /\ told_apart l2 /\ Forall (fun x => Forall (fun y => ~ same_name x y) l2) l1.
Proof.
  induction l1 as [|x l1 IH]; intros l2 H; cbn in *; [split; [constructor|split; [auto|constructor]]|].
  inversion H as [|? ? H1 H2 H3]; subst. apply Forall_app in H1 as (A & B). destruct (IH _ H3) as (C & D & E). split; [constructor; auto|]. split; [auto|]. constructor; auto.
Qed.
Lemma told_modest l x : told_apart l -> In x l -> modest 4294967295 x.
Proof. induction 1 as [|y l H1 H2 H3 IH]; intro I; [destruct I|]. destruct I as [<-|I]; auto. Qed.
Lemma told_NoDup l : told_apart l -> NoDup l.
Proof.
  induction 1 as [|x l H1 H2 H3 IH]; constructor; auto. intro I. rewrite Forall_forall in H1. apply (H1 x I). apply same_name_refl.
Qed.
Lemma NoDup_nth_inj (l : list (list Z)) i j x : NoDup l -> nth_error l i = Some x -> nth_error l j = Some x -> i = j.
Proof. intros H A B. apply (proj1 (NoDup_nth_error l) H); [apply nth_error_Some; congruence|congruence]. Qed.

(** *** "#id" *)
Lemma index_none c t : ~ In c t -> index_from c t = None.
Proof. induction t as [|x t IH]; cbn; auto. intro H. destruct (Z.eqb_spec x c) as [->|]; [tauto|]. rewrite IH; tauto. Qed.
Lemma replace_same o n t : ~ In o t -> replace o n t = t.
Proof. unfold replace. induction t as [|x t IH]; cbn; auto. intro H. destruct (Z.eqb_spec x o) as [->|]; [tauto|]. rewrite IH; tauto. Qed.
Lemma chars_not t c : Forall id_char t -> In c [37; 35; 92; 58; 63; 47]%Z -> ~ In c t.
Proof. intros H Hc I. rewrite Forall_forall in H. specialize (H c I). apply id_char_plain in H. cbn in Hc. lia. Qed.
Lemma parse_id a id : Forall id_char id -> exists u, parse a (35%Z :: id) = Some u /\ scheme u = NONE /\ fragment u = id /\ IsFile (path u) = false.
Proof.
  intro H. assert (H92 : ~ In 92%Z id) by (apply chars_not; cbn; auto 10). assert (H58 : ~ In 58%Z id) by (apply chars_not; cbn; auto 10). assert (H63 : ~ In 63%Z id) by (apply chars_not; cbn; auto 10).
  unfold parse. assert (E : replace 92 47 (35%Z :: id) = 35%Z :: id) by (apply replace_same; intros [X|X]; [discriminate|contradiction]). rewrite E.
  assert (F58 : find_char 58 (35%Z :: id) 0 = None) by (unfold find_char; cbn [skipn]; rewrite index_none; [reflexivity|intros [X|X]; [discriminate|contradiction]]).
  rewrite F58. cbn [nth]. change (35 =? 47)%Z with false. eexists. split; [reflexivity|]. cbn [scheme fragment path parse_tail].
  assert (F63 : find_char 63 (35%Z :: id) 0 = None) by (unfold find_char; cbn [skipn]; rewrite index_none; [reflexivity|intros [X|X]; [discriminate|contradiction]]).
  assert (F35 : find_char 35 (35%Z :: id) 0 = Some 0) by reflexivity. unfold parse_tail. rewrite F63, F35. cbn [scheme fragment path].
  split; [reflexivity|]. split; [reflexivity|]. reflexivity.
Qed.

(** *** Texts of nodes that all have ids *)
Definition node_object (x : list Z) : IdModel.object := {| IdModel.daeId := x; IdModel.unique := true; IdModel.alive := true |}.
Lemma get_id d ids k x : IdModel.objects d = map node_object ids -> nth_error ids k = Some x -> IdModel.GetDaeId d k = (Some x, d).
Proof.
  intros Hd Hk. unfold IdModel.GetDaeId, IdModel.object_at. rewrite Hd, nth_error_map, Hk. reflexivity.
Qed.
(** *** The search *)
Lemma find_node g d ids id : ok g -> IdModel.objects d = map node_object ids -> (forall k, alive g k = true -> k < List.length ids) ->
  forall n, alive g n = true -> exists f0 r, (forall fuel, f0 <= fuel -> FindDaeId fuel g id d n = Done (r, d)) /\
  match r with
  | Some k => nth_error ids k = Some id
  | None => forall m, m = n \/ descendant g n m -> nth_error ids m <> Some id
  end.
Proof.
  intros O Hd Ha n. induction (ok_down g O n) as [n _ IH]. intro An.
  assert (Hn : exists x, nth_error ids n = Some x).
  { destruct (nth_error ids n) as [x|] eqn:E; eauto. apply nth_error_None in E. specialize (Ha n An). lia. }
  destruct Hn as (x & Hx). pose proof (get_id d ids n x Hd Hx) as Eg.
  destruct (UniqueModel.str_eqb x id) eqn:Ex.
  - exists 1, (Some n). split; [|apply UniqueProofs.str_eqb_eq in Ex; now subst]. intros [|f] Hf; [lia|]. cbn. now rewrite Eg, Ex.
  - assert (L : forall l, incl l (chi g n) -> exists f0 r,
      (forall f, f0 <= f -> (fix loop (d : IdModel.document) (l : list nat) : res (option nat * IdModel.document) :=
             match l with
             | [] => Done (None, d)
             | c :: r => match FindDaeId f g id d c with Done (None, d2) => loop d2 r | found => found end
             end) d l = Done (r, d)) /\
      match r with Some k => nth_error ids k = Some id | None => forall c, In c l -> forall m, m = c \/ descendant g c m -> nth_error ids m <> Some id end).
    { induction l as [|c l IHl]; intro Hi.
      - exists 0, None. split; [reflexivity|]. intros c [].
      - assert (Hc : In c (chi g n)) by (apply Hi; now left). destruct (IH c Hc) as (f1 & r1 & E1 & P1); [apply (ok_alive g O n c Hc)|].
        destruct r1 as [k|].
        + exists f1, (Some k). split; auto. intros f Hf. now rewrite E1.
        + destruct IHl as (f2 & r2 & E2 & P2); [intros y Hy; apply Hi; now right|]. exists (max f1 f2), r2. split.
          * intros f Hf. rewrite E1 by lia. apply E2. lia.
          * destruct r2; auto. intros c' [<-|I']; [exact P1|now apply P2]. }
    destruct (L (chi g n) (incl_refl _)) as (f0 & r & E & P). exists (S f0), r. split.
    + intros [|f] Hf; [lia|]. cbn [FindDaeId]. rewrite Eg, Ex. apply E. lia.
    + destruct r; auto. intros m [-> |D].
      * rewrite Hx. intro X. injection X as ->. rewrite UniqueProofs.str_eqb_refl in Ex. discriminate.
      * assert (D' : exists c, In c (chi g n) /\ (m = c \/ descendant g c m)).
        { clear - D. apply clos_trans_t1n in D. destruct D as [y A|y z A B]; exists y; split; auto. right. now apply clos_t1n_trans. }
        destruct D' as (c & Hc & H). eapply P; eauto.
Qed.
Lemma find_scene g d ids id : ok g -> IdModel.objects d = map node_object ids -> (forall k, alive g k = true -> k < List.length ids) ->
  forall roots, Forall (fun r => alive g r = true) roots -> exists f0 r, (forall fuel, f0 <= fuel -> FindSceneNode fuel g id d roots = Done (r, d)) /\
  match r with
  | Some k => nth_error ids k = Some id
  | None => forall n m, In n roots -> m = n \/ descendant g n m -> nth_error ids m <> Some id
  end.
Proof.
  intros O Hd Ha roots. induction 1 as [|n roots An _ IH].
  - exists 0, None. split; [reflexivity|]. intros n m [].
  - destruct (find_node g d ids id O Hd Ha n An) as (f1 & r1 & E1 & P1). destruct r1 as [k|].
    + exists f1, (Some k). split; auto. intros fuel Hf. cbn. now rewrite E1.
    + destruct IH as (f2 & r2 & E2 & P2). exists (max f1 f2), r2. split.
      * intros fuel Hf. cbn. rewrite E1 by lia. apply E2. lia.
      * destruct r2; auto. intros x m [<-|I]; eauto.
Qed.

(** *** The chain of open nodes *)
(** The nodes from the inner one to the root: each has only the next one as parent. *)
Fixpoint linked (g : graph) (chain : list nat) : Prop :=
  match chain with
  | [] => True
  | i :: rest => par g i = firstn 1 rest /\ linked g rest
  end.
Lemma linked_ancestors g : forall rest i, linked g (i :: rest) -> forall x, ancestor g x i <-> In x rest.
Proof.
  induction rest as [|p rest IH]; intros i (Hp & Hl) x.
  - cbn in Hp. split; [|intros []]. intro A. apply clos_trans_tn1 in A. inversion A as [y A'|y z A' B]; subst; rewrite Hp in A'; destruct A'.
  - cbn [firstn] in Hp. split.
    + intro A. apply clos_trans_tn1 in A. inversion A as [y A'|y z A' B]; subst; rewrite Hp in A'.
      * destruct A' as [->|[]]. now left.
      * destruct A' as [->|[]]. right. apply (IH _ Hl). now apply clos_tn1_trans.
    + intros [->|I]; [apply t_step; rewrite Hp; now left|]. eapply t_trans; [apply (IH _ Hl); exact I|]. apply t_step. rewrite Hp. now left.
Qed.
Lemma linked_ext g g' chain : (forall x, In x chain -> par g' x = par g x) -> linked g chain -> linked g' chain.
Proof.
  induction chain as [|i rest IH]; cbn; auto. intros H (A & B). split; [rewrite H; auto|]. apply IH; auto.
Qed.
