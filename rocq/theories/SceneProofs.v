(** Scene graphs: proofs. *)
From Coq Require Import List Arith Bool Lia Relations Wellfounded.
From Verif Require Import SceneModel SceneSpec.
Import ListNotations.

Lemma upd_same {A} (f : nat -> A) i v : upd f i v i = v.
Proof. unfold upd. now rewrite Nat.eqb_refl. Qed.
Lemma upd_other {A} (f : nat -> A) i v x : x <> i -> upd f i v x = f x.
Proof. unfold upd. destruct (Nat.eqb_spec x i); congruence. Qed.
Lemma contains_In v l : contains v l = true <-> In v l.
Proof. unfold contains. rewrite existsb_exists. split; [intros (x & I & E); apply Nat.eqb_eq in E; now subst | intro I; exists v; split; auto; apply Nat.eqb_refl]. Qed.
Lemma erase_incl v l x : In x (erase v l) -> In x l.
Proof. induction l as [|y l IH]; cbn; auto. destruct (y =? v); cbn; [auto|]. intros [|]; auto. Qed.
Lemma erase_NoDup v l : NoDup l -> NoDup (erase v l).
Proof. induction 1 as [|x l N D IH]; cbn; [constructor|]. destruct (x =? v); auto. constructor; auto. intro I. apply N. eapply erase_incl; eauto. Qed.
Lemma erase_filter v l : NoDup l -> erase v l = filter (fun x => negb (x =? v)) l.
Proof.
  induction 1 as [|x l N D IH]; cbn; auto. destruct (Nat.eqb_spec x v) as [->|Ne]; cbn; [|now rewrite IH].
  clear IH. assert (F : forall k, ~ In v k -> filter (fun x => negb (x =? v)) k = k).
  { induction k as [|y k IH]; cbn; auto. intro H. destruct (Nat.eqb_spec y v) as [->|]; cbn; [exfalso; auto | rewrite IH; auto]. }
  now rewrite F.
Qed.
Lemma erase_In v l x : NoDup l -> (In x (erase v l) <-> In x l /\ x <> v).
Proof. intro N. rewrite erase_filter by auto. rewrite filter_In. rewrite negb_true_iff, Nat.eqb_neq. reflexivity. Qed.
Lemma NoDup_snoc (l : list nat) x : NoDup l -> ~ In x l -> NoDup (l ++ [x]).
Proof. intros N H. apply NoDup_rev in N. rewrite <- (rev_involutive (l ++ [x])). apply NoDup_rev. rewrite rev_app_distr. constructor; auto. now rewrite <- in_rev. Qed.

(** *** The invariant *)
Record ok (g : graph) : Prop := {
  ok_mirror : forall p c, In c (chi g p) <-> In p (par g c);
  ok_chi : forall p, NoDup (chi g p);
  ok_par : forall p, NoDup (par g p);
  ok_alive : forall p c, In c (chi g p) -> alive g p = true /\ alive g c = true;
  ok_next : forall p, alive g p = true -> p < next g;
  ok_down : forall x, Acc (fun c p => In c (chi g p)) x;
  ok_up : forall x, Acc (fun p c => In p (par g c)) x }.
(** Adding an edge that closes no cycle keeps a relation well-founded. *)
Lemma Acc_irrefl {A} (R : A -> A -> Prop) x : Acc R x -> ~ R x x.
Proof. induction 1 as [x _ IH]. intro H. exact (IH x H H). Qed.
Lemma Acc_no_cycle {A} (R : A -> A -> Prop) x : Acc R x -> ~ clos_trans A R x x.
Proof. intro H. apply Acc_irrefl. now apply Acc_clos_trans. Qed.
Lemma Acc_add_edge (R : nat -> nat -> Prop) a b : (forall x, Acc R x) -> a <> b -> ~ clos_trans nat R b a ->
  forall x, Acc (fun u v => R u v \/ (u = a /\ v = b)) x.
Proof.
  intros W N H.
  assert (S1 : forall x, x <> b -> ~ clos_trans nat R b x -> Acc (fun u v => R u v \/ (u = a /\ v = b)) x).
  { intro x. induction (W x) as [x _ IH]. intros Nb Nr. constructor. intros y [Ry|[-> ->]]; [|congruence]. apply IH; auto.
    - intros ->. apply Nr. now apply t_step.
    - intro T. apply Nr. eapply t_trans; eauto. now apply t_step. }
  assert (Sb : Acc (fun u v => R u v \/ (u = a /\ v = b)) b).
  { constructor. intros y [Ry|[-> _]]; [|now apply S1]. apply S1.
    - intros ->. exact (Acc_irrefl R b (W b) Ry).
    - intro T. apply (Acc_no_cycle R b (W b)). eapply t_trans; eauto. now apply t_step. }
  intro x. induction (W x) as [x _ IH]. destruct (Nat.eq_dec x b) as [->|Ne]; auto. constructor. intros y [Ry|[_ ->]]; [auto | congruence].
Qed.
Lemma Acc_sub {A} (R S : A -> A -> Prop) : (forall x y, S x y -> R x y) -> forall x, Acc R x -> Acc S x.
Proof. intros H x. induction 1 as [x _ IH]. constructor. auto. Qed.

(** *** The search among the ancestors *)
Definition ancestor (g : graph) (a b : nat) : Prop := clos_trans nat (fun p c => In p (par g c)) a b.
Lemma ancestor_descendant g : ok g -> forall a b, ancestor g a b <-> descendant g a b.
Proof. intros O a b. split; intro H; induction H as [x y H|x y z H1 IH1 H2 IH2]; [apply t_step; now apply (ok_mirror g O) | eapply t_trans; eauto | apply t_step; now apply (ok_mirror g O) | eapply t_trans; eauto]. Qed.
(** c occurs on the list or above one of its nodes. *)
Definition above (g : graph) (c : nat) (l : list nat) : Prop := exists p, In p l /\ (p = c \/ ancestor g c p).
Lemma search_node g c : forall p, Acc (fun p c => In p (par g c)) p ->
  exists k, (p = c \/ ancestor g c p) /\ (forall fuel q, search (k + fuel) g c (p :: q) = Done true) \/
            ~ (p = c \/ ancestor g c p) /\ (forall fuel q, search (k + fuel) g c (p :: q) = search fuel g c q).
Proof.
  induction 1 as [p _ IH]. destruct (Nat.eq_dec p c) as [->|Ne].
  - exists 1. left. split; auto. intros fuel q. cbn. now rewrite Nat.eqb_refl.
  - assert (L : forall l, (forall x, In x l -> In x (par g p)) -> exists k, above g c l /\ (forall fuel q, search (k + fuel) g c (l ++ q) = Done true) \/
        ~ above g c l /\ (forall fuel q, search (k + fuel) g c (l ++ q) = search fuel g c q)).
    { induction l as [|x l IHl]; intro Hl.
      - exists 0. right. split; [intros (y & [] & _) | reflexivity].
      - destruct (IHl ltac:(intros; apply Hl; now right)) as [k2 K2]. destruct (IH x (Hl x (or_introl eq_refl))) as [k1 K1]. exists (k1 + k2).
        destruct K1 as [[A1 E1]|[A1 E1]].
        + left. split; [exists x; split; [now left | auto]|]. intros fuel q. cbn [app]. replace (k1 + k2 + fuel) with (k1 + (k2 + fuel)) by lia. apply E1.
        + destruct K2 as [[(y & Iy & A2) E2]|[A2 E2]].
          * left. split; [exists y; split; [now right | auto]|]. intros fuel q. cbn [app]. replace (k1 + k2 + fuel) with (k1 + (k2 + fuel)) by lia. now rewrite E1.
          * right. split; [intros (y & [<-|Iy] & A3); [auto | apply A2; exists y; auto]|]. intros fuel q. cbn [app]. replace (k1 + k2 + fuel) with (k1 + (k2 + fuel)) by lia. now rewrite E1. }
    destruct (L (rev (par g p))) as [k K]. { intros x. now rewrite <- in_rev. }
    assert (B : above g c (rev (par g p)) <-> (p = c \/ ancestor g c p)).
    { split.
      - intros (y & Iy & H). apply in_rev in Iy. right. destruct H as [->|H]; [now apply t_step | eapply t_trans; [exact H | now apply t_step]].
      - intros [->|H]; [congruence|]. apply clos_trans_tn1 in H. destruct H as [y Hy|y z Hy Ht].
        + exists c. split; [now apply -> in_rev | auto].
        + exists y. split; [now apply -> in_rev|]. right. now apply clos_tn1_trans. }
    exists (S k). destruct K as [[A E]|[A E]]; [left | right]; (split; [tauto|]); intros fuel q; cbn [Nat.add search]; destruct (Nat.eqb_spec p c); try congruence; apply E.
Qed.
Lemma search_list g c : (forall x, Acc (fun p c => In p (par g c)) x) -> forall l,
  exists k, above g c l /\ (forall fuel, k <= fuel -> search fuel g c l = Done true) \/ ~ above g c l /\ (forall fuel, k <= fuel -> search fuel g c l = Done false).
Proof.
  intros W. assert (L : forall l, exists k, above g c l /\ (forall fuel q, search (k + fuel) g c (l ++ q) = Done true) \/ ~ above g c l /\ (forall fuel q, search (k + fuel) g c (l ++ q) = search fuel g c q)).
  { induction l as [|x l [k2 K2]].
    - exists 0. right. split; [intros (y & [] & _) | reflexivity].
    - destruct (search_node g c x (W x)) as [k1 K1]. exists (k1 + k2). destruct K1 as [[A1 E1]|[A1 E1]].
      + left. split; [exists x; split; [now left | auto]|]. intros fuel q. cbn [app]. replace (k1 + k2 + fuel) with (k1 + (k2 + fuel)) by lia. apply E1.
      + destruct K2 as [[(y & Iy & A2) E2]|[A2 E2]].
        * left. split; [exists y; split; [now right | auto]|]. intros fuel q. cbn [app]. replace (k1 + k2 + fuel) with (k1 + (k2 + fuel)) by lia. now rewrite E1.
        * right. split; [intros (y & [<-|Iy] & A3); [auto | apply A2; exists y; auto]|]. intros fuel q. cbn [app]. replace (k1 + k2 + fuel) with (k1 + (k2 + fuel)) by lia. now rewrite E1. }
  intro l. destruct (L l) as [k K]. exists (S k). destruct K as [[A E]|[A E]]; [left | right]; (split; auto); intros fuel Hf.
  - specialize (E (fuel - k) []). rewrite app_nil_r in E. now replace (k + (fuel - k)) with fuel in E by lia.
  - specialize (E (fuel - k) []). rewrite app_nil_r in E. replace (k + (fuel - k)) with fuel in E by lia. rewrite E. destruct (fuel - k) eqn:Z; [lia | reflexivity].
Qed.
Lemma above_parents g n c : above g c (rev (par g n)) <-> ancestor g c n.
Proof.
  split.
  - intros (p & I & H). apply in_rev in I. destruct H as [->|H]; [now apply t_step | eapply t_trans; [exact H | now apply t_step]].
  - intro H. apply clos_trans_tn1 in H. destruct H as [y Hy|y z Hy Ht]; [exists c | exists y]; (split; [now apply -> in_rev|]); auto. right. now apply clos_tn1_trans.
Qed.
(** What fuel does not change. *)
Lemma search_fuel g c : forall fuel q b k, search fuel g c q = Done b -> search (fuel + k) g c q = Done b.
Proof. induction fuel as [|f IH]; intros q b k E; cbn in *; [discriminate|]. destruct q as [|p q]; auto. destruct (p =? c); auto. Qed.

(** *** AddChildNode *)
Definition joined (g : graph) (n c : nat) : graph := set_par (set_chi g n (chi g n ++ [c])) c (par g c ++ [n]).
Lemma add_spec g n c : ok g -> alive g n = true -> alive g c = true ->
  exists k, (n <> c /\ ~ In c (chi g n) /\ ~ descendant g c n /\ (forall fuel, k <= fuel -> AddChildNode fuel g n (Some c) = Done (true, joined g n c))) \/
            ((n = c \/ In c (chi g n) \/ descendant g c n) /\ (forall fuel, k <= fuel -> AddChildNode fuel g n (Some c) = Done (false, g))).
Proof.
  intros O An Ac. unfold AddChildNode. destruct (Nat.eqb_spec n c) as [E|E]; [exists 0; right; split; auto|].
  destruct (contains c (chi g n)) eqn:Ct; [exists 0; right; split; auto; right; left; now apply contains_In|].
  destruct (search_list g c (ok_up g O) (rev (par g n))) as [k [[A F]|[A F]]]; rewrite above_parents, ancestor_descendant in A by auto; exists k.
  - right. split; auto. intros fuel Hf. now rewrite F.
  - left. split; auto. split; [rewrite <- contains_In; congruence|]. split; auto. intros fuel Hf. rewrite F by auto. reflexivity.
Qed.
Lemma joined_ok g n c : ok g -> alive g n = true -> alive g c = true -> n <> c -> ~ In c (chi g n) -> ~ descendant g c n -> ok (joined g n c).
Proof.
  intros O An Ac Ne Ni Nd. assert (Nm : ~ In n (par g c)) by (rewrite <- (ok_mirror g O); auto).
  assert (C : forall p x, In x (chi (joined g n c) p) <-> In x (chi g p) \/ (x = c /\ p = n)).
  { intros p x. cbn. unfold upd. destruct (Nat.eqb_spec p n) as [->|]; [rewrite in_app_iff; cbn; intuition | intuition]. }
  assert (P : forall p x, In p (par (joined g n c) x) <-> In p (par g x) \/ (p = n /\ x = c)).
  { intros p x. cbn. unfold upd. destruct (Nat.eqb_spec x c) as [->|]; [rewrite in_app_iff; cbn; intuition | intuition]. }
  constructor.
  - intros p x. rewrite C, P, (ok_mirror g O). intuition.
  - intro p. cbn. unfold upd. destruct (Nat.eqb_spec p n) as [->|]; [apply NoDup_snoc; auto|]; apply (ok_chi g O).
  - intro p. cbn. unfold upd. destruct (Nat.eqb_spec p c) as [->|]; [apply NoDup_snoc; auto|]; apply (ok_par g O).
  - intros p x. rewrite C. cbn. intros [H|[-> ->]]; [now apply (ok_alive g O) | auto].
  - apply (ok_next g O).
  - intro x. eapply Acc_sub; [intros u v H; apply C in H; exact H|]. apply Acc_add_edge; auto; [apply (ok_down g O)|].
    intro T. apply Nd. unfold descendant. clear - T. induction T as [x y H|x y z H1 IH1 H2 IH2]; [now apply t_step | eapply t_trans; eauto].
  - intro x. eapply Acc_sub; [intros u v H; apply P in H; exact H|]. apply Acc_add_edge; auto; [apply (ok_up g O)|].
    intro T. apply Nd. apply (ancestor_descendant g O). exact T.
Qed.

(** *** RemoveChildNode *)
Lemma remove_In g n c : ok g -> forall p x, In x (chi (RemoveChildNode g n c) p) <-> In x (chi g p) /\ ~ (p = n /\ x = c).
Proof.
  intros O p x. cbn. unfold upd. destruct (Nat.eqb_spec p n) as [->|]; [rewrite erase_In by apply (ok_chi g O) |]; intuition.
Qed.
Lemma remove_par g n c : ok g -> forall p x, In p (par (RemoveChildNode g n c) x) <-> In p (par g x) /\ ~ (p = n /\ x = c).
Proof.
  intros O p x. cbn. unfold upd. destruct (Nat.eqb_spec x c) as [->|]; [rewrite erase_In by apply (ok_par g O) |]; intuition.
Qed.
Lemma remove_ok g n c : ok g -> ok (RemoveChildNode g n c).
Proof.
  intro O. pose proof (remove_In g n c O) as C. pose proof (remove_par g n c O) as P. constructor.
  - intros p x. rewrite C, P, (ok_mirror g O). reflexivity.
  - intro p. cbn. unfold upd. destruct (p =? n); [apply erase_NoDup|]; apply (ok_chi g O).
  - intro p. cbn. unfold upd. destruct (p =? c); [apply erase_NoDup|]; apply (ok_par g O).
  - intros p x H. apply C in H as [H _]. now apply (ok_alive g O).
  - apply (ok_next g O).
  - intro x. eapply Acc_sub; [|apply (ok_down g O)]. intros u v H. now apply C in H as [H _].
  - intro x. eapply Acc_sub; [|apply (ok_up g O)]. intros u v H. now apply P in H as [H _].
Qed.

(** *** Release *)
(** What holds during the destruction: the list of parents may be incomplete. *)
Record half (g : graph) : Prop := {
  half_mirror : forall p c, In p (par g c) -> In c (chi g p);
  half_chi : forall p, NoDup (chi g p);
  half_par : forall p, NoDup (par g p);
  half_alive : forall p c, In c (chi g p) -> alive g p = true /\ alive g c = true }.
Lemma ok_half g : ok g -> half g.
Proof. intro O. constructor; apply O. Qed.
Definition below_eq (g : graph) : nat -> nat -> Prop := clos_refl_trans nat (fun p c => In c (chi g p)).
(** The graph after the destruction of the nodes [D]: all other nodes stay, the lists lose exactly these nodes. *)
Record without (g g' : graph) (D : nat -> Prop) : Prop := {
  wo_next : next g' = next g;
  wo_doc : doc g' = doc g;
  wo_alive : forall x, alive g' x = true <-> alive g x = true /\ ~ D x;
  wo_chi : forall x, chi g' x = filter (alive g') (chi g x);
  wo_par : forall x, alive g' x = true -> par g' x = filter (alive g') (par g x);
  wo_dead : forall x, alive g' x = false -> par g' x = [];
  wo_ins : forall x, alive g' x = true -> ins g' x = map (fun o => match o with Some i => if alive g i && negb (alive g' i) then None else o | None => o end) (ins g x) }.
Lemma filter_filter {A} (f h : A -> bool) l : filter f (filter h l) = filter (fun x => h x && f x) l.
Proof. induction l as [|x l IH]; cbn; auto. destruct (h x); cbn; [destruct (f x); now rewrite IH | auto]. Qed.
Lemma without_trans g g1 g2 D1 D2 D : without g g1 D1 -> without g1 g2 D2 -> (forall x, alive g x = true -> (~ D x <-> ~ D1 x /\ ~ D2 x)) -> without g g2 D.
Proof.
  intros A B E. assert (I : forall x, alive g2 x = true -> alive g1 x = true) by (intros x H; apply (wo_alive _ _ _ B) in H; tauto).
  assert (F : forall l, filter (alive g2) (filter (alive g1) l) = filter (alive g2) l).
  { intro l. rewrite filter_filter. apply filter_ext. intro x. specialize (I x). destruct (alive g2 x); [now rewrite I by auto | apply andb_false_r]. }
  constructor.
  - rewrite (wo_next _ _ _ B). apply (wo_next _ _ _ A).
  - rewrite (wo_doc _ _ _ B). apply (wo_doc _ _ _ A).
  - intro x. rewrite (wo_alive _ _ _ B), (wo_alive _ _ _ A). specialize (E x). tauto.
  - intro x. rewrite (wo_chi _ _ _ B), (wo_chi _ _ _ A). apply F.
  - intros x H. rewrite (wo_par _ _ _ B), (wo_par _ _ _ A) by auto. apply F.
  - apply (wo_dead _ _ _ B).
  - intros x H. rewrite (wo_ins _ _ _ B), (wo_ins _ _ _ A) by auto. rewrite map_map. apply map_ext. intros [i|]; auto.
    pose proof (proj1 (wo_alive _ _ _ A i)) as A1. specialize (I i).
    destruct (alive g i) eqn:G0, (alive g1 i) eqn:G1, (alive g2 i) eqn:G2; cbn; rewrite ?G0, ?G1, ?G2; cbn; auto; exfalso; intuition congruence.
Qed.
Lemma without_half g g' D : half g -> without g g' D -> (forall p c, D p -> In c (chi g p) -> D c) -> half g'.
Proof.
  intros H W Cl. assert (Pa : forall x, incl (par g' x) (par g x)).
  { intros x y I. destruct (alive g' x) eqn:E; [rewrite (wo_par _ _ _ W x E), filter_In in I; tauto | rewrite (wo_dead _ _ _ W x E) in I; destruct I]. }
  constructor.
  - intros p c I. rewrite (wo_chi _ _ _ W), filter_In. split; [apply (half_mirror g H); now apply Pa|]. destruct (alive g' c) eqn:E; auto. rewrite (wo_dead _ _ _ W c E) in I. destruct I.
  - intro p. rewrite (wo_chi _ _ _ W). apply NoDup_filter. apply (half_chi g H).
  - intro p. destruct (alive g' p) eqn:E; [rewrite (wo_par _ _ _ W p E); apply NoDup_filter; apply (half_par g H) | rewrite (wo_dead _ _ _ W p E); constructor].
  - intros p c I. rewrite (wo_chi _ _ _ W), filter_In in I. destruct I as [I Ac]. split; auto. apply (wo_alive _ _ _ W). split; [now apply (half_alive g H) in I|].
    intro Dp. apply (wo_alive _ _ _ W) in Ac. destruct Ac as [_ Nc]. eauto.
Qed.
(** Graphs that differ only in the list of parents of c. *)
Record like (g h : graph) (c : nat) : Prop := {
  lk_next : next h = next g; lk_doc : doc h = doc g; lk_alive : alive h = alive g; lk_chi : forall x, chi h x = chi g x;
  lk_par : forall x, x <> c -> par h x = par g x; lk_ins : ins h = ins g; lk_sub : incl (par h c) (par g c); lk_nd : NoDup (par h c) }.
Lemma like_half g h c : half g -> like g h c -> half h.
Proof.
  intros H L. constructor.
  - intros p x I. rewrite (lk_chi _ _ _ L). apply (half_mirror g H). destruct (Nat.eq_dec x c) as [->|Ne]; [now apply (lk_sub _ _ _ L) | now rewrite <- (lk_par _ _ _ L x Ne)].
  - intro p. rewrite (lk_chi _ _ _ L). apply (half_chi g H).
  - intro p. destruct (Nat.eq_dec p c) as [->|Ne]; [apply (lk_nd _ _ _ L) | rewrite (lk_par _ _ _ L p Ne); apply (half_par g H)].
  - intros p x. rewrite (lk_chi _ _ _ L), (lk_alive _ _ _ L). apply (half_alive g H).
Qed.
Lemma like_without g h c g' D : like g h c -> without h g' D -> D c -> without g g' D.
Proof.
  intros L W Dc. constructor.
  - rewrite (wo_next _ _ _ W). apply L.
  - rewrite (wo_doc _ _ _ W). apply L.
  - intro x. rewrite (wo_alive _ _ _ W), (lk_alive _ _ _ L). reflexivity.
  - intro x. rewrite (wo_chi _ _ _ W), (lk_chi _ _ _ L). reflexivity.
  - intros x E. rewrite (wo_par _ _ _ W x E), (lk_par _ _ _ L); auto. intros ->. apply (wo_alive _ _ _ W) in E. tauto.
  - apply (wo_dead _ _ _ W).
  - intros x E. rewrite (wo_ins _ _ _ W x E), (lk_ins _ _ _ L), (lk_alive _ _ _ L). reflexivity.
Qed.
Lemma without_iff g g' D E : without g g' D -> (forall x, D x <-> E x) -> without g g' E.
Proof. intros W H. destruct W. constructor; auto. intro x. rewrite <- H. auto. Qed.
Lemma below_like g h c a b : like g h c -> (below_eq h a b <-> below_eq g a b).
Proof.
  intro L. split; intro H; induction H as [x y H| |x y z H1 IH1 H2 IH2]; try (apply rt_refl); try (eapply rt_trans; eauto; fail); apply rt_step; [rewrite <- (lk_chi _ _ _ L) | rewrite (lk_chi _ _ _ L)]; auto.
Qed.
Lemma below_alive g a b : half g -> below_eq g a b -> alive g a = true -> alive g b = true.
Proof. intros H R. induction R as [x y Hxy| |x y z H1 IH1 H2 IH2]; auto. intros _. now apply (half_alive g H) in Hxy. Qed.
(** What is not below c stays connected. *)
Lemma below_kept g g' c a b : half g -> without g g' (below_eq g c) -> below_eq g a b -> alive g a = true -> ~ below_eq g c b -> below_eq g' a b.
Proof.
  intros H W R. apply clos_rt_rt1n in R. induction R as [x|x y z Hxy R IH]; intros A N; [apply rt_refl|].
  assert (Ay : alive g y = true) by now apply (half_alive g H) in Hxy. eapply rt_trans; [|now apply IH]. apply rt_step. rewrite (wo_chi _ _ _ W), filter_In. split; auto. apply (wo_alive _ _ _ W). split; auto.
  intro B. apply N. eapply rt_trans; [exact B | now apply clos_rt1n_rt].
Qed.
Lemma below_shrunk g g' D a b : without g g' D -> below_eq g' a b -> below_eq g a b.
Proof.
  intros W H. induction H as [x y H| |x y z H1 IH1 H2 IH2]; [|apply rt_refl|eapply rt_trans; eauto]. apply rt_step. rewrite (wo_chi _ _ _ W), filter_In in H. tauto.
Qed.
Lemma below_acyclic g chi0 n c : (forall x, Acc (fun c p => In c (chi0 p)) x) -> (forall x, incl (chi g x) (chi0 x)) -> In c (chi g n) -> ~ below_eq g c n.
Proof.
  intros W I Hc B. apply (Acc_no_cycle _ n (W n)). assert (T : forall a b, below_eq g a b -> a = b \/ clos_trans nat (fun c p => In c (chi0 p)) b a).
  { intros a b R. induction R as [x y H| |x y z H1 IH1 H2 IH2]; auto; [right; apply t_step; now apply I|]. destruct IH1 as [->|], IH2 as [->|]; auto. right. eapply t_trans; eauto. }
  destruct (T _ _ B) as [->|T']; [apply t_step; now apply I|]. eapply t_trans; [exact T'|]. apply t_step. now apply I.
Qed.
Lemma detach_without g n : half g -> alive g n = true -> chi g n = [] -> without g (detach g n) (eq n).
Proof.
  intros H A Cn. assert (F : forall l, NoDup l -> (forall x, In x l -> alive g x = true) -> erase n l = filter (upd (alive g) n false) l).
  { intros l N Al. rewrite erase_filter by auto. apply filter_ext_in. intros x I. unfold upd. destruct (x =? n); auto. cbn. now rewrite Al. }
  constructor; try reflexivity.
  - intro x. cbn. unfold upd. destruct (Nat.eqb_spec x n) as [->|]; [split; [discriminate | tauto] | intuition congruence].
  - intro x. cbn. unfold upd at 1. destruct (Nat.eqb_spec x n) as [->|]; [now rewrite Cn|]. apply F; [apply (half_chi g H)|]. intros y I. now apply (half_alive g H) in I.
  - intros x E. cbn in E |- *. assert (Nx : x <> n) by (intros Z; rewrite Z, upd_same in E; discriminate). rewrite (upd_other (par g)) by auto. apply F; [apply (half_par g H)|]. intros y I. apply (half_mirror g H) in I. now apply (half_alive g H) in I.
  - intros x E. cbn in E |- *. unfold upd in *. destruct (Nat.eqb_spec x n) as [Z|Z]; auto. destruct (par g x) as [|y l] eqn:P; auto.
    assert (I : In y (par g x)) by (rewrite P; now left). apply (half_mirror g H) in I. apply (half_alive g H) in I. destruct I. congruence.
  - intros x E. cbn in E |- *. assert (Nx : x <> n) by (intros Z; rewrite Z, upd_same in E; discriminate). rewrite (upd_other (ins g)) by auto. apply map_ext. intros [i|]; auto. unfold upd. destruct (Nat.eqb_spec i n) as [->|]; [now rewrite A | now destruct (alive g i)].
Qed.
Lemma filter_all {A} (f : A -> bool) l : (forall x, In x l -> f x = true) -> filter f l = l.
Proof. induction l as [|x l IH]; cbn; auto. intro H. rewrite (H x) by auto. now rewrite IH by auto. Qed.
Lemma release_spec chi0 : (forall x, Acc (fun c p => In c (chi0 p)) x) -> forall n, Acc (fun c p => In c (chi0 p)) n ->
  forall g, half g -> (forall x, incl (chi g x) (chi0 x)) -> alive g n = true ->
  exists k g', (forall fuel, k <= fuel -> Release fuel g n = Done g') /\ half g' /\ without g g' (below_eq g n).
Proof.
  intros Wf n Hn. induction Hn as [n _ IH].
  assert (Loop : forall m g, length (chi g n) <= m -> half g -> (forall x, incl (chi g x) (chi0 x)) -> alive g n = true -> par g n = [] ->
    exists k g', (forall fuel, k <= fuel -> release_children fuel g n = Done g') /\ half g' /\ without g g' (fun x => exists c, In c (chi g n) /\ below_eq g c x)).
  { induction m as [|m IHm]; intros g Lm H I A P.
    - destruct (chi g n) eqn:E; [|cbn in Lm; lia]. exists 1, g. split; [intros [|f] Hf; [lia|]; cbn; now rewrite E|]. split; auto. constructor; auto; rewrite ?E.
      + intro x. split; [intro; split; auto; intros (c & [] & _) | tauto].
      + intro x. symmetry. apply filter_all. intros y Iy. now apply (half_alive g H) in Iy.
      + intros x Ax. symmetry. apply filter_all. intros y Iy. apply (half_mirror g H) in Iy. now apply (half_alive g H) in Iy.
      + intros x Dx. destruct (par g x) as [|y l] eqn:Px; auto. assert (Iy : In y (par g x)) by (rewrite Px; now left). apply (half_mirror g H) in Iy. apply (half_alive g H) in Iy as [_ Iy]. congruence.
      + intros x _. rewrite <- map_id at 1. apply map_ext. intros [i|]; auto. now destruct (alive g i).
    - assert (Q : chi g n = [] \/ exists c r, chi g n = c :: r) by (destruct (chi g n); eauto). destruct Q as [E|(c & r & E)].
      { apply (IHm g); auto. rewrite E. cbn. lia. }
      assert (Ic : In c (chi g n)) by (rewrite E; now left). assert (Ac : alive g c = true) by now apply (half_alive g H) in Ic.
      assert (Nb : ~ below_eq g c n) by (eapply below_acyclic; eauto). assert (Ne : n <> c) by (intros ->; apply Nb; apply rt_refl).
      set (g1 := set_par g c (erase n (par g c))).
      assert (L1 : like g g1 c).
      { constructor; try reflexivity; cbn; [intros; now apply upd_other | rewrite upd_same; intros y; apply erase_incl | rewrite upd_same; apply erase_NoDup; apply (half_par g H)]. }
      set (g2 := set_chi g1 n (chi g1 n)).
      assert (L2 : like g g2 c).
      { constructor; try apply L1; try reflexivity. intro x. cbn. unfold upd. destruct (Nat.eqb_spec x n) as [->|]; reflexivity. }
      assert (St : exists h, like g h c /\ forall f, release_children (S f) g n = match Release f h c with Done g2 => release_children f g2 n | Fuel => Fuel | Bad => Bad end).
      { assert (P1 : par g1 n = []) by (rewrite (lk_par _ _ _ L1) by auto; exact P). destruct (par g1 c) eqn:Q.
        - exists g1. split; auto. intro f. cbn [release_children]. rewrite E, Ac. fold g1. now rewrite Q.
        - exists g2. split; auto. intro f. cbn [release_children]. rewrite E, Ac. fold g1. rewrite Q, P1. reflexivity. }
      destruct St as (h & Lh & St). pose proof (like_half _ _ _ H Lh) as Hh.
      destruct (IH c (I n c Ic) h Hh) as (k1 & g3 & F1 & H3 & W3). { intro x. rewrite (lk_chi _ _ _ Lh). auto. } { now rewrite (lk_alive _ _ _ Lh). }
      assert (W : without g g3 (below_eq g c)).
      { apply (like_without g h c); auto; [|apply rt_refl]. eapply without_iff; [exact W3|]. intro x. now apply (below_like g h c). }
      assert (A3 : alive g3 n = true) by (apply (wo_alive _ _ _ W); auto).
      assert (C3 : alive g3 c = false) by (destruct (alive g3 c) eqn:Q; auto; apply (wo_alive _ _ _ W) in Q; exfalso; apply Q; apply rt_refl).
      destruct (IHm g3) as (k2 & g4 & F2 & H4 & W4); auto.
      { rewrite (wo_chi _ _ _ W), E. cbn. rewrite C3. rewrite E in Lm. cbn in Lm. clear - Lm. enough (length (filter (alive g3) r) <= length r) by lia. induction r as [|y r IHr]; cbn; auto. destruct (alive g3 y); cbn; cbn in Lm; lia. }
      { intros x y Iy. rewrite (wo_chi _ _ _ W), filter_In in Iy. apply I. tauto. }
      { rewrite (wo_par _ _ _ W n A3), P. reflexivity. }
      exists (S (k1 + k2)), g4. split; [|split; auto].
      + intros [|f] Hf; [lia|]. rewrite St, F1 by lia. apply F2. lia.
      + eapply without_trans; [exact W | exact W4|]. intros x Ax. split.
        * intro N. split; [intro B; apply N; exists c; auto|]. intros (c' & I' & B). apply N. exists c'. split; [|eapply below_shrunk; eauto]. rewrite (wo_chi _ _ _ W), filter_In in I'. tauto.
        * intros [N1 N2] (c' & I' & B). assert (Ac' : alive g c' = true) by now apply (half_alive g H) in I'. apply N2. exists c'. split.
          -- rewrite (wo_chi _ _ _ W), filter_In. split; auto. apply (wo_alive _ _ _ W). split; auto. intro B'. apply N1. eapply rt_trans; eauto.
          -- apply (below_kept g g3 c c' x); auto. }
  intros g H I A. set (g1 := set_par g n []).
  assert (L1 : like g g1 n). { constructor; try reflexivity; cbn; [intros; now apply upd_other | rewrite upd_same; intros y [] | rewrite upd_same; constructor]. }
  destruct (Loop (length (chi g1 n)) g1) as (k & g2 & F & H2 & W2); auto. { now apply (like_half g g1 n). } { cbn. apply upd_same. }
  assert (Nn : ~ exists c, In c (chi g1 n) /\ below_eq g1 c n). { intros (c & Ic & B). revert B. eapply (below_acyclic g1 chi0 n c); eauto. }
  assert (A2 : alive g2 n = true). { apply (wo_alive _ _ _ W2). split; auto. }
  assert (Cn : chi g2 n = []).
  { rewrite (wo_chi _ _ _ W2). destruct (filter (alive g2) (chi g1 n)) as [|c l] eqn:Q; auto. assert (Ic : In c (filter (alive g2) (chi g1 n))) by (rewrite Q; now left).
    apply filter_In in Ic as [Ic Ac]. apply (wo_alive _ _ _ W2) in Ac as [_ N]. exfalso. apply N. exists c. split; auto. apply rt_refl. }
  pose proof (detach_without g2 n H2 A2 Cn) as W3.
  assert (W : without g1 (detach g2 n) (below_eq g1 n)).
  { eapply without_trans; [exact W2 | exact W3|]. intros x Ax. split.
    - intro N. split; [intros (c & Ic & B); apply N; eapply rt_trans; [apply rt_step; exact Ic | exact B] | intros <-; apply N; apply rt_refl].
    - intros [N1 N2] B. apply clos_rt_rt1n in B. destruct B as [|y z Hy B]; [now apply N2|]. apply N1. exists y. split; auto. now apply clos_rt1n_rt. }
  exists (S k), (detach g2 n). split; [|split].
  - intros [|f] Hf; [lia|]. cbn [Release]. rewrite A. fold g1. rewrite F by lia. reflexivity.
  - apply (without_half g1 _ (below_eq g1 n)); [exact (like_half _ _ _ H L1) | exact W|]. intros p c B Ic. eapply rt_trans; [exact B | now apply rt_step].
  - apply (like_without g g1 n _ (below_eq g n) L1); [|apply rt_refl]. eapply without_iff; [exact W|]. intro x. now apply (below_like g g1 n).
Qed.
Lemma Release_fuel : forall fuel, (forall g n g' k, Release fuel g n = Done g' -> Release (fuel + k) g n = Done g') /\
  (forall g n g' k, release_children fuel g n = Done g' -> release_children (fuel + k) g n = Done g').
Proof.
  induction fuel as [|f [IH1 IH2]]; (split; intros g n g' k E); [discriminate | discriminate | |].
  - cbn [Nat.add Release] in *. destruct (alive g n); [|discriminate]. destruct (release_children f (set_par g n []) n) eqn:Q; try discriminate. now rewrite (IH2 _ _ _ k Q).
  - cbn [Nat.add release_children] in *. destruct (chi g n) as [|c r]; auto. destruct (alive g c); [|discriminate]. destruct (par (set_par g c (erase n (par g c))) c) eqn:Q.
    + destruct (Release f _ c) eqn:Z; try discriminate. rewrite (IH1 _ _ _ k Z). now apply IH2.
    + destruct (local_references _ _ _ _ _) as [cs [|]]; [now apply IH2|]. destruct (Release f _ c) eqn:Z; try discriminate. rewrite (IH1 _ _ _ k Z). now apply IH2.
Qed.
Lemma release_ok g n : ok g -> alive g n = true -> exists k g', (forall fuel, k <= fuel -> Release fuel g n = Done g') /\ ok g' /\ without g g' (below_eq g n).
Proof.
  intros O A. destruct (release_spec (chi g) (ok_down g O) n (ok_down g O n) g (ok_half g O)) as (k & g' & F & H & W); auto. { intros x y; auto. }
  exists k, g'. split; auto. split; auto. constructor; try apply H.
  - intros p c. split.
    + intro I. destruct (half_alive g' H p c I) as [Ap Ac]. rewrite (wo_par _ _ _ W c Ac), filter_In. split; auto. rewrite (wo_chi _ _ _ W), filter_In in I. apply (ok_mirror g O). tauto.
    + apply (half_mirror g' H).
  - intros p E. rewrite (wo_next _ _ _ W). apply (ok_next g O). apply (wo_alive _ _ _ W) in E. tauto.
  - intro x. eapply Acc_sub; [|apply (ok_down g O)]. intros u v Iu. rewrite (wo_chi _ _ _ W), filter_In in Iu. tauto.
  - intro x. eapply Acc_sub; [|apply (ok_up g O)]. intros u v Iu. apply (half_mirror g' H) in Iu. rewrite (wo_chi _ _ _ W), filter_In in Iu. apply (ok_mirror g O). tauto.
Qed.
Lemma Acc_none {A} (R : A -> A -> Prop) : (forall x y, ~ R x y) -> forall x, Acc R x.
Proof. intros H x. constructor. intros y Ry. destruct (H _ _ Ry). Qed.
Lemma history_ok g : history g -> ok g.
Proof.
  induction 1 as [|g d H IH|fuel g n c b g' H IH An Ac E|g n c H IH An Ac|g n e H IH An Ae|fuel g n g' H IH An E].
  - constructor; cbn; try tauto; try discriminate; try (intros; constructor; fail); apply Acc_none; auto.
  - constructor; cbn; try apply IH.
    + intros p c I. apply (ok_alive g IH) in I as [I1 I2]. unfold upd. split; match goal with |- (if ?b then _ else _) = _ => destruct b end; auto.
    + intros p. unfold upd. destruct (Nat.eqb_spec p (next g)) as [->|]; [lia|]. intro A. apply (ok_next g IH) in A. lia.
  - destruct c as [c|]; [|now injection E as <- <-]. destruct (add_spec g n c IH An (Ac c eq_refl)) as [k [(N1 & N2 & N3 & F)|[_ F]]].
    + assert (R : Done (b, g') = Done (true, joined g n c)). { rewrite <- E. rewrite <- (F (fuel + k)) by lia. unfold AddChildNode in *. destruct (n =? c); auto. destruct (contains c (chi g n)); auto.
        destruct (search fuel g c (rev (par g n))) eqn:Q; try discriminate. now rewrite (search_fuel _ _ _ _ _ k Q). }
      injection R as -> ->. apply joined_ok; auto.
    + assert (R : Done (b, g') = Done (false, g)). { rewrite <- E. rewrite <- (F (fuel + k)) by lia. unfold AddChildNode in *. destruct (n =? c); auto. destruct (contains c (chi g n)); auto.
        destruct (search fuel g c (rev (par g n))) eqn:Q; try discriminate. now rewrite (search_fuel _ _ _ _ _ k Q). }
      now injection R as -> ->.
  - now apply remove_ok.
  - constructor; cbn; apply IH.
  - destruct (release_ok g n IH An) as (k & g2 & F & O & _). specialize (F (fuel + k) ltac:(lia)). rewrite (proj1 (Release_fuel fuel) _ _ _ k E) in F. now injection F as ->.
Qed.
