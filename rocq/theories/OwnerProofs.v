(** Proofs about FUObject ownership. *)
From Coq Require Import List Arith Lia Bool.
From Verif Require Import OwnerModel OwnerSpec.
Import ListNotations.

Definition same (h : heap) (s : view) : Prop :=
  (forall x, alive h x = live s x) /\ (forall r, refs h r = ref_to s r) /\ (forall c, conts h c = members s c) /\ next h = fresh s.
Definition inv (h : heap) : Prop :=
  (forall o, alive h o = true -> o < next h) /\
  (forall r o, refs h r = Some (Some o) -> alive h o = true /\ owner_of h o = Some (Ref r)) /\
  (forall c l, conts h c = Some l -> NoDup l /\ forall o, In o l -> alive h o = true /\ owner_of h o = Some (Cont c)) /\
  (forall o w, alive h o = true -> owner_of h o = Some w ->
     match w with Ref r => refs h r = Some (Some o) | Cont c => exists l, conts h c = Some l /\ In o l end).

Lemma among_In l x : among l x = true <-> In x l.
Proof. unfold among. rewrite existsb_exists. split; [intros (y & H & E); apply Nat.eqb_eq in E; now subst | intro H; exists x; split; auto; apply Nat.eqb_refl]. Qed.
Lemma among_notin l x : among l x = false <-> ~ In x l.
Proof. rewrite <- among_In. destruct (among l x); split; congruence. Qed.
Lemma contains_In l x : contains l x = true <-> In x l.
Proof. unfold contains. rewrite existsb_exists. split; [intros (y & H & E); apply Nat.eqb_eq in E; now subst | intro H; exists x; split; auto; apply Nat.eqb_refl]. Qed.
Lemma filter_none l v : (forall x, In x l -> ~ In x v) -> filter (fun x => negb (among v x)) l = l.
Proof.
  induction l as [|a l IH]; cbn; intro H; auto. rewrite (proj2 (among_notin v a)) by auto. cbn. rewrite IH; auto.
Qed.
Lemma remove_first_filter l o : NoDup l -> remove_first l o = filter (fun x => negb (among [o] x)) l.
Proof.
  induction 1 as [|x l H N IH]; cbn; auto. destruct (Nat.eqb_spec x o); cbn.
  - subst. symmetry. apply (filter_none l [o]). intros y Hy [<-|[]]. auto.
  - rewrite IH. reflexivity.
Qed.
Lemma NoDup_app_remove_l (a b : list nat) : NoDup (a ++ b) -> NoDup b.
Proof. induction a; cbn; auto. intro H. inversion H; auto. Qed.
Lemma NoDup_app_remove_r (a b : list nat) : NoDup (a ++ b) -> NoDup a.
Proof.
  induction a as [|x a IH]; cbn; [constructor|]. intro H. inversion H as [|? ? H1 H2]; subst. constructor; auto.
  intro. apply H1. apply in_or_app. auto.
Qed.
Lemma filter_range (l : list nat) i n : NoDup l -> i + n <= length l ->
  filter (fun x => negb (among (firstn n (skipn i l)) x)) l = firstn i l ++ skipn (i + n) l.
Proof.
  intros N L.
  assert (E : l = firstn i l ++ firstn n (skipn i l) ++ skipn (i + n) l).
  { rewrite <- (firstn_skipn i l) at 1. f_equal. rewrite <- (firstn_skipn n (skipn i l)) at 1. f_equal.
    clear. revert l. induction i; intros l; cbn; auto. destruct l; cbn; [now rewrite skipn_nil | apply IHi]. }
  set (v := firstn n (skipn i l)) in *. set (a := firstn i l) in *. set (b := skipn (i + n) l) in *.
  clearbody v a b. subst l. rewrite !filter_app.
  apply NoDup_app_remove_l in N as N2.
  assert (Nav : forall x, In x a -> ~ In x v).
  { intros x H1 H2. clear - N H1 H2. induction a; [destruct H1|]. cbn in N. inversion N; subst. destruct H1 as [<-|H1]; auto.
    apply H3. apply in_or_app. right. apply in_or_app. auto. }
  assert (Nbv : forall x, In x b -> ~ In x v).
  { intros x H1 H2. clear - N2 H1 H2. induction v; [destruct H2|]. cbn in N2. inversion N2; subst. destruct H2 as [<-|H2]; auto.
    apply H3. apply in_or_app. auto. }
  rewrite (filter_none a v Nav), (filter_none b v Nbv). f_equal.
  assert (F : filter (fun x => negb (among v x)) v = []).
  { assert (G : forall w, (forall x, In x w -> In x v) -> filter (fun x => negb (among v x)) w = []).
    { induction w as [|x w IH]; cbn; intro H; auto. rewrite (proj2 (among_In v x)) by auto. cbn. apply IH; auto. }
    apply G; auto. }
  now rewrite F.
Qed.
Lemma owner_eqb_refl w : owner_eqb w w = true.
Proof. destruct w; cbn; apply Nat.eqb_refl. Qed.
Ltac upds := unfold set_alive, set_owner, set_ref, set_cont in *; cbn [alive owner_of refs conts next] in *; unfold upd in *.


Definition killed (h : heap) (vs : list nat) (h' : heap) : Prop :=
  (forall x, alive h' x = alive h x && negb (among vs x)) /\
  (forall x, ~ In x vs -> owner_of h' x = owner_of h x) /\
  (forall r, refs h' r = match refs h r with Some (Some o) => if among vs o then Some None else Some (Some o) | p => p end) /\
  (forall c, conts h' c = option_map (filter (fun x => negb (among vs x))) (conts h c)) /\ next h' = next h.
Lemma killed_ok h vs h' s : inv h -> same h s -> killed h vs h' -> inv h' /\ same h' (kill vs s).
Proof.
  intros (I1 & I2 & I3 & I4) (S1 & S2 & S3 & S4) (K1 & K2 & K3 & K4 & K5). split.
  - split; [|split; [|split]].
    + intros o. rewrite K1, K5. intro A. apply andb_prop in A as [A _]. auto.
    + intros r o. rewrite K3. destruct (refs h r) as [[p|]|] eqn:R; try discriminate.
      destruct (among vs p) eqn:V; [discriminate|]. intro E. injection E as ->. destruct (I2 r o R) as [A W].
      rewrite K1, A, V. split; auto. rewrite K2; auto. now apply among_notin.
    + intros c l. rewrite K4. destruct (conts h c) as [l0|] eqn:C; [|discriminate]. cbn. intro E. injection E as <-.
      destruct (I3 c l0 C) as [N F]. split; [now apply NoDup_filter|]. intros o Ho. apply filter_In in Ho as [Ho V].
      apply negb_true_iff in V. destruct (F o Ho) as [A W]. rewrite K1, A, V. split; auto. rewrite K2; auto. now apply among_notin.
    + intros o w A W. rewrite K1 in A. apply andb_prop in A as [A V]. apply negb_true_iff in V.
      rewrite K2 in W by now apply among_notin. specialize (I4 o w A W). destruct w as [r|c].
      * rewrite K3, I4, V. reflexivity.
      * destruct I4 as (l & C & Ho). rewrite K4, C. cbn. eexists. split; [reflexivity|]. apply filter_In. now rewrite V.
  - split; [|split; [|split]]; cbn [kill live ref_to members fresh].
    + intro x. now rewrite K1, S1.
    + intro r. now rewrite K3, S2.
    + intro c. now rewrite K4, S3.
    + congruence.
Qed.
Lemma filter_filter (f g : nat -> bool) l : filter f (filter g l) = filter (fun x => g x && f x) l.
Proof. induction l as [|a l IH]; cbn; auto. destruct (g a); cbn; rewrite IH; auto. Qed.
Lemma among_app a b x : among (a ++ b) x = among a x || among b x.
Proof. unfold among. apply existsb_app. Qed.
Lemma killed_trans h a h1 b h2 : killed h a h1 -> killed h1 b h2 -> killed h (a ++ b) h2.
Proof.
  intros (A1 & A2 & A3 & A4 & A5) (B1 & B2 & B3 & B4 & B5). split; [|split; [|split; [|split]]].
  - intro x. rewrite B1, A1, among_app. now destruct (alive h x), (among a x), (among b x).
  - intros x H. rewrite B2, A2; auto; intro; apply H; apply in_or_app; auto.
  - intro r. rewrite B3, A3. destruct (refs h r) as [[o|]|]; auto. rewrite among_app. now destruct (among a o), (among b o).
  - intro c. rewrite B4, A4. destruct (conts h c); cbn; auto. rewrite filter_filter. f_equal. apply filter_ext.
    intro x. rewrite among_app. now destruct (among a x), (among b x).
  - congruence.
Qed.
Lemma killed_nil h : killed h [] h.
Proof.
  split; [|split; [|split; [|split]]]; auto.
  - intro x. now rewrite andb_true_r.
  - intro r. now destruct (refs h r) as [[o|]|].
  - intro c. destruct (conts h c) as [l|]; cbn [option_map]; auto. f_equal. symmetry. apply (filter_none l []). auto.
Qed.
Lemma among1 o x : among [o] x = (x =? o).
Proof. cbn. now rewrite orb_false_r. Qed.

(** Under the invariant nothing but its owner refers to an object. *)
Lemma refs_other h vs r : inv h -> (forall o, In o vs -> owner_of h o <> Some (Ref r)) ->
  match refs h r with Some (Some o) => if among vs o then Some None else Some (Some o) | p => p end = refs h r.
Proof.
  intros (I1 & I2 & I3 & I4) H. destruct (refs h r) as [[o|]|] eqn:R; auto. destruct (among vs o) eqn:V; auto.
  apply among_In in V. destruct (I2 r o R). now destruct (H o V).
Qed.
Lemma conts_other h vs c : inv h -> (forall o, In o vs -> owner_of h o <> Some (Cont c)) ->
  option_map (filter (fun x => negb (among vs x))) (conts h c) = conts h c.
Proof.
  intros (I1 & I2 & I3 & I4) H. destruct (conts h c) as [l|] eqn:C; auto. cbn. f_equal. apply filter_none.
  intros x Hx Hv. destruct (I3 c l C) as [_ F]. destruct (F x Hx). now destruct (H x Hv).
Qed.

(** Releasing any live object. *)
Lemma Release_killed h o : inv h -> alive h o = true -> exists h', Release h o = Some h' /\ killed h [o] h'.
Proof.
  intros I A. pose proof I as (I1 & I2 & I3 & I4). unfold Release. rewrite A.
  destruct (owner_of h o) as [w|] eqn:W.
  - specialize (I4 o w A W). destruct w as [r|c]; cbn [OnOwnedObjectReleased].
    + rewrite I4, Nat.eqb_refl. eexists. split; [reflexivity|]. split; [|split; [|split; [|split]]]; upds.
      * intro x. rewrite among1. destruct (Nat.eqb_spec x o); cbn [negb]; [now rewrite andb_false_r | now rewrite andb_true_r].
      * intros x Hx. destruct (Nat.eqb_spec x o); auto. subst. exfalso. apply Hx. now left.
      * intro r'. destruct (Nat.eqb_spec r' r).
        -- subst. rewrite I4, among1, Nat.eqb_refl. reflexivity.
        -- symmetry. apply refs_other; auto. intros x [<-|[]]. congruence.
      * intro c. symmetry. apply conts_other; auto. intros x [<-|[]]. congruence.
      * reflexivity.
    + destruct I4 as (l & C & Ho). rewrite C. destruct (contains l o) eqn:CO; [|apply contains_In in Ho; congruence].
      eexists. split; [reflexivity|]. split; [|split; [|split; [|split]]]; upds.
      * intro x. rewrite among1. destruct (Nat.eqb_spec x o); cbn [negb]; [now rewrite andb_false_r | now rewrite andb_true_r].
      * intros x Hx. destruct (Nat.eqb_spec x o); auto. subst. exfalso. apply Hx. now left.
      * intro r'. symmetry. apply refs_other; auto. intros x [<-|[]]. congruence.
      * intro c'. destruct (Nat.eqb_spec c' c).
        -- subst. rewrite C. cbn [option_map]. f_equal. apply remove_first_filter. now apply (I3 c).
        -- symmetry. apply conts_other; auto. intros x [<-|[]]. congruence.
      * reflexivity.
  - eexists. split; [reflexivity|]. split; [|split; [|split; [|split]]]; upds; auto.
    + intro x. rewrite among1. destruct (Nat.eqb_spec x o); cbn [negb]; [now rewrite andb_false_r | now rewrite andb_true_r].
    + intro r'. symmetry. apply refs_other; auto. intros x [<-|[]]. congruence.
    + intro c'. symmetry. apply conts_other; auto. intros x [<-|[]]. congruence.
Qed.

Lemma detach_release h w o : alive h o = true -> owner_of h o = Some w ->
  exists h1, DetachObject h w o = Some h1 /\ h1 = set_owner h o None /\ Release h1 o = Some (set_alive h1 o false).
Proof.
  intros A W. unfold DetachObject. rewrite A, W. cbn [is_owner]. rewrite owner_eqb_refl. unfold SetObjectOwner. rewrite A, W.
  eexists. split; [reflexivity|]. split; [reflexivity|]. unfold Release. upds. rewrite A, Nat.eqb_refl. reflexivity.
Qed.
Lemma release_all_ok c os : forall h, NoDup os -> (forall o, In o os -> alive h o = true /\ owner_of h o = Some (Cont c)) ->
  exists h', release_all h c os = Some h' /\ (forall x, alive h' x = alive h x && negb (among os x)) /\
    (forall x, ~ In x os -> owner_of h' x = owner_of h x) /\ refs h' = refs h /\ conts h' = conts h /\ next h' = next h.
Proof.
  induction os as [|o os IH]; intros h N F.
  - exists h. cbn. repeat split; auto. intro x. now rewrite andb_true_r.
  - inversion N as [|? ? N1 N2]; subst. destruct (F o (or_introl eq_refl)) as [A W].
    destruct (detach_release h (Cont c) o A W) as (h1 & D & E & R).
    destruct (IH (set_alive h1 o false)) as (h' & H1 & H2 & H3 & H4 & H5 & H6); auto.
    { intros x Hx. destruct (F x (or_intror Hx)) as [Ax Wx]. subst h1. upds.
      destruct (Nat.eqb_spec x o); [subst; contradiction | auto]. }
    exists h'. cbn [release_all]. rewrite D, R. split; auto. subst h1. upds. split; [|split; [|auto]].
    + intro x. rewrite H2. unfold among. cbn [existsb]. destruct (Nat.eqb_spec x o); cbn; [now rewrite andb_false_r | reflexivity].
    + intros x Hx. cbn in Hx. rewrite H3 by tauto. destruct (Nat.eqb_spec x o); auto. subst. tauto.
Qed.
Lemma firstn_In_nat (n : nat) (l : list nat) x : In x (firstn n l) -> In x l.
Proof. intro H. rewrite <- (firstn_skipn n l). apply in_or_app. auto. Qed.
Lemma skipn_In_nat (n : nat) (l : list nat) x : In x (skipn n l) -> In x l.
Proof. intro H. rewrite <- (firstn_skipn n l). apply in_or_app. auto. Qed.
Lemma NoDup_range (l : list nat) i n : NoDup l -> NoDup (firstn n (skipn i l)).
Proof.
  intro N. rewrite <- (firstn_skipn i l) in N. apply NoDup_app_remove_l in N. rewrite <- (firstn_skipn n (skipn i l)) in N.
  apply NoDup_app_remove_r in N. auto.
Qed.
Lemma erase_range_killed h c l i n : inv h -> conts h c = Some l -> i + n <= length l ->
  exists h', cont_erase_range h c i n = Some h' /\ killed h (firstn n (skipn i l)) h'.
Proof.
  intros I C L. pose proof I as (I1 & I2 & I3 & I4). destruct (I3 c l C) as [N F].
  destruct (release_all_ok c (firstn n (skipn i l)) h) as (h' & H1 & H2 & H3 & H4 & H5 & H6).
  { now apply NoDup_range. }
  { intros o Ho. apply F. eapply skipn_In_nat, firstn_In_nat; eauto. }
  unfold cont_erase_range. rewrite C. destruct (Nat.leb_spec (i + n) (length l)); [|lia]. rewrite H1, H5, C.
  eexists. split; [reflexivity|]. split; [|split; [|split; [|split]]]; upds; auto.
  - intro r. rewrite H4. symmetry. apply refs_other; auto. intros o Ho.
    destruct (F o) as [_ E]; [eapply skipn_In_nat, firstn_In_nat; eauto|]. congruence.
  - intro c'. destruct (Nat.eqb_spec c' c).
    + subst. rewrite C. cbn [option_map]. now rewrite filter_range by auto.
    + rewrite H5. symmetry. apply conts_other; auto. intros o Ho.
      destruct (F o) as [_ E]; [eapply skipn_In_nat, firstn_In_nat; eauto|]. congruence.
Qed.
Lemma skipn_nth (l : list nat) i o : nth_error l i = Some o -> firstn 1 (skipn i l) = [o].
Proof. revert l. induction i; destruct l; cbn; try discriminate; [now intros [= ->] | apply IHi]. Qed.
Lemma erase_killed h c l i o : inv h -> conts h c = Some l -> nth_error l i = Some o ->
  exists h', cont_erase h c i = Some h' /\ killed h [o] h'.
Proof.
  intros I C E. pose proof I as (I1 & I2 & I3 & I4). destruct (I3 c l C) as [N F].
  destruct (F o (nth_error_In _ _ E)) as [A W].
  unfold cont_erase. rewrite C, E.
  destruct (detach_release (set_cont h c (Some (firstn i l ++ skipn (S i) l))) (Cont c) o) as (h1 & D & E1 & R); auto.
  rewrite D, R. eexists. split; [reflexivity|]. subst h1. split; [|split; [|split; [|split]]]; upds; auto.
  - intro x. rewrite among1. destruct (Nat.eqb_spec x o); cbn [negb]; [now rewrite andb_false_r | now rewrite andb_true_r].
  - intros x Hx. destruct (Nat.eqb_spec x o); auto. subst. exfalso. apply Hx. now left.
  - intro r'. symmetry. apply refs_other; auto. intros x [<-|[]]. congruence.
  - intro c'. destruct (Nat.eqb_spec c' c).
    + subst. rewrite C. cbn [option_map]. f_equal. rewrite <- (skipn_nth l i o E).
      rewrite filter_range; auto; [now replace (i + 1) with (S i) by lia |].
      assert (i < length l) by (apply nth_error_Some; congruence). lia.
    + symmetry. apply conts_other; auto. intros x [<-|[]]. congruence.
Qed.
Lemma skipn_last (l : list nat) : l <> [] -> exists o, nth_error l (length l - 1) = Some o /\ skipn (length l - 1) l = [o].
Proof.
  intro H. destruct (exists_last H) as (a & o & ->). exists o. rewrite app_length. cbn. replace (length a + 1 - 1) with (length a) by lia.
  split; [rewrite nth_error_app2, Nat.sub_diag by lia; reflexivity | rewrite skipn_app, skipn_all, Nat.sub_diag; reflexivity].
Qed.
Lemma pop_back_killed h c l : inv h -> conts h c = Some l ->
  exists h', cont_pop_back h c = Some h' /\ killed h (skipn (length l - 1) l) h'.
Proof.
  intros I C. unfold cont_pop_back. rewrite C. destruct l as [|a l0] eqn:L.
  - exists h. split; auto. apply killed_nil.
  - destruct (skipn_last (a :: l0)) as (o & E & S); [discriminate|]. rewrite S. apply (erase_killed h c (a :: l0)); auto.
Qed.
Lemma pop_front_killed h c l : inv h -> conts h c = Some l ->
  exists h', cont_pop_front h c = Some h' /\ killed h (firstn 1 l) h'.
Proof.
  intros I C. unfold cont_pop_front. rewrite C. destruct l as [|a l0] eqn:L.
  - exists h. split; auto. apply killed_nil.
  - apply (erase_killed h c (a :: l0)); auto.
Qed.
Definition trivial_view (h : heap) := View (alive h) (refs h) (conts h) (next h).
Lemma same_trivial h : same h (trivial_view h).
Proof. repeat split; auto. Qed.
Lemma killed_ext h a b h' : (forall x, In x a <-> In x b) -> killed h a h' -> killed h b h'.
Proof.
  intros E (A1 & A2 & A3 & A4 & A5).
  assert (G : forall x, among a x = among b x).
  { intro x. destruct (among b x) eqn:B; [apply among_In, E, among_In; auto|]. apply among_notin. rewrite E. now apply among_notin. }
  split; [|split; [|split; [|split]]]; auto.
  - intro x. now rewrite A1, G.
  - intros x H. apply A2. now rewrite E.
  - intro r. rewrite A3. destruct (refs h r) as [[o|]|]; auto. now rewrite G.
  - intro c. rewrite A4. destruct (conts h c); cbn; auto. f_equal. apply filter_ext. intro. now rewrite G.
Qed.
Lemma clear_killed c n : forall h l, inv h -> conts h c = Some l -> length l = n ->
  exists h', clear_loop n h c = Some h' /\ killed h l h'.
Proof.
  induction n as [|n IH]; intros h l I C L.
  - destruct l; [|discriminate]. exists h. split; auto. apply killed_nil.
  - destruct (pop_back_killed h c l I C) as (h1 & P & K). cbn [clear_loop]. rewrite P.
    destruct (killed_ok h _ h1 _ I (same_trivial h) K) as [I1 _].
    assert (Ln : l <> []) by (destruct l; discriminate). destruct (exists_last Ln) as (a & o & ->).
    rewrite app_length in *. cbn [length] in *. replace (length a + 1 - 1) with (length a) in K by lia.
    rewrite skipn_app, skipn_all, Nat.sub_diag in K. cbn in K.
    assert (Nd : NoDup (a ++ [o])) by apply (proj1 (proj2 (proj2 I)) c _ C).
    assert (C1 : conts h1 c = Some a).
    { destruct K as (_ & _ & _ & K4 & _). rewrite K4, C. cbn [option_map]. f_equal. rewrite filter_app.
      rewrite filter_none. { cbn. rewrite Nat.eqb_refl. cbn. apply app_nil_r. }
      intros x Hx [<-|[]]. apply NoDup_remove_2 in Nd. rewrite app_nil_r in Nd. auto. }
    destruct (IH h1 a I1 C1) as (h' & H1 & H2); [lia|]. exists h'. split; auto.
    apply (killed_ext h ([o] ++ a)); [intro x; rewrite !in_app_iff; tauto|]. eapply killed_trans; eauto.
Qed.

(** Objects that nothing holds have no owner. *)
Lemma free_owner h s o : inv h -> same h s -> free_object s o -> alive h o = true /\ owner_of h o = None.
Proof.
  intros (I1 & I2 & I3 & I4) (S1 & S2 & S3 & S4) [A F]. rewrite <- S1 in A. split; auto.
  destruct (owner_of h o) as [w|] eqn:W; auto. exfalso. apply F. specialize (I4 o w A W). destruct w as [r|c].
  - left. exists r. now rewrite <- S2.
  - right. destruct I4 as (l & C & H). exists c, l. now rewrite <- S3.
Qed.
(** An owner takes over an object that has none. *)
Lemma attach_ref h s r o : inv h -> same h s -> (refs h r = Some None \/ refs h r = None) -> alive h o = true -> owner_of h o = None ->
  exists h', AttachObject (set_ref h r (Some (Some o))) (Ref r) o = Some h' /\ inv h' /\ same h' (put_ref s r (Some (Some o))).
Proof.
  intros (I1 & I2 & I3 & I4) (S1 & S2 & S3 & S4) R A W. unfold AttachObject, SetObjectOwner. upds. rewrite A, W.
  eexists. split; [reflexivity|]. split.
  - split; [|split; [|split]]; cbn.
    + auto.
    + intros r' x. destruct (Nat.eqb_spec r' r) as [->|]; [intros [= <-]; rewrite Nat.eqb_refl; auto|].
      intro H. destruct (I2 r' x H). destruct (Nat.eqb_spec x o); [subst; congruence | auto].
    + intros c l C. destruct (I3 c l C) as [N F]. split; auto. intros x Hx. destruct (F x Hx).
      destruct (Nat.eqb_spec x o); [subst; congruence | auto].
    + intros x w Ax. destruct (Nat.eqb_spec x o) as [->|].
      * intros [= <-]. now rewrite Nat.eqb_refl.
      * intro Wx. specialize (I4 x w Ax Wx). destruct w as [r'|]; auto. destruct (Nat.eqb_spec r' r); [|auto].
        subst. destruct R; congruence.
  - repeat split; cbn; auto. intro x. destruct (x =? r); auto.
Qed.
Lemma plain_ref h s r p : inv h -> same h s -> (refs h r = Some None \/ refs h r = None) -> (p = Some None \/ p = None) ->
  inv (set_ref h r p) /\ same (set_ref h r p) (put_ref s r p).
Proof.
  intros (I1 & I2 & I3 & I4) (S1 & S2 & S3 & S4) R P. split.
  - split; [|split; [|split]]; upds; auto.
    + intros r' x. destruct (Nat.eqb_spec r' r); [destruct P; subst; discriminate | auto].
    + intros x w Ax Wx. specialize (I4 x w Ax Wx). destruct w as [r'|]; auto. destruct (Nat.eqb_spec r' r); [|auto].
      subst. destruct R; congruence.
  - repeat split; cbn; auto. intro x. unfold upd. destruct (x =? r); auto.
Qed.
Lemma plain_cont h s c p : inv h -> same h s -> (conts h c = Some [] \/ conts h c = None) -> (p = Some [] \/ p = None) ->
  inv (set_cont h c p) /\ same (set_cont h c p) (put_members s c p).
Proof.
  intros (I1 & I2 & I3 & I4) (S1 & S2 & S3 & S4) R P. split.
  - split; [|split; [|split]]; upds; auto.
    + intros c' l. destruct (Nat.eqb_spec c' c); [|auto]. destruct P; subst; [|discriminate]. intros [= <-]. split; [constructor | intros ? []].
    + intros x w Ax Wx. specialize (I4 x w Ax Wx). destruct w as [|c']; auto. destruct (Nat.eqb_spec c' c); [|auto].
      subst. destruct I4 as (l & C & H). destruct R as [R|R]; rewrite R in C; inversion C; subst; destruct H.
  - repeat split; cbn; auto. intro x. unfold upd. destruct (x =? c); auto.
Qed.
Lemma insert_ok h s c l i o : inv h -> same h s -> conts h c = Some l -> i <= length l -> free_object s o ->
  exists h', cont_insert h c i o = Some h' /\ inv h' /\ same h' (put_members s c (Some (firstn i l ++ o :: skipn i l))).
Proof.
  intros I Sm C L F. destruct (free_owner h s o I Sm F) as [A W]. destruct I as (I1 & I2 & I3 & I4).
  destruct Sm as (S1 & S2 & S3 & S4). unfold cont_insert. rewrite C. destruct (Nat.leb_spec i (length l)); [|lia].
  unfold AttachObject, SetObjectOwner. rewrite A, W. eexists. split; [reflexivity|].
  assert (Im : forall x, In x (firstn i l ++ o :: skipn i l) <-> x = o \/ In x l).
  { intro x. rewrite in_app_iff. cbn. rewrite <- (firstn_skipn i l) at 3. rewrite in_app_iff. intuition congruence. }
  destruct (I3 c l C) as [N Fl].
  assert (No : ~ In o l) by (intro H1; destruct (Fl o H1); congruence).
  split.
  - split; [|split; [|split]]; upds; auto.
    + intros r x H1. destruct (I2 r x H1). destruct (Nat.eqb_spec x o); [subst; congruence | auto].
    + intros c' l'. destruct (Nat.eqb_spec c' c) as [->|].
      * intros [= <-]. split.
        -- apply NoDup_Add with (a := o) (l := l); [|split; auto]. rewrite <- (firstn_skipn i l) at 1. apply Add_app.
        -- intros x Hx. apply Im in Hx as [->|Hx]; [rewrite Nat.eqb_refl; auto|]. destruct (Fl x Hx).
           destruct (Nat.eqb_spec x o); [subst; congruence | auto].
      * intro C'. destruct (I3 c' l' C') as [N' F']. split; auto. intros x Hx. destruct (F' x Hx).
        destruct (Nat.eqb_spec x o); [subst; congruence | auto].
    + intros x w Ax. destruct (Nat.eqb_spec x o) as [->|].
      * intros [= <-]. rewrite Nat.eqb_refl. eexists. split; [reflexivity|]. apply Im. auto.
      * intro Wx. specialize (I4 x w Ax Wx). destruct w as [|c']; auto. destruct (Nat.eqb_spec c' c) as [->|]; auto.
        eexists. split; [reflexivity|]. apply Im. right. destruct I4 as (l' & C' & H1). congruence.
  - repeat split; cbn; auto. intro x. unfold upd. destruct (x =? c); auto.
Qed.
Lemma detach_ok h s c l i o : inv h -> same h s -> conts h c = Some l -> nth_error l i = Some o ->
  exists h', cont_detach h c i = Some h' /\ inv h' /\ same h' (put_members s c (Some (firstn i l ++ skipn (S i) l))) /\
    owner_of h' o = None.
Proof.
  intros (I1 & I2 & I3 & I4) (S1 & S2 & S3 & S4) C E. destruct (I3 c l C) as [N Fl].
  destruct (Fl o (nth_error_In _ _ E)) as [A W]. unfold cont_detach. rewrite C, E.
  destruct (detach_release (set_cont h c (Some (firstn i l ++ skipn (S i) l))) (Cont c) o) as (h1 & D & E1 & _); auto.
  rewrite D. exists h1. split; auto. subst h1.
  assert (Sp : l = firstn i l ++ o :: skipn (S i) l).
  { rewrite <- (firstn_skipn i l) at 1. f_equal. clear - E. revert l E. induction i; destruct l; cbn; try discriminate; [now intros [= ->] | apply IHi]. }
  set (a := firstn i l) in *. set (b := skipn (S i) l) in *. clearbody a b. subst l.
  assert (Hno : ~ In o (a ++ b)) by now apply NoDup_remove_2.
  split; [|split].
  - split; [|split; [|split]]; upds; auto.
    + intros r x H1. destruct (I2 r x H1). destruct (Nat.eqb_spec x o); [subst; congruence | auto].
    + intros c' l'. destruct (Nat.eqb_spec c' c) as [->|].
      * intros [= <-]. split; [now apply NoDup_remove_1 in N|]. intros x Hx.
        destruct (Fl x) as [Ax Wx]. { apply in_app_iff in Hx as [|]; apply in_app_iff; cbn; auto. }
        destruct (Nat.eqb_spec x o); [subst; contradiction | auto].
      * intro C'. destruct (I3 c' l' C') as [N' F']. split; auto. intros x Hx. destruct (F' x Hx).
        destruct (Nat.eqb_spec x o); [subst; congruence | auto].
    + intros x w Ax. destruct (Nat.eqb_spec x o) as [->|]; [discriminate|].
      intro Wx. specialize (I4 x w Ax Wx). destruct w as [|c']; auto. destruct (Nat.eqb_spec c' c) as [->|]; auto.
      eexists. split; [reflexivity|]. destruct I4 as (l' & C' & H1). rewrite C in C'. injection C' as <-.
      apply in_app_iff in H1 as [|[|]]; apply in_app_iff; auto. congruence.
  - repeat split; cbn; auto. intro x. unfold upd. destruct (x =? c); auto.
  - upds. now rewrite Nat.eqb_refl.
Qed.
Lemma ref_release_killed h r o : inv h -> refs h r = Some (Some o) -> exists h1 h2, DetachObject h (Ref r) o = Some h1 /\
  Release h1 o = Some h2 /\ killed h [o] (set_ref h2 r (Some None)) .
Proof.
  intros I R. pose proof I as (I1 & I2 & I3 & I4). destruct (I2 r o R) as [A W].
  destruct (detach_release h (Ref r) o A W) as (h1 & D & E & Rl). exists h1, (set_alive h1 o false). split; auto. split; auto.
  subst h1. split; [|split; [|split; [|split]]]; upds; auto.
  - intro x. rewrite among1. destruct (Nat.eqb_spec x o); cbn [negb]; [now rewrite andb_false_r | now rewrite andb_true_r].
  - intros x Hx. destruct (Nat.eqb_spec x o); auto. subst. exfalso. apply Hx. now left.
  - intro r'. destruct (Nat.eqb_spec r' r).
    + subst. rewrite R, among1, Nat.eqb_refl. reflexivity.
    + symmetry. apply refs_other; auto. intros x [<-|[]]. congruence.
  - intro c'. symmetry. apply conts_other; auto. intros x [<-|[]]. congruence.
Qed.
Lemma not_free_pointee h s r o : inv h -> same h s -> refs h r = Some (Some o) -> forall x, free_object s x -> x <> o.
Proof. intros _ (S1 & S2 & S3 & S4) R x [_ F] ->. apply F. left. exists r. now rewrite <- S2. Qed.

Lemma step_ok h s x : inv h -> same h s -> allowed s x -> exists h', run_op h x = Some h' /\ inv h' /\ same h' (expected s x).
Proof.
  intros I Sm Al. pose proof I as (I1 & I2 & I3 & I4). pose proof Sm as (S1 & S2 & S3 & S4).
  assert (KO : forall vs h', killed h vs h' -> inv h' /\ same h' (kill vs s)) by (intros; now apply (killed_ok h)).
  assert (CO : forall c, members s c <> None -> exists l, conts h c = Some l /\ elements s c = l /\ size s c = length l).
  { intros c H. unfold elements, size. rewrite S3. destruct (members s c) as [l|]; [|congruence]. exists l. auto. }
  destruct x as [|r p|r p|r|c|c i o|c o|c i|c|c|c i n|c|c|c i|o]; cbn [run_op expected allowed] in *.
  - eexists. split; [reflexivity|]. unfold new_object. split.
    + split; [|split; [|split]]; upds.
      * intros o. destruct (Nat.eqb_spec o (next h)); [lia|]. intro A. specialize (I1 o A). lia.
      * intros r o R. destruct (I2 r o R) as [A W]. specialize (I1 o A). destruct (Nat.eqb_spec o (next h)); [lia | auto].
      * intros c l C. destruct (I3 c l C) as [N F]. split; auto. intros o Ho. destruct (F o Ho) as [A W]. specialize (I1 o A).
        destruct (Nat.eqb_spec o (next h)); [lia | auto].
      * intros o w. destruct (Nat.eqb_spec o (next h)); [discriminate | apply I4].
    + split; [|split; [|split]]; cbn; auto. intro o. unfold upd. rewrite <- S4. destruct (o =? next h); auto.
  - destruct Al as [R P]. rewrite <- S2 in R. unfold ref_new. destruct p as [o|].
    + destruct (free_owner h s o I Sm P) as [A W]. apply attach_ref; auto.
    + eexists. split; [reflexivity|]. apply plain_ref; auto.
  - destruct Al as [R P]. rewrite <- S2 in R. unfold ref_assign, pointee. rewrite <- S2. destruct (refs h r) as [[old|]|] eqn:E; [| |congruence].
    + destruct (I2 r old E) as [A W]. destruct (Release_killed h old I A) as (h1 & Rl & K). rewrite Rl.
      destruct (KO _ _ K) as [J Sj]. pose proof K as (K1 & K2 & K3 & K4 & K5).
      assert (R1 : refs h1 r = Some None) by (rewrite K3, E, among1, Nat.eqb_refl; reflexivity). rewrite R1.
      destruct p as [o|].
      * pose proof (not_free_pointee h s r old I Sm E o P) as No. destruct (free_owner h s o I Sm P) as [Ao Wo].
        apply attach_ref; auto.
        -- rewrite K1, Ao, among1. apply Nat.eqb_neq in No. now rewrite No.
        -- rewrite K2; auto. intros [H|[]]. congruence.
      * eexists. split; [reflexivity|]. apply plain_ref; auto.
    + rewrite E. destruct (KO _ _ (killed_nil h)) as [J Sj]. destruct p as [o|].
      * destruct (free_owner h s o I Sm P) as [A W]. apply attach_ref; auto.
      * eexists. split; [reflexivity|]. apply plain_ref; auto.
  - rewrite <- S2 in Al. unfold ref_delete, pointee. rewrite <- S2. destruct (refs h r) as [[old|]|] eqn:E; [| |congruence].
    + destruct (ref_release_killed h r old I E) as (h1 & h2 & D & Rl & K). rewrite D, Rl. eexists. split; [reflexivity|].
      destruct (KO _ _ K) as [J Sj].
      destruct (plain_ref _ _ r None J Sj) as [G1 G2]; [left; upds; now rewrite Nat.eqb_refl | auto |].
      assert (X : forall z, refs (set_ref (set_ref h2 r (Some None)) r None) z = refs (set_ref h2 r None) z).
      { intro z. upds. destruct (z =? r); auto. }
      split.
      * destruct G1 as (J1 & J2 & J3 & J4). split; [|split; [|split]]; auto.
        -- intros r' o H. rewrite <- X in H. apply (J2 r' o H).
        -- intros o w Ao Wo. specialize (J4 o w Ao Wo). destruct w; auto. now rewrite <- X.
      * destruct G2 as (T1 & T2 & T3 & T4). split; [|split; [|split]]; auto. intro z. rewrite <- X. apply T2.
    + destruct (KO _ _ (killed_nil h)) as [J Sj]. eexists. split; [reflexivity|]. apply plain_ref; auto.
  - rewrite <- S3 in Al. eexists. split; [reflexivity|]. apply plain_cont; auto.
  - destruct Al as (M & L & F). destruct (CO c M) as (l & C & E & Z). rewrite E. apply insert_ok; auto. congruence.
  - destruct Al as (M & F). destruct (CO c M) as (l & C & E & Z). unfold cont_push_back. rewrite C, E.
    destruct (insert_ok h s c l (length l) o I Sm C (le_n _) F) as (h' & H). rewrite firstn_all, skipn_all in H. exists h'. auto.
  - destruct Al as (M & L). destruct (CO c M) as (l & C & E & Z). rewrite E. rewrite Z in L.
    destruct (nth_error l i) as [o|] eqn:N; [|apply nth_error_None in N; lia].
    destruct (erase_killed h c l i o I C N) as (h' & H & K). exists h'. split; auto. rewrite (skipn_nth l i o N). auto.
  - destruct (CO c Al) as (l & C & E & Z). rewrite E, Z. destruct (pop_back_killed h c l I C) as (h' & H & K). exists h'. auto.
  - destruct (CO c Al) as (l & C & E & Z). rewrite E. destruct (pop_front_killed h c l I C) as (h' & H & K). exists h'. auto.
  - destruct Al as (M & L). destruct (CO c M) as (l & C & E & Z). rewrite E. rewrite Z in L.
    destruct (erase_range_killed h c l i n I C L) as (h' & H & K). exists h'. auto.
  - destruct (CO c Al) as (l & C & E & Z). rewrite E. unfold cont_clear. rewrite C.
    destruct (clear_killed c (length l) h l I C eq_refl) as (h' & H & K). exists h'. auto.
  - destruct (CO c Al) as (l & C & E & Z). rewrite E. unfold cont_delete, cont_clear. rewrite C.
    destruct (clear_killed c (length l) h l I C eq_refl) as (h' & H & K). rewrite H. eexists. split; [reflexivity|].
    destruct (KO _ _ K) as [J Sj]. apply plain_cont; auto. left. destruct K as (_ & _ & _ & K4 & _). rewrite K4, C. cbn [option_map]. f_equal.
    assert (G : forall w, (forall y, In y w -> In y l) -> filter (fun y => negb (among l y)) w = []).
    { induction w as [|y w IH]; cbn; intro Hy; auto. rewrite (proj2 (among_In l y)) by auto. cbn. apply IH; auto. }
    apply G; auto.
  - destruct Al as (M & L). destruct (CO c M) as (l & C & E & Z). rewrite E. rewrite Z in L.
    destruct (nth_error l i) as [o|] eqn:N; [|apply nth_error_None in N; lia].
    destruct (detach_ok h s c l i o I Sm C N) as (h' & H1 & H2 & H3 & _). exists h'. auto.
  - rewrite <- S1 in Al. destruct (Release_killed h o I Al) as (h' & H & K). exists h'. auto.
Qed.
