(** Proofs about the change of the up-axis and the unit: all nodes of the visual scenes. *)
From Coq Require Import List Arith Reals Lra Lia Bool Relations.
From Verif Require Import IdModel MatrixModel QuatModel RotModel SceneModel SceneSpec SceneProofs SceneIterProofs SceneProps TransformModel AxisModel AxisSpec AxisNodeProofs.
Import ListNotations.

(** *** The loop over the nodes *)
Lemma placed_later s t c ht d d1 d2 n m : placed s t c ht d d1 n -> only d1 d2 m -> m <> n -> n < next (scene d) -> m < next (scene d) ->
  next (scene d) <= next (scene d1) -> placed s t c ht d d2 n.
Proof.
  intros (A & B & C) O N Hn Hm Hd. unfold placed. cbv zeta. rewrite (only_stack _ _ _ O) by (auto; lia). rewrite (only_kinds _ _ _ O) by (auto; lia). rewrite (only_chi _ _ _ O) by (auto; lia).
  split; [exact A|]. split; [exact B|]. intros Sw P. destruct (C Sw P) as (C1 & C2 & ps & C3 & Nd & C4). split; [exact C1|]. split; [exact C2|]. exists ps. split; [exact C3|]. split; [exact Nd|].
  eapply Forall2_impl; [|exact C4]. cbv beta. intros p i (R & T1 & T2 & T3). pose proof (only_next _ _ _ O). split; [lia|]. unfold turned_pivot.
  rewrite (only_par _ _ _ O), (only_kinds _ _ _ O), (only_stack _ _ _ O) by lia. auto.
Qed.
Lemma placed_earlier s t c ht d d1 d2 n : placed s t c ht d1 d2 n -> stack d1 n = stack d n -> kinds d1 n = kinds d n -> chi (scene d1) n = chi (scene d) n ->
  next (scene d) <= next (scene d1) -> placed s t c ht d d2 n.
Proof.
  unfold placed, only_pivoted. cbv zeta. intros (A & B & C) S K G N. rewrite S, K, G in *. split; [exact A|]. split; [exact B|]. intros Sw P. destruct (C Sw P) as (C1 & C2 & ps & C3 & Nd & C4).
  split; [exact C1|]. split; [exact C2|]. exists ps. split; [exact C3|]. split; [exact Nd|]. eapply Forall2_impl; [|exact C4]. cbv beta. intros p i (R & T). split; [lia | exact T].
Qed.
Lemma rest_base d d' : rest d' = rest d -> base d' = base d /\ scene_library d' = scene_library d /\ roots d' = roots d.
Proof. unfold rest. intro E. injection E. auto. Qed.
Lemma convert_nodes_keeps fuel unit target ht s t c d d' n : forall l d1, ~ In n l -> n < next (scene d) -> (forall x, In x l -> x < next (scene d)) -> fresh d1 -> (forall x, quiet (node_asset d1 x)) ->
  quiet (scene_library d1) -> next (scene d) <= next (scene d1) -> placed s t c ht d d1 n -> convert_nodes fuel unit target ht d1 l = Done d' -> placed s t c ht d d' n.
Proof.
  induction l as [|m l IHl]; intros d1 Nn Hn H F1 Q1 L1 N P E; cbn [convert_nodes] in E; [injection E as <-; exact P|].
  destruct (convert_node fuel unit target ht d1 m) as [d2| |] eqn:C; try discriminate. assert (Hm := H m (or_introl eq_refl)). assert (Hm1 : m < next (scene d1)) by lia.
  destruct (convert_node_placed fuel unit target ht d1 m d2 Hm1 F1 Q1 L1 C) as (O & _). pose proof (only_next _ _ _ O) as N2. destruct (rest_base _ _ (only_rest _ _ _ O)) as (_ & El & _).
  apply (IHl d2); [intro I; apply Nn; now right | exact Hn | intros x I; apply H; now right | now apply (only_fresh _ _ _ O) | now apply (only_quiet _ _ _ O) | now rewrite El | lia | | exact E].
  eapply placed_later; eauto. intros ->. apply Nn. now left.
Qed.
Lemma convert_nodes_placed fuel unit target ht : forall l d d', NoDup l -> (forall n, In n l -> n < next (scene d)) -> fresh d -> (forall x, quiet (node_asset d x)) -> quiet (scene_library d) ->
  convert_nodes fuel unit target ht d l = Done d' ->
  rest d' = rest d /\ next (scene d) <= next (scene d') /\ (forall x, x < next (scene d) -> par (scene d') x = par (scene d) x) /\
  (forall x, x < next (scene d) -> ~ In x l -> stack d' x = stack d x /\ kinds d' x = kinds d x /\ chi (scene d') x = chi (scene d) x) /\
  (forall x, quiet (node_asset d' x)) /\ fresh d' /\
  forall n, In n l -> placed (SetCurrent unit (current_unit d)) target (current_axis d) ht d d' n.
Proof.
  induction l as [|n l IH]; intros d d' ND H F Q L E; cbn [convert_nodes] in E.
  - injection E as <-. split; [reflexivity|]. split; [lia|]. repeat split; auto; contradiction.
  - destruct (convert_node fuel unit target ht d n) as [d1| |] eqn:C; try discriminate.
    destruct (convert_node_placed fuel unit target ht d n d1 (H n (or_introl eq_refl)) F Q L C) as (O & P). pose proof (only_next _ _ _ O) as N.
    destruct (rest_base _ _ (only_rest _ _ _ O)) as (Eb & El & _).
    apply NoDup_cons_iff in ND as [Nn ND].
    destruct (IH d1 d' ND) as (R & N1 & P1 & S1 & Q1 & F1 & A1); [intros x I; specialize (H x (or_intror I)); lia | now apply (only_fresh _ _ _ O) | now apply (only_quiet _ _ _ O) | now rewrite El | exact E|].
    unfold current_unit, current_axis in *. rewrite Eb in A1.
    split; [rewrite R; apply O|]. split; [lia|]. split; [intros x Hx; rewrite P1 by lia; now apply O|]. split.
    + intros x Hx Nx. cbn [In] in Nx. destruct (S1 x) as (E1 & E2 & E3); [lia | tauto|]. rewrite E1, E2, E3. assert (x <> n) by (intros ->; apply Nx; now left).
      rewrite (only_stack _ _ _ O), (only_kinds _ _ _ O), (only_chi _ _ _ O) by auto. auto.
    + split; [exact Q1|]. split; [exact F1|]. intros m [<-|I].
      * eapply convert_nodes_keeps; [exact Nn | apply H; now left | intros x I; apply H; now right | now apply (only_fresh _ _ _ O) | now apply (only_quiet _ _ _ O) | now rewrite El | exact N | exact P | exact E].
      * eapply placed_earlier; [apply A1; exact I | | | | exact N]; apply O; auto; try (intros ->; tauto); apply H; now right.
Qed.

(** *** The nodes that are visited *)
Inductive climb (g : graph) : nat -> nat -> Prop :=
| climb_here x : climb g x x
| climb_up x p r y : par g x = p :: r -> climb g p y -> climb g x y.
Lemma climb_linear g x a : climb g x a -> forall b, climb g x b -> climb g a b \/ climb g b a.
Proof.
  induction 1 as [x|x p r a E C IH]; intros b Cb; [now left|]. destruct Cb as [|x q r' b E' C']; [right; econstructor; eauto|]. rewrite E in E'. injection E' as <- _. now apply IH.
Qed.
Lemma climb_trans g x y z : climb g x y -> climb g y z -> climb g x z.
Proof. induction 1; intro H1; auto. econstructor; eauto. Qed.
Lemma climb_above g x y : climb g x y -> clos_refl_trans nat (fun p c => In p (par g c)) y x.
Proof. induction 1 as [|x p r y E C IH]; [apply rt_refl|]. eapply rt_trans; [exact IH|]. apply rt_step. rewrite E. now left. Qed.
Lemma climb_no_cycle g x p r : ok g -> par g x = p :: r -> climb g p x -> False.
Proof.
  intros O E C. apply climb_above in C. apply (Acc_no_cycle _ x (ok_up g O x)). eapply clos_rt_t; [exact C|]. apply t_step. rewrite E. now left.
Qed.
Lemma under_pure g n c : ok g -> In c (under g true n) <-> exists r, par g c = n :: r.
Proof.
  intro O. unfold under. rewrite filter_In. split.
  - intros [_ H]. destruct (par g c) as [|p r] eqn:E; [discriminate|]. apply Nat.eqb_eq in H. subst p. now exists r.
  - intros [r E]. rewrite E, Nat.eqb_refl. split; [|reflexivity]. apply (ok_mirror g O). rewrite E. now left.
Qed.
Lemma reach_climb g n x : ok g -> clos_refl_trans nat (fun p c => In c (under g true p)) n x <-> climb g x n.
Proof.
  intro O. split.
  - intro R. apply clos_rt_rtn1 in R. induction R as [|y z Hyz R IH]; [constructor|]. apply under_pure in Hyz as [r E]; auto. econstructor; eauto.
  - induction 1 as [|x p r y E C IH]; [apply rt_refl|]. eapply rt_trans; [exact IH|]. apply rt_step. apply under_pure; auto. now exists r.
Qed.
Lemma preorder_climb g n t : ok g -> unfolds g true n t -> forall x, In x (preorder t) <-> climb g x n.
Proof.
  intros O U x. pose proof (ok_down g O n) as A.
  assert (A2 : Acc (fun c p => In c (under g true p)) n). { eapply Acc_sub; [|exact A]. intros u v Iu. unfold under in Iu. apply filter_In in Iu. tauto. }
  destruct (C38_all_reached g true n A2) as (t' & U' & I & _).
  assert (T : t' = t).
  { clear - U U'. revert n t' U U'. induction t as [m ts IH] using tree_ind'. intros n t' U U'. apply unfolds_below in U as [-> F]. destruct t' as [m' ts']. apply unfolds_below in U' as [-> F']. f_equal.
    revert ts' F'. induction F as [|c u l us H F IHF]; intros ts' F'; inversion F'; subst; [reflexivity|]. inversion IH; subst. f_equal; [eapply H3; eauto | now apply IHF]. }
  subst t'. rewrite I. now apply reach_climb.
Qed.
Lemma preorder_NoDup g n t : ok g -> unfolds g true n t -> NoDup (preorder t).
Proof.
  intro O. revert n. induction t as [m ts IH] using tree_ind'. intros n U. pose proof U as U0. apply unfolds_below in U as [-> F]. cbn [preorder].
  assert (D : NoDup (under g true n)) by (apply NoDup_filter, (ok_chi g O)).
  assert (Up : forall c, In c (under g true n) -> exists r, par g c = n :: r) by (intros c I; now apply under_pure).
  constructor.
  - intro I. apply in_flat_map in I as (t & It & Im). destruct (In_nth_error _ _ It) as [k Ek].
    assert (E : exists c, In c (under g true n) /\ unfolds g true c t).
    { clear - F It. induction F as [|c u l us H F IHF]; [destruct It|]. destruct It as [->|It]; [exists c; split; auto; now left|]. destruct (IHF It) as (d & Id & Ud). exists d. split; auto. now right. }
    destruct E as (c & Ic & Uc). apply (preorder_climb g c t O Uc) in Im. destruct (Up c Ic) as [r Er]. eapply climb_no_cycle; eauto.
  - clear U0. induction F as [|c u l us H F IHF]; cbn [flat_map]; [constructor|]. inversion IH as [|? ? IHu IHus]; subst. apply NoDup_cons_iff in D as [Nc D].
    assert (Rest : NoDup (flat_map preorder us)) by (apply IHF; auto; intros; apply Up; now right).
    assert (App : forall (a b : list nat), NoDup a -> NoDup b -> (forall x, In x a -> In x b -> False) -> NoDup (a ++ b)).
    { induction a as [|x a IHa]; intros b Na Nb Hd; [exact Nb|]. apply NoDup_cons_iff in Na as [Nx Na]. cbn [app]. constructor; [|apply IHa; auto; intros y Ia Ib; apply (Hd y); auto; now right].
      intro I. apply in_app_iff in I as [I|I]; [tauto | apply (Hd x); auto; now left]. }
    apply App; [eapply IHu; eauto | exact Rest|]. intros x Ix Iy. apply in_flat_map in Iy as (t & It & Iy).
    assert (E : exists e, In e l /\ unfolds g true e t).
    { clear - F It. induction F as [|e v l us H F IHF]; [destruct It|]. destruct It as [->|It]; [exists e; split; auto; now left|]. destruct (IHF It) as (d & Id & Ud). exists d. split; auto. now right. }
    destruct E as (e & Ie & Ue). apply (preorder_climb g c u O H) in Ix. apply (preorder_climb g e t O Ue) in Iy.
    destruct (Up c (or_introl eq_refl)) as [rc Ec]. destruct (Up e (or_intror Ie)) as [re Ee].
    assert (Ne : c <> e) by (intros ->; tauto).
    destruct (climb_linear g x c Ix e Iy) as [C|C].
    + inversion C as [|? p r ? E2 C2]; subst; [congruence|]. rewrite Ec in E2. injection E2 as <- <-. eapply climb_no_cycle; [exact O | exact Ee | exact C2].
    + inversion C as [|? p r ? E2 C2]; subst; [congruence|]. rewrite Ee in E2. injection E2 as <- <-. eapply climb_no_cycle; [exact O | exact Ec | exact C2].
Qed.
Lemma path_climb g l n : path g l n -> exists r t, l = r :: t /\ par g r = [] /\ climb g n r.
Proof.
  induction 1 as [n E|l p n rest H (r & t & -> & Er & C) E]; [exists n, []; repeat split; [exact E | constructor]|].
  exists r, (t ++ [n]). repeat split; auto. econstructor; eauto.
Qed.
Lemma climb_path g n r : climb g n r -> par g r = [] -> exists t, path g (r :: t) n.
Proof.
  induction 1 as [x|x p q y E C IH]; intro Hr; [exists []; now constructor|]. destruct (IH Hr) as [t P]. exists (t ++ [x]). rewrite app_comm_cons. econstructor; eauto.
Qed.
(** What the proofs need of a document: it holds after the conversion, too. *)
Definition sound (d : document) : Prop := ok (scene d) /\ NoDup (roots d) /\ (forall r, In r (roots d) -> alive (scene d) r = true /\ par (scene d) r = []).
Lemma proper_sound d : proper d -> sound d.
Proof. intros (H & R). split; [now apply history_ok | exact R]. Qed.
Lemma in_scene_climb d n : sound d -> in_scene d n <-> exists r, In r (roots d) /\ climb (scene d) n r.
Proof.
  intros (_ & _ & R). split.
  - intros (r & l & P & I). exists r. split; [exact I|]. apply path_climb in P as (r' & t & [= <- <-] & _ & C). exact C.
  - intros (r & I & C). destruct (R r I) as [_ E]. destruct (climb_path _ _ _ C E) as [t P]. exists r, t. auto.
Qed.
Lemma climb_alive g n r : ok g -> climb g n r -> alive g r = true -> alive g n = true.
Proof. intros O C. induction C as [x|x p q y E C IH]; auto. intro A. apply (ok_alive g O p x). apply (ok_mirror g O). rewrite E. now left. Qed.
Lemma visited_all g : ok g -> forall l, NoDup l -> (forall r, In r l -> par g r = []) -> exists fuel0 ns, (forall fuel, fuel0 <= fuel -> visited fuel g l = Done ns) /\ NoDup ns /\
  forall n, In n ns <-> exists r, In r l /\ climb g n r.
Proof.
  intros O. induction l as [|r l IH]; intros ND R.
  - exists 0, []. split; [reflexivity|]. split; [constructor|]. intro n. split; [intros [] | intros (r & [] & _)].
  - apply NoDup_cons_iff in ND as [Nr ND]. destruct IH as (f1 & ns & V & D & I); [auto | intros; apply R; now right|].
    assert (A2 : Acc (fun c p => In c (under g true p)) r). { eapply Acc_sub; [|exact (ok_down g O r)]. intros u v Iu. unfold under in Iu. apply filter_In in Iu. tauto. }
    destruct (C38_all_reached g true r A2) as (t & U & _). destruct (C38_iteration_partial g true r t U) as (_ & P & _). destruct (P (or_introl eq_refl)) as [f2 F2].
    pose proof (preorder_climb g r t O U) as Pc. pose proof (preorder_NoDup g r t O U) as Pn.
    exists (f1 + f2), (ns ++ preorder t). split; [|split].
    + intros fuel Hf. cbn [visited]. rewrite V, F2 by lia. reflexivity.
    + clear - D Pn I Pc R O Nr. assert (Hd : forall x, In x ns -> In x (preorder t) -> False).
      { intros x Ix Iy. apply I in Ix as (r' & Ir & C). apply Pc in Iy. destruct (climb_linear g x r Iy r' C) as [K|K]; inversion K as [|? p q ? E2 C2]; subst; try tauto; [rewrite (R r (or_introl eq_refl)) in E2 | rewrite (R r' (or_intror Ir)) in E2]; discriminate. }
      revert D Hd. clear - Pn. induction ns as [|x ns IHn]; intros D Hd; [exact Pn|]. apply NoDup_cons_iff in D as [Nx D]. cbn [app]. constructor; [|apply IHn; auto; intros y Iy; apply Hd; now right].
      intro J. apply in_app_iff in J as [J|J]; [tauto | apply (Hd x); auto; now left].
    + intro n. rewrite in_app_iff, I, Pc. split.
      * intros [(r' & Ir & C)|C]; [exists r'; split; auto; now right | exists r; split; auto; now left].
      * intros (r' & [<-|Ir] & C); [now right | left; eauto].
Qed.
