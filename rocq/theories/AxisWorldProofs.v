(** Proofs about the change of the up-axis and the unit: termination and the world transformations. *)
From Coq Require Import List Arith Reals Lra Lia Bool.
From Verif Require Import IdModel MatrixModel MatrixProps QuatModel RotModel SceneModel SceneSpec SceneProofs TransformModel TransformProps AxisModel AxisSpec AxisProofs AxisNodeProofs AxisSceneProofs.
Import ListNotations.

(** *** Enough fuel *)
Lemma par_old g n p r : ok g -> par g n = p :: r -> p < next g.
Proof. intros O E. apply (ok_next g O). apply (ok_alive g O p n). apply (ok_mirror g O). rewrite E. now left. Qed.
Lemma node_assets_done g : ok g -> forall n, n < next g -> exists k, forall fuel, k <= fuel -> forall d, (forall x, x < next g -> par (scene d) x = par g x) ->
  exists l, node_assets fuel d n = Done l.
Proof.
  intros O n. induction (ok_up g O n) as [n _ IH]. intro Hn. destruct (par g n) as [|p r] eqn:E.
  - exists 1. intros fuel Hf d P. destruct fuel as [|f]; [lia|]. cbn [node_assets]. rewrite P, E by auto. eauto.
  - destruct (IH p) as [k K]; [now left | eapply par_old; eauto|]. exists (S k). intros fuel Hf d P. destruct fuel as [|f]; [lia|]. cbn [node_assets]. rewrite P, E by auto.
    destruct (K f ltac:(lia) d P) as [l ->]. eauto.
Qed.
Lemma convert_nodes_done g unit target ht : ok g -> forall l, (forall n, In n l -> n < next g) -> exists k, forall fuel, k <= fuel -> forall d,
  next g <= next (scene d) -> (forall x, x < next g -> par (scene d) x = par g x) -> fresh d -> (forall x, quiet (node_asset d x)) -> quiet (scene_library d) ->
  exists d', convert_nodes fuel unit target ht d l = Done d'.
Proof.
  intros O. induction l as [|n l IH]; intro H; [exists 0; intros; cbn [convert_nodes]; eauto|].
  destruct IH as [k K]; [intros; apply H; now right|]. destruct (node_assets_done g O n (H n (or_introl eq_refl))) as [k2 K2].
  exists (k + k2). intros fuel Hf d N P F Q L. destruct (K2 fuel ltac:(lia) d P) as [as_ A].
  assert (C : exists d1, convert_node fuel unit target ht d n = Done d1).
  { unfold convert_node. rewrite A. destruct (GetAssetFunctors unit as_ (scene_library d)) as [factor current]. eauto. }
  destruct C as [d1 C]. assert (Hn : n < next (scene d)) by (specialize (H n (or_introl eq_refl)); lia).
  destruct (convert_node_placed fuel unit target ht d n d1 Hn F Q L C) as (Od & _). destruct (rest_base _ _ (only_rest _ _ _ Od)) as (_ & El & _). pose proof (only_next _ _ _ Od).
  cbn [convert_nodes]. rewrite C. apply K; [lia | lia | | now apply Od | now apply Od | now rewrite El].
  intros x Hx. rewrite (only_par _ _ _ Od) by lia. auto.
Qed.

(** *** The scene after the conversion *)
(** What holds of the document [d'] after the loop over the nodes of [d]. *)
Record after (s : R) (target current : axis) (ht : bool) (d d' : document) : Prop := {
  after_next : next (scene d) <= next (scene d');
  after_par : forall x, x < next (scene d) -> par (scene d') x = par (scene d) x;
  after_out : forall x, x < next (scene d) -> ~ in_scene d x -> stack d' x = stack d x /\ kinds d' x = kinds d x /\ chi (scene d') x = chi (scene d) x;
  after_in : forall x, in_scene d x -> placed s target current ht d d' x;
  after_quiet : forall x, quiet (node_asset d' x) }.
Lemma fresh_ok d : ok (scene d) -> fresh d.
Proof.
  intros O p Hp. destruct (par (scene d) p) as [|q r] eqn:E; [reflexivity|]. exfalso.
  assert (A : alive (scene d) p = true) by (apply (ok_alive _ O q p), (ok_mirror _ O); rewrite E; now left). apply (ok_next _ O) in A. lia.
Qed.
Lemma in_scene_old d n : sound d -> in_scene d n -> n < next (scene d).
Proof.
  intros P I. pose proof P as (H & _ & R). apply in_scene_climb in I as (r & Ir & C); [|exact P]. pose proof H as O. apply (ok_next _ O). eapply climb_alive; eauto. now apply R.
Qed.
Lemma in_scene_alive d n : sound d -> in_scene d n -> alive (scene d) n = true.
Proof. intros P I. pose proof P as (O & _ & R). apply in_scene_climb in I as (r & Ir & C); [|exact P]. eapply climb_alive; eauto. now apply R. Qed.
Lemma in_scene_parent d n p r : sound d -> in_scene d n -> par (scene d) n = p :: r -> in_scene d p.
Proof.
  intros P I E. apply in_scene_climb in I as (q & Iq & C); [|exact P]. apply in_scene_climb; [exact P|]. exists q. split; [exact Iq|].
  inversion C as [|? p' r' ? E' C']; subst; [|rewrite E in E'; injection E' as <- <-; exact C'].
  destruct P as (_ & _ & R). destruct (R q Iq) as [_ Z]. rewrite E in Z. discriminate.
Qed.
Theorem scene_converted d unit target ht : sound d -> (forall n, quiet (node_asset d n)) -> quiet (scene_library d) ->
  exists fuel0, forall fuel, fuel0 <= fuel -> exists ns d', visited fuel (scene d) (roots d) = Done ns /\ convert_nodes fuel unit target ht d ns = Done d' /\
    rest d' = rest d /\ after (SetCurrent unit (current_unit d)) target (current_axis d) ht d d' /\ (forall n, In n ns -> in_scene d n).
Proof.
  intros P Q L. pose proof P as (H & ND & R). pose proof H as O.
  destruct (visited_all (scene d) O (roots d) ND) as (k1 & ns & V & D & I); [intros r Ir; now apply R|].
  assert (I2 : forall n, In n ns <-> in_scene d n) by (intro n; rewrite I; symmetry; now apply in_scene_climb).
  assert (Old : forall n, In n ns -> n < next (scene d)) by (intros n In_; apply in_scene_old, I2; auto).
  destruct (convert_nodes_done (scene d) unit target ht O ns Old) as [k2 K]. exists (k1 + k2). intros fuel Hf.
  destruct (K fuel ltac:(lia) d (le_n _) (fun _ _ => eq_refl) (fresh_ok d O) Q L) as [d' C]. exists ns, d'. split; [apply V; lia|]. split; [exact C|].
  destruct (convert_nodes_placed fuel unit target ht ns d d' D Old (fresh_ok d O) Q L C) as (E & N & Pa & St & Qu & _ & Pl).
  split; [exact E|]. split; [|intros n; apply I2]. constructor; auto; [|intros x Ix; apply Pl, I2, Ix]. intros x Hx Nx. apply St; auto. rewrite I2. exact Nx.
Qed.

(** *** World transformations *)
Lemma plain_fine (l : list entry) : Forall (fun e : entry => plain (fst e)) l -> Forall (fun e => fine (fst e)) l.
Proof. intro F. eapply Forall_impl; [|exact F]. intros [t a]. cbn [fst]. destruct t; auto. Qed.
Lemma plain_affine (l : list entry) : Forall (fun e : entry => plain (fst e)) l -> affine (node_matrix l).
Proof. intro F. apply (proj1 (proj2 (C77_stack l) ltac:(eapply Forall_impl; [|exact F]; intros [t a]; unfold affine_entry; cbn [fst]; destruct t; auto))). Qed.
Lemma product_affine a b : affine a -> affine b -> affine (product a b).
Proof. intros (A1 & A2 & A3 & A4) (B1 & B2 & B3 & B4). unfold affine. cbn. rewrite A1, A2, A3, A4, B1, B2, B3, B4. repeat split; ring. Qed.
Lemma placed_stack s t c ht d d' n : placed s t c ht d d' n -> has_swap (PrepareFunctor t c) = false \/ ~ only_pivoted d n -> stack d' n = convert_stack s (PrepareFunctor t c) (stack d n).
Proof.
  intros (A & _ & B) H. destruct (has_swap (PrepareFunctor t c)) eqn:E; [|now apply A]. destruct H as [H|H]; [discriminate|]. now apply B.
Qed.
Lemma world_carried s t c ht d d' : sound d -> after s t c ht d d' -> s = 1%R \/ has_length s = true ->
  (forall x, in_scene d x -> Forall (fun e : entry => plain (fst e)) (stack d x)) ->
  forall fuel n m, in_scene d n -> CalculateWorldTransform fuel (scene d) (stack d) n = Done m -> has_swap (PrepareFunctor t c) = false \/ ~ only_pivoted d n ->
  affine m /\ exists m', CalculateWorldTransform fuel (scene d') (stack d') n = Done m' /\ carries (frame s (PrepareFunctor t c)) m m'.
Proof.
  intros P A Hs F. induction fuel as [|fuel IH]; intros n m I E Np; [discriminate|]. cbn [CalculateWorldTransform] in *.
  rewrite (after_par _ _ _ _ _ _ A) by (now apply in_scene_old). pose proof (placed_stack _ _ _ _ _ _ _ (after_in _ _ _ _ _ _ A n I) Np) as St. rewrite St.
  pose proof (convert_stack_carries s (PrepareFunctor t c) (stack d n) Hs (plain_fine _ (F n I))) as Cn. pose proof (plain_affine _ (F n I)) as An.
  destruct (par (scene d) n) as [|p r] eqn:Ep.
  - injection E as <-. split; [exact An|]. eexists. split; [reflexivity|]. exact Cn.
  - destruct (CalculateWorldTransform fuel (scene d) (stack d) p) as [mp| |] eqn:W; try discriminate. injection E as <-.
    destruct (IH p mp) as (Ap & mp' & W' & Cp); [eapply in_scene_parent; eauto | exact W | |].
    { right. intros [Hc _]. pose proof P as (H & _). assert (Ic : In n (chi (scene d) p)) by (apply (ok_mirror _ H); rewrite Ep; now left). rewrite Hc in Ic. destruct Ic. }
    split; [now apply product_affine|]. rewrite W'. eexists. split; [reflexivity|]. now apply carries_product.
Qed.
(** A camera, or another entity that turns with its node, is shown by the node [c]. *)
Lemma pivot_carried s t c m m' mp : affine m -> carries (frame s (PrepareFunctor t c)) m m' -> mp = product m' (turning (PrepareFunctor t c)) -> forall q,
  TransformCoordinate mp (vscale s q) = vscale s (TransformVector (turning (PrepareFunctor t c)) (TransformCoordinate m q)).
Proof.
  intros A C -> q. destruct (turning_rotation (PrepareFunctor t c)) as (_ & _ & At & _). rewrite (proj1 (C42_points_partial m' _ (vscale s q) At)), <- (carries_point s _ m m' A C).
  f_equal. destruct q as [x y z], (PrepareFunctor t c); apply vec3_ext; vopen; ring.
Qed.

Lemma world_more g tr : forall fuel n m, CalculateWorldTransform fuel g tr n = Done m -> CalculateWorldTransform (S fuel) g tr n = Done m.
Proof.
  induction fuel as [|fuel IH]; intros n m E; [discriminate|]. cbn [CalculateWorldTransform] in E. change (CalculateWorldTransform (S (S fuel)) g tr n) with
    (match par g n with parent :: _ => match CalculateWorldTransform (S fuel) g tr parent with Done m => Done (product m (node_matrix (tr n))) | Fuel => Fuel | Bad => Bad end | [] => Done (node_matrix (tr n)) end).
  destruct (par g n) as [|p r]; [exact E|]. destruct (CalculateWorldTransform fuel g tr p) as [mp| |] eqn:W; try discriminate. now rewrite (IH _ _ W).
Qed.
Lemma Forall2_right {A B} (P : A -> B -> Prop) (Q : B -> Prop) l m : Forall2 P l m -> (forall b, In b m -> Q b) -> Forall2 (fun a b => P a b /\ Q b) l m.
Proof. intros F H. induction F; constructor; [split; auto; apply H; now left | apply IHF; intros; apply H; now right]. Qed.
(** One node for each instance. *)
Lemma split_filter (n : nat) : forall (l : list instance) ps, Forall2 (fun p i => p <> n /\ i <> Other) ps (filter is_pivoted l) -> exists ks, length ks = length l /\
  map fst (filter (fun e => snd e =? n) (combine l ks)) = filter (fun i => negb (is_pivoted i)) l /\
  filter (fun k => negb (k =? n)) ks = ps /\
  (forall (R : instance -> nat -> Prop), (In Other l -> R Other n) -> Forall2 (fun p i => R i p) ps (filter is_pivoted l) -> Forall2 R l ks).
Proof.
  induction l as [|i l IH]; intros ps F.
  - inversion F; subst. exists []. repeat split. constructor.
  - destruct i as [b|]; cbn [filter is_pivoted negb] in *.
    + inversion F as [|p i ps' l' (Np & _) F']; subst. destruct (IH ps' F') as (ks & Len & A & B & C). exists (p :: ks). cbn [length combine filter snd].
      destruct (Nat.eqb_spec p n) as [|_]; [contradiction|]. cbn [negb]. split; [now f_equal|]. split; [exact A|]. split; [now f_equal|].
      intros R Ro Fr. inversion Fr; subst. constructor; auto. apply C; auto. intro J. apply Ro. now right.
    + destruct (IH ps F) as (ks & Len & A & B & C). exists (n :: ks). cbn [length combine filter snd]. rewrite Nat.eqb_refl. cbn [negb map fst]. split; [now f_equal|]. split; [now f_equal|]. split; [exact B|].
      intros R Ro Fr. constructor; [apply Ro; now left|]. apply C; auto. intro J. apply Ro. now right.
Qed.
Lemma same_nodes (n : nat) (l : list instance) : let ks := map (fun _ => n) l in map fst (filter (fun e => snd e =? n) (combine l ks)) = l /\ filter (fun k => negb (k =? n)) ks = [].
Proof. induction l as [|i l [A B]]; cbn [map combine filter snd]; [split; reflexivity|]. rewrite Nat.eqb_refl. cbn [negb map fst]. split; [now f_equal | exact B]. Qed.
Lemma same_forall (n : nat) (R : instance -> nat -> Prop) l : (forall i, In i l -> R i n) -> Forall2 R l (map (fun _ => n) l).
Proof. induction l as [|i l IH]; intro H; constructor; [apply H; now left | apply IH; intros; apply H; now right]. Qed.
(** The instances of a node. *)
Definition shows (s : R) (f : functor) (ht : bool) (d' : document) (fuel : nat) (m : mat) (n : nat) (i : instance) (k : nat) : Prop :=
  In i (kinds d' k) /\ (k = n \/ par (scene d') k = [n] /\ kinds d' k = [i]) /\
  match i with
  | Other => k = n
  | Pivoted b => (ht && b)%bool = false -> exists m', CalculateWorldTransform (S fuel) (scene d') (stack d') k = Done m' /\
      forall q, TransformCoordinate m' (vscale s q) = vscale s (TransformVector (turning f) (TransformCoordinate m q))
  end.
Lemma distinct_clear (l : list entry) : Forall (fun e : entry => distinct (fst e)) l -> Forall (fun e : entry => clear (fst e)) l.
Proof. intro F. eapply Forall_impl; [|exact F]. intros [t a]. cbn [fst]. destruct t; auto. Qed.
Lemma turning_same : turning Same = Identity.
Proof. apply mat_ext; vopen; ring. Qed.
Lemma instances_shown s t c ht d d' fuel n m : sound d -> after s t c ht d d' -> s = 1%R \/ has_length s = true ->
  (forall x, in_scene d x -> Forall (fun e : entry => plain (fst e)) (stack d x)) -> Forall (fun e : entry => distinct (fst e)) (stack d n) ->
  in_scene d n -> CalculateWorldTransform fuel (scene d) (stack d) n = Done m ->
  exists ks, Forall2 (shows s (PrepareFunctor t c) ht d' fuel m n) (kinds d n) ks /\
    kinds d' n = map fst (filter (fun e => snd e =? n) (combine (kinds d n) ks)) /\ NoDup (filter (fun k => negb (k =? n)) ks) /\
    (forall k, In k ks -> k <> n -> next (scene d) <= k) /\ chi (scene d') n = chi (scene d) n ++ filter (fun k => negb (k =? n)) ks.
Proof.
  intros P A Hs F Dn I W. pose proof (in_scene_old d n P I) as Hn. pose proof (after_in _ _ _ _ _ _ A n I) as Pl. pose proof Pl as (A1 & A2 & A3). set (f := PrepareFunctor t c) in *.
  pose proof (world_carried s t c ht d d' P A Hs F) as WC. fold f in WC.
  assert (Main : ~ only_pivoted d n -> has_swap f = true -> exists ks, Forall2 (shows s f ht d' fuel m n) (kinds d n) ks /\
    kinds d' n = map fst (filter (fun e => snd e =? n) (combine (kinds d n) ks)) /\ NoDup (filter (fun k => negb (k =? n)) ks) /\
    (forall k, In k ks -> k <> n -> next (scene d) <= k) /\ chi (scene d') n = chi (scene d) n ++ filter (fun k => negb (k =? n)) ks).
  { intros Np Sw. destruct (A3 Sw Np) as (St & Ki & ps & Ch & Nd & Fp). destruct (WC fuel n m I W (or_intror Np)) as (Am & m' & W' & Cm).
    assert (Hl : forall i, In i (filter is_pivoted (kinds d n)) -> i <> Other) by (intros i Hi; apply filter_In in Hi as [_ Hi]; intros ->; discriminate).
    destruct (split_filter n (kinds d n) ps) as (ks & Len & S1 & S2 & S3).
    { clear - Fp Hn. remember (filter is_pivoted (kinds d n)) as l eqn:El. assert (Hl : forall i, In i l -> i <> Other) by (intros i Hi; subst l; apply filter_In in Hi as [_ Hi]; intros ->; discriminate).
      clear El. induction Fp as [|p i a b (R & _) Fp IHF]; constructor; [split; [lia | apply Hl; now left] | apply IHF; intros; apply Hl; now right]. }
    exists ks. rewrite S1, S2. split; [|split; [exact Ki|]; split; [exact Nd|]; split; [|exact Ch]].
    - apply S3.
      + intro Io. split; [rewrite Ki; apply filter_In; auto|]. split; [now left | reflexivity].
      + eapply Forall2_impl; [|exact (Forall2_right _ _ _ _ Fp Hl)]. cbv beta. intros p i ((Hp & T1 & T2 & T3) & No). split; [rewrite T2; now left|]. split; [now right|].
        destruct i as [b|].
        * intro Hr. cbn [has_target] in T3. rewrite Hr in T3. cbn [CalculateWorldTransform]. rewrite T1, W', T3. eexists. split; [reflexivity|].
          apply (pivot_carried s t c m m' _ Am Cm). rewrite (pivot_matrix t c [] Sw (Forall_nil _)). fold f. change (node_matrix []) with Identity. now rewrite (proj1 (C42_identity (turning f))).
        * now elim No.
    - intros k Ik Nk. assert (J : In k ps) by (rewrite <- S2; apply filter_In; split; [exact Ik|]; destruct (Nat.eqb_spec k n); [contradiction | reflexivity]).
      clear - Fp J. induction Fp as [|p i a b (R & _) Fp IHF]; [destruct J|]. destruct J as [->|J]; [lia | now apply IHF]. }
  destruct (has_swap f) eqn:Sw.
  - specialize (fun N => Main N eq_refl). destruct (chi (scene d) n) as [|c0 cs] eqn:Ec; [destruct (kinds d n) as [|[b|] [|j r]] eqn:Ek|].
    2: { (* only a camera *)
      destruct (A2 eq_refl b eq_refl eq_refl) as (St & Ki & Ch). exists [n]. destruct (same_nodes n [Pivoted b]) as [S1 S2]. cbn [map] in S1, S2. rewrite S1, S2.
      split; [|split; [exact Ki|]; split; [constructor|]; split; [intros k [<-|[]]; congruence | exact Ch]].
      constructor; [|constructor]. split; [rewrite Ki; now left|]. split; [now left|]. intro Hr. rewrite Hr in St.
      (* the world transformation of the node before it is turned *)
      assert (Wn : exists m' , affine m /\ carries (frame s f) m m' /\ CalculateWorldTransform fuel (scene d') (stack d') n = Done (product m' (turning f))).
      { destruct fuel as [|fuel]; [discriminate|]. cbn [CalculateWorldTransform] in W |- *. rewrite (after_par _ _ _ _ _ _ A n Hn), St.
        rewrite (pivot_matrix t c _ Sw) by (unfold convert_stack; fold f; rewrite Sw, orb_true_r; apply Forall_map; eapply Forall_impl; [|exact (distinct_clear _ Dn)]; intros e; apply clear_turn).
        fold f. pose proof (convert_stack_carries s f (stack d n) Hs (plain_fine _ (F n I))) as Cn. pose proof (plain_affine _ (F n I)) as An.
        destruct (par (scene d) n) as [|p r] eqn:Ep.
        - injection W as <-. eexists. split; [exact An|]. split; [exact Cn|]. reflexivity.
        - destruct (CalculateWorldTransform fuel (scene d) (stack d) p) as [mp| |] eqn:Wp; try discriminate. injection W as <-.
          destruct (WC fuel p mp (in_scene_parent _ _ _ _ P I Ep) Wp) as (Ap & mp' & Wp' & Cp).
          { right. intros [Hc _]. pose proof P as (H & _). assert (Ic : In n (chi (scene d) p)) by (apply (ok_mirror _ H); rewrite Ep; now left). rewrite Hc in Ic. destruct Ic. }
          rewrite Wp'. exists (product mp' (node_matrix (convert_stack s f (stack d n)))). split; [now apply product_affine|]. split; [now apply carries_product|]. now rewrite C42_associative. }
      destruct Wn as (m' & Am & Cm & Wn). exists (product m' (turning f)). split; [now apply world_more|]. eapply pivot_carried; eauto. }
    all: assert (Np : ~ only_pivoted d n) by (intros [H1 [b' H2]]; congruence); rewrite <- ?Ek, <- ?Ec in *; exact (Main Np).
  - clear Main. destruct (A1 eq_refl) as (St & Ki & Ch). destruct (same_nodes n (kinds d n)) as [S1 S2]. exists (map (fun _ => n) (kinds d n)). rewrite S1, S2.
    split; [|split; [exact Ki|]; split; [constructor|]; split; [intros k Ik Nk; apply in_map_iff in Ik as (_ & <- & _); contradiction | now rewrite app_nil_r]].
    apply same_forall. intros i Hi. split; [now rewrite Ki|]. split; [now left|]. destruct i as [b|]; [|reflexivity]. intros _.
    destruct (WC fuel n m I W (or_introl eq_refl)) as (Am & m' & W' & Cm). exists m'. split; [now apply world_more|]. apply (pivot_carried s t c m m' m' Am Cm).
    fold f. destruct f; try discriminate. rewrite turning_same. symmetry. apply C42_identity.
Qed.
