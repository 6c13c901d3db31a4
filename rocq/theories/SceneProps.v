(** C37, C38, C39: scene graphs. *)
From Coq Require Import List Arith Bool Lia Relations Permutation.
From Verif Require Import SceneModel SceneSpec SceneProofs SceneIterProofs.
Import ListNotations.

(** *** C37: the scene graph never contains a cycle *)
(** After any calls on existing nodes: no node is its own descendant, the lists mirror each other without duplicates; the
    next AddChildNode ends, returns true exactly for an existing, other node that is neither a child nor an ancestor, and
    then appends to the two lists; else nothing changes. *)
Theorem C37_acyclic : forall g, history g ->
  (forall n, ~ descendant g n n) /\
  (forall p c, In c (chi g p) <-> In p (par g c)) /\ (forall n, NoDup (chi g n) /\ NoDup (par g n)) /\
  forall n, alive g n = true -> forall node, (forall c, node = Some c -> alive g c = true) ->
    exists fuel0 b g', (forall fuel, fuel0 <= fuel -> AddChildNode fuel g n node = Done (b, g')) /\
      (b = true <-> exists c, node = Some c /\ n <> c /\ ~ In c (chi g n) /\ ~ descendant g c n) /\
      (b = false -> g' = g) /\
      (forall c, b = true -> node = Some c -> chi g' n = chi g n ++ [c] /\ par g' c = par g c ++ [n] /\
         (forall x, x <> n -> chi g' x = chi g x) /\ (forall x, x <> c -> par g' x = par g x)).
Proof.
  intros g H. pose proof (history_ok g H) as O. split; [|split; [|split]].
  - intros n T. apply (Acc_no_cycle _ n (ok_down g O n)). unfold descendant in T. assert (E : forall a b, clos_trans nat (fun p c => In c (chi g p)) a b -> clos_trans nat (fun c p => In c (chi g p)) b a).
    { induction 1 as [x y Hxy|x y z H1 IH1 H2 IH2]; [now apply t_step | eapply t_trans; eauto]. } now apply E.
  - apply (ok_mirror g O).
  - intro n. split; [apply (ok_chi g O) | apply (ok_par g O)].
  - intros n An [c|] Ac.
    + destruct (add_spec g n c O An (Ac c eq_refl)) as [k [(N1 & N2 & N3 & F)|[R F]]].
      * exists k, true, (joined g n c). split; auto. split; [split; auto; intros _; exists c; auto|]. split; [discriminate|]. intros c' _ [= <-]. cbn.
        rewrite !upd_same. repeat split; auto; intros x Hx; now apply upd_other.
      * exists k, false, g. split; auto. split; [split; [discriminate|]; intros (c' & [= <-] & H1 & H2 & H3); tauto|]. split; [auto | discriminate].
    + exists 0, false, g. split; auto. split; [split; [discriminate|]; intros (c' & [=] & _)|]. split; [auto | discriminate].
Qed.
Print Assumptions C37_acyclic.
(** RemoveChildNode takes exactly the one edge away. *)
Theorem C37_remove : forall g n c, history g -> forall p x,
  (In x (chi (RemoveChildNode g n c) p) <-> In x (chi g p) /\ ~ (p = n /\ x = c)) /\ (In p (par (RemoveChildNode g n c) x) <-> In p (par g x) /\ ~ (p = n /\ x = c)).
Proof. intros g n c H p x. pose proof (history_ok g H) as O. split; [now apply remove_In | now apply remove_par]. Qed.
Print Assumptions C37_remove.
(** A diamond 0 -> 1, 2 -> 3: closing it upwards is refused. *)
Definition new6 : graph := NewNode (NewNode (NewNode (NewNode (NewNode (NewNode no_nodes 0) 0) 0) 0) 0) 0.
Definition add (g : graph) (n c : nat) : graph := match AddChildNode 20 g n (Some c) with Done (_, g') => g' | _ => g end.
Definition diamond : graph := add (add (add (add new6 0 1) 0 2) 1 3) 2 3.
Lemma history_add g n c b g' : history g -> alive g n = true -> alive g c = true -> AddChildNode 20 g n (Some c) = Done (b, g') -> history (add g n c).
Proof. intros H An Ac E. unfold add. rewrite E. eapply h_add; [exact H | exact An | | exact E]. intros x [= <-]. exact Ac. Qed.
Lemma history_diamond : history diamond.
Proof. repeat (eapply history_add; [| reflexivity | reflexivity | reflexivity]). repeat constructor. Qed.
Lemma diamond_facts : chi diamond 0 = [1; 2] /\ chi diamond 1 = [3] /\ chi diamond 3 = [] /\ par diamond 3 = [1; 2] /\ alive diamond 1 = true.
Proof. vm_compute. auto 10. Qed.
Example C37_demo : history diamond /\ chi diamond 0 = [1; 2] /\ par diamond 3 = [1; 2] /\
  AddChildNode 20 diamond 3 (Some 0) = Done (false, diamond) /\ descendant diamond 0 3.
Proof.
  split; [exact history_diamond|]. split; [reflexivity|]. split; [reflexivity|]. split; [reflexivity|]. eapply t_trans; apply t_step; [now left|]. now left.
Qed.

(** *** C39: destroying a node *)
(** Release ends; it destroys the node with all its descendants, also those that other nodes have as children; all other
    nodes stay, with the destroyed nodes taken out of their lists. *)
Theorem C39_release_partial : forall g n, history g -> alive g n = true ->
  exists fuel0 g', (forall fuel, fuel0 <= fuel -> Release fuel g n = Done g') /\ history g' /\
    (forall x, alive g' x = true <-> alive g x = true /\ x <> n /\ ~ descendant g n x) /\
    (forall x, alive g' x = true -> chi g' x = filter (alive g') (chi g x) /\ par g' x = filter (alive g') (par g x)).
Proof.
  intros g n H A. destruct (release_ok g n (history_ok g H) A) as (k & g' & F & O & W). exists k, g'. split; auto. split; [exact (h_release k g n g' H A (F k (le_n k)))|]. split.
  - intro x. rewrite (wo_alive _ _ _ W). assert (E : below_eq g n x <-> x = n \/ descendant g n x).
    { split; [|intros [->|T]; [apply rt_refl|]].
      - intro R. clear - R. induction R as [a b R| |a b c R1 IH1 R2 IH2]; [right; now apply t_step | now left|]. destruct IH1 as [E1|I1], IH2 as [E2|I2]; [left; congruence | right; subst; exact I2 | right; subst; exact I1 | right; eapply t_trans; eauto].
      - unfold descendant in T. clear - T. induction T as [a b T|a b c T1 IH1 T2 IH2]; [now apply rt_step | eapply rt_trans; eauto]. }
    rewrite E. tauto.
  - intros x Ax. split; [apply (wo_chi _ _ _ W) | now apply (wo_par _ _ _ W)].
Qed.
Print Assumptions C39_release_partial.
(** Finding: a child that another node still has as child is destroyed too. *)
Theorem C39_shared_child_refuted : ~ forall g n, history g -> alive g n = true -> forall c p, In c (chi g n) -> In p (par g c) -> p <> n -> ~ descendant g n p ->
  exists fuel g', Release fuel g n = Done g' /\ alive g' c = true.
Proof.
  intro H. pose proof history_diamond as Hd. pose proof diamond_facts as (_ & C1 & C3 & P3 & A1). revert H Hd C1 C3 P3 A1. generalize diamond. intros g H Hd C1 C3 P3 A1.
  destruct (H g 1 Hd A1 3 2) as (fuel & g' & E & A).
  - rewrite C1. now left.
  - rewrite P3. right. now left.
  - discriminate.
  - intro T. apply clos_trans_t1n in T.
    assert (D : forall a b, clos_trans_1n nat (fun p c => In c (chi g p)) a b -> a = 1 \/ a = 3 -> b = 3).
    { induction 1 as [a b T1|a b c T1 T2 IH]; intros [->| ->]; rewrite ?C1, ?C3 in T1; [destruct T1 as [<-|[]]; reflexivity | destruct T1 | destruct T1 as [<-|[]]; apply IH; auto | destruct T1]. }
    specialize (D _ _ T (or_introl eq_refl)). discriminate.
  - destruct (C39_release_partial g 1 Hd A1) as (k & g2 & F & _ & Al & _). pose proof (proj1 (Release_fuel fuel) _ _ _ k E) as E2. rewrite F in E2 by lia. injection E2 as <-.
    apply Al in A as (_ & _ & N). apply N. apply t_step. rewrite C1. now left.
Qed.
Print Assumptions C39_shared_child_refuted.
Example C39_demo : match Release 20 diamond 1 with
  | Done g' => map (alive g') [0; 1; 2; 3] = [true; false; true; false] /\ chi g' 0 = [2] /\ chi g' 2 = [] | _ => False end.
Proof. vm_compute. auto. Qed.

(** *** C38: iteration *)
(** Breadth first always gives the nodes level by level; depth first gives pre-order if the instanced nodes have nothing
    below them, and post-order also if the tree is at most eight levels high. *)
Theorem C38_iteration_partial : forall g pure n t, unfolds g pure n t ->
  (exists fuel0, forall fuel, fuel0 <= fuel -> iterate fuel g BREADTH_FIRST pure n = Done (levels (height t) [t])) /\
  (pure = true \/ (forall x i, In (Some i) (ins g x) -> chi g i = [] /\ ins g i = []) ->
     exists fuel0, forall fuel, fuel0 <= fuel -> iterate fuel g DEPTH_FIRST_PREORDER pure n = Done (preorder t)) /\
  (pure = true \/ (forall x i, In (Some i) (ins g x) -> chi g i = [] /\ ins g i = []) \/ height t <= 8 ->
     exists fuel0, forall fuel, fuel0 <= fuel -> iterate fuel g DEPTH_FIRST_POSTORDER pure n = Done (postorder t)).
Proof.
  intros g pure n t U. split; [|].
  - destruct t as [m us]. pose proof U as U0. apply unfolds_below in U as [-> F].
    destruct (breadth_spec g pure (2 * weight [Node n us]) [Node n us] [] [] (tall us)) as [k K].
    { change (weight []) with 0. cbn [app]. lia. } { constructor; [exact U0 | constructor]. } { cbn [app flat_map below]. rewrite app_nil_r. lia. }
    exists k. intros fuel Hf. specialize (K fuel Hf). cbn [app length map root flat_map below] in K. rewrite app_nil_r in K. cbn [iterate]. rewrite K. f_equal. cbn [height levels map root flat_map below app]. now rewrite app_nil_r.
  - assert (Lv : (forall x i, In (Some i) (ins g x) -> chi g i = [] /\ ins g i = []) -> leaves g).
    { intros H x i I. destruct (H x i I) as [E1 E2]. unfold no_more. now rewrite E1, E2. }
    assert (Fin : forall pre q0, safe g pure pre 8 t -> exists k, forall fuel, k <= fuel -> depth fuel g pure pre [(n, 0)] 8 q0 = Done (q0 ++ inside pre t)).
    { intros pre q0 Sf. destruct (depth_node g pure pre t n U [] 8 q0) as (cap' & _ & k & K); [cbn; lia | exact Sf|]. exists (S k). intros fuel Hf. specialize (K (fuel - k)). replace (k + (fuel - k)) with fuel in K by lia.
      rewrite K. destruct (fuel - k) eqn:Z; [lia | reflexivity]. }
    split.
    + intro H. destruct (Fin true [n]) as [k K]. { destruct H as [->|H]; [left; reflexivity | right; left; auto]. } exists k. intros fuel Hf. cbn [iterate]. rewrite (K fuel Hf). destruct t as [m ts]. apply unfolds_below in U as [-> _]. reflexivity.
    + intro H. destruct (Fin false []) as [k K]. { destruct H as [->|[H|H]]; [left; reflexivity | right; left; auto | right; right; auto]. } exists k. intros fuel Hf. cbn [iterate]. rewrite (K fuel Hf). reflexivity.
Qed.
Print Assumptions C38_iteration_partial.
(** The tree exists when the nodes below have no cycle, in particular for the children of every scene graph; its orders
    contain exactly the nodes that can be reached and differ only in the order. *)
Theorem C38_all_reached : forall g pure n, Acc (fun c p => In c (under g pure p)) n -> exists t, unfolds g pure n t /\
  (forall x, In x (preorder t) <-> clos_refl_trans nat (fun p c => In c (under g pure p)) n x) /\
  Permutation (preorder t) (postorder t) /\ Permutation (preorder t) (levels (height t) [t]).
Proof.
  intros g pure n A. destruct (unfolds_exists g pure n A) as [t U]. exists t. split; auto. split; [|split].
  - clear A. revert n U. induction t as [m ts IH] using tree_ind'. intros n U x. apply unfolds_below in U as [-> F]. rewrite Forall_forall in IH. cbn. rewrite in_flat_map. split.
    + intros [->|(t & It & Ix)]; [apply rt_refl|]. assert (E : exists c, In c (under g pure n) /\ unfolds g pure c t).
      { clear - F It. induction F as [|c u l us H F IHF]; [destruct It|]. destruct It as [->|It]; [exists c; split; auto; now left|]. destruct (IHF It) as (d & Id & Ud). exists d. split; auto. now right. }
      destruct E as (c & Ic & Uc). eapply rt_trans; [apply rt_step; exact Ic|]. now apply (IH t It c Uc).
    + intro R. apply clos_rt_rt1n in R. destruct R as [|c z Hc R]; [now left|]. right. assert (E : exists t, In t ts /\ unfolds g pure c t).
      { clear - F Hc. induction F as [|d u l us H F IHF]; [destruct Hc|]. destruct Hc as [->|Hc]; [exists u; split; auto; now left|]. destruct (IHF Hc) as (t & It & Ut). exists t. split; auto. now right. }
      destruct E as (t & It & Ut). exists t. split; auto. apply (IH t It c Ut). now apply clos_rt1n_rt.
  - clear. induction t as [m ts IH] using tree_ind'. cbn. apply Permutation_cons_app. rewrite app_nil_r. induction IH as [|t ts Ht _ IHt]; cbn; [constructor | now apply Permutation_app].
  - clear. enough (E : forall d ts, tall ts <= d -> Permutation (flat_map preorder ts) (levels d ts)).
    { specialize (E (height t) [t]). cbn [flat_map] in E. rewrite app_nil_r in E. apply E. unfold tall. cbn. lia. }
    induction d as [|d IH]; intros ts H; [destruct ts as [|[m us] ts]; [constructor | rewrite tall_cons in H; lia]|]. cbn [levels]. etransitivity; [|apply Permutation_app_head; apply IH; pose proof (tall_below ts); lia].
    clear. induction ts as [|[m us] ts IHt]; cbn [flat_map preorder map root below app]; [constructor|]. apply perm_skip. rewrite flat_map_app.
    etransitivity; [apply Permutation_app_head; exact IHt|]. rewrite !app_assoc. apply Permutation_app_tail. apply Permutation_app_comm.
Qed.
Print Assumptions C38_all_reached.
Theorem C38_scene_graph : forall g n, history g -> Acc (fun c p => In c (under g true p)) n /\ ((forall x, ins g x = []) -> Acc (fun c p => In c (under g false p)) n).
Proof.
  intros g n H. pose proof (ok_down g (history_ok g H) n) as D. split; [|intro I]; (eapply Acc_sub; [|exact D]); intros u v Iu; unfold under in Iu.
  - apply filter_In in Iu. tauto.
  - rewrite I in Iu. cbn in Iu. now rewrite app_nil_r in Iu.
Qed.
Print Assumptions C38_scene_graph.
Example C38_demo : let g := AddInstance (add (add diamond 3 4) 0 4) 2 (Some 5) in
  iterate 30 g BREADTH_FIRST false 0 = Done [0; 1; 2; 4; 3; 3; 5; 4; 4] /\ iterate 30 g DEPTH_FIRST_PREORDER false 0 = Done [0; 1; 3; 4; 2; 3; 4; 5; 4] /\
  iterate 30 g DEPTH_FIRST_POSTORDER false 0 = Done [4; 3; 1; 4; 3; 5; 2; 4; 0] /\ iterate 30 g DEPTH_FIRST_PREORDER true 0 = Done [0; 1; 3; 4; 2].
Proof. vm_compute. auto. Qed.
(** Finding: in pre-order an instanced node with children is left out (its children are visited). *)
Theorem C38_instanced_parent_refuted : ~ forall g n t, unfolds g false n t -> exists fuel, iterate fuel g DEPTH_FIRST_PREORDER false n = Done (preorder t).
Proof.
  intro H. pose (g := AddInstance (add new6 1 2) 0 (Some 1)).
  assert (U : unfolds g false 0 (Node 0 [Node 1 [Node 2 []]])). { repeat constructor. }
  destruct (H g 0 _ U) as [fuel E]. apply (depth_stable _ _ _ _ _ _ _ _ 30) in E; [|discriminate].
  assert (E2 : depth (30 + fuel) g false true [(0, 0)] 8 [0] = Done [0; 2]) by (apply depth_stable; [vm_compute; reflexivity | discriminate]). rewrite Nat.add_comm in E2. rewrite E2 in E. discriminate.
Qed.
Print Assumptions C38_instanced_parent_refuted.
(** Finding: when an instanced node with children is put on a full stack, the loop writes to the freed stack. *)
Definition chain (k : nat) : graph := fold_left (fun g i => add g i (S i)) (seq 0 k) (fold_left (fun g _ => NewNode g 0) (seq 0 20) no_nodes).
Definition deep : graph := AddInstance (add (chain 7) 10 11) 7 (Some 10).
Theorem C38_deep_instance_refuted : ~ forall g n t, unfolds g false n t -> exists fuel, iterate fuel g DEPTH_FIRST_POSTORDER false n = Done (postorder t).
Proof.
  intro H. assert (U : unfolds deep false 0 (Node 0 [Node 1 [Node 2 [Node 3 [Node 4 [Node 5 [Node 6 [Node 7 [Node 10 [Node 11 []]]]]]]]]])).
  { repeat (apply unfold_node; match goal with |- Forall2 _ (under ?g ?p ?n) _ => let v := eval vm_compute in (under g p n) in replace (under g p n) with v by (vm_compute; reflexivity) end; repeat (apply Forall2_cons || apply Forall2_nil)). }
  destruct (H deep 0 _ U) as [fuel E]. apply (depth_stable _ _ _ _ _ _ _ _ 30) in E; [|discriminate].
  assert (E2 : depth (30 + fuel) deep false false [(0, 0)] 8 [] = Bad) by (apply depth_stable; [vm_compute; reflexivity | discriminate]). rewrite Nat.add_comm in E2. rewrite E2 in E. discriminate.
Qed.
Print Assumptions C38_deep_instance_refuted.
