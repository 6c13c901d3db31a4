(** Proofs about the change of the up-axis and the unit: the scene nodes. *)
From Coq Require Import List Arith Reals Lra Lia Bool.
From Verif Require Import IdModel MatrixModel QuatModel RotModel SceneModel TransformModel AxisModel AxisSpec.
Import ListNotations.

Lemma Forall2_impl {A B} (P Q : A -> B -> Prop) l m : (forall a b, P a b -> Q a b) -> Forall2 P l m -> Forall2 Q l m.
Proof. intros H F. induction F; constructor; auto. Qed.

(** *** The asset in force *)
Definition current_unit (d : document) : R := if hasUnits (base d) then unitFactor (base d) else (-1)%R.
Definition current_axis (d : document) : axis := ConvertVector (if hasUpAxis (base d) then upAxis (base d) else V3 0 0 0).
Lemma node_assets_quiet d : (forall n, quiet (node_asset d n)) -> forall fuel n l, node_assets fuel d n = Done l ->
  exists before, l = before ++ [base d] /\ Forall (fun a => hasUnits a = false /\ hasUpAxis a = false) before.
Proof.
  intros Q. induction fuel as [|fuel IH]; intros n l E; [discriminate|]. cbn [node_assets] in E. specialize (Q n).
  set (own := match node_asset d n with Some a => [a] | None => [] end) in *.
  assert (O : Forall (fun a => hasUnits a = false /\ hasUpAxis a = false) own) by (unfold own; destruct (node_asset d n); [constructor; [exact Q | constructor] | constructor]).
  destruct (par (scene d) n) as [|p r].
  - injection E as <-. exists own. auto.
  - destruct (node_assets fuel d p) as [m| |] eqn:M; try discriminate. injection E as <-. destruct (IH p m M) as (b & -> & F). exists (own ++ b). rewrite app_assoc. split; [reflexivity|]. apply Forall_app. auto.
Qed.
Lemma find_quiet (t : asset -> bool) before b lib : Forall (fun a => t a = false) before -> (forall a, lib = Some a -> t a = false) ->
  find t ((before ++ [b]) ++ match lib with Some a => [a] | None => [] end) = if t b then Some b else None.
Proof.
  intros F L. induction F as [|a l Fa F IH]; cbn [app find].
  - destruct (t b); [reflexivity|]. destruct lib as [a|]; [|reflexivity]. cbn [find]. now rewrite (L a eq_refl).
  - rewrite Fa. exact IH.
Qed.
Lemma functors_quiet d unit before lib : Forall (fun a => hasUnits a = false /\ hasUpAxis a = false) before -> quiet lib ->
  GetAssetFunctors unit (before ++ [base d]) lib = (SetCurrent unit (current_unit d), current_axis d).
Proof.
  intros F L. unfold GetAssetFunctors, first_unit, first_axis, current_unit, current_axis. rewrite !find_quiet.
  - destruct (hasUnits (base d)), (hasUpAxis (base d)); reflexivity.
  - eapply Forall_impl; [|exact F]. intros a H. apply H.
  - intros a ->. apply L.
  - eapply Forall_impl; [|exact F]. intros a H. apply H.
  - intros a ->. apply L.
Qed.

(** *** One node *)
Definition is_pivoted (i : instance) : bool := match i with Pivoted _ => true | Other => false end.
Definition has_target (i : instance) : bool := match i with Pivoted b => b | Other => false end.
Definition fresh (d : document) : Prop := forall p, next (scene d) <= p -> par (scene d) p = [].
(** Everything that the scene nodes do not contain. *)
Definition rest (d : document) := (base d, scene_library d, controller_library d, geometry_library d, camera_library d, roots d, controllers d, geometries d, cameras d).
(** Nothing changes but the node [n] and nodes that are new. *)
Record only (d d' : document) (n : nat) : Prop := {
  only_rest : rest d' = rest d;
  only_next : next (scene d) <= next (scene d');
  only_par : forall x, x < next (scene d) -> par (scene d') x = par (scene d) x;
  only_chi : forall x, x < next (scene d) -> x <> n -> chi (scene d') x = chi (scene d) x;
  only_stack : forall x, x < next (scene d) -> x <> n -> stack d' x = stack d x;
  only_kinds : forall x, x < next (scene d) -> x <> n -> kinds d' x = kinds d x;
  only_quiet : (forall x, quiet (node_asset d x)) -> forall x, quiet (node_asset d' x);
  only_fresh : fresh d -> fresh d' }.
Lemma only_refl d n : only d d n. Proof. split; auto. Qed.
Lemma only_trans a b c n : only a b n -> only b c n -> only a c n.
Proof.
  intros A B. pose proof (only_next _ _ _ A) as N. split; intros.
  - rewrite (only_rest _ _ _ B). apply A.
  - pose proof (only_next _ _ _ B). lia.
  - rewrite (only_par _ _ _ B) by lia. now apply A.
  - rewrite (only_chi _ _ _ B) by (auto; lia). now apply A.
  - rewrite (only_stack _ _ _ B) by (auto; lia). now apply A.
  - rewrite (only_kinds _ _ _ B) by (auto; lia). now apply A.
  - now apply B, A.
  - now apply B, A.
Qed.
Lemma upd_eq {A} (f : nat -> A) i v : upd f i v i = v. Proof. unfold upd. now rewrite Nat.eqb_refl. Qed.
Lemma upd_ne {A} (f : nat -> A) i v x : x <> i -> upd f i v x = f x. Proof. unfold upd. intro H. now rewrite (proj2 (Nat.eqb_neq x i) H). Qed.
Lemma add_pivot_only d n i l : n < next (scene d) -> only d (add_pivot d n i l) n.
Proof.
  intro H. split; cbn; intros; auto.
  - rewrite upd_ne by lia. reflexivity.
  - now rewrite upd_ne by auto.
  - now rewrite upd_ne by lia.
  - now rewrite upd_ne by lia.
  - unfold upd. destruct (x =? next (scene d)); [exact I | auto].
  - intros p Hp. cbn in *. rewrite upd_ne by lia. apply H0. lia.
Qed.
Definition turned_pivot target current ht (d : document) (n : nat) (p : nat) (i : instance) : Prop :=
  par (scene d) p = [n] /\ kinds d p = [i] /\ stack d p = SetPivotTransform target current (ht && has_target i) [].
Lemma pivot_others target current ht n : forall l d d' marks, n < next (scene d) -> fresh d ->
  pivot_instances target current ht d n false l = (d', marks) ->
  only d d' n /\ marks = map is_pivoted l /\ stack d' n = stack d n /\ kinds d' n = kinds d n /\
  exists ps, chi (scene d') n = chi (scene d) n ++ ps /\ NoDup ps /\
    Forall2 (fun p i => next (scene d) <= p < next (scene d') /\ turned_pivot target current ht d' n p i) ps (filter is_pivoted l).
Proof.
  induction l as [|[b|] l IH]; intros d d' marks H F E; cbn [pivot_instances] in E.
  - injection E as <- <-. split; [apply only_refl|]. repeat split. exists []. rewrite app_nil_r. split; [reflexivity|]. split; constructor.
  - set (d1 := add_pivot d n (Pivoted b) (SetPivotTransform target current (ht && b) [])) in *.
    destruct (pivot_instances target current ht d1 n false l) as [d2 m] eqn:P. injection E as <- <-.
    assert (O1 : only d d1 n) by now apply add_pivot_only.
    assert (N1 : next (scene d1) = S (next (scene d))) by reflexivity.
    destruct (IH d1 d2 m) as (O2 & -> & S2 & K2 & ps & C & Nd & G); [lia | now apply (only_fresh _ _ _ O1) | exact P|].
    assert (N2 := only_next _ _ _ O2).
    split; [eapply only_trans; eauto|]. split; [reflexivity|].
    split; [rewrite S2; unfold d1; cbn; now rewrite upd_ne by lia|]. split; [rewrite K2; unfold d1; cbn; now rewrite upd_ne by lia|].
    exists (next (scene d) :: ps). split; [|split].
    + rewrite C. unfold d1. cbn. rewrite upd_eq. now rewrite <- app_assoc.
    + constructor; [|exact Nd]. intro J. clear - G J. induction G as [|p i u v (R & _) G IHG]; [destruct J|]. destruct J as [->|J]; [cbn in R; lia | now apply IHG].
    + cbn [filter is_pivoted]. constructor.
      * split; [lia|]. unfold turned_pivot. rewrite (only_par _ _ _ O2) by lia. rewrite (only_kinds _ _ _ O2) by lia. rewrite (only_stack _ _ _ O2) by lia.
        unfold d1. cbn. rewrite !upd_eq. rewrite (F (next (scene d)) (le_n _)). auto.
      * eapply Forall2_impl; [|exact G]. cbv beta. intros p i (R & T). split; [lia | exact T].
  - destruct (pivot_instances target current ht d n false l) as [d2 m] eqn:P. injection E as <- <-. destruct (IH d d2 m H F P) as (O & -> & R). split; [exact O|]. split; [reflexivity | exact R].
Qed.
Lemma unmarked_other l : unmarked (map is_pivoted l) l = filter (fun i => negb (is_pivoted i)) l.
Proof. induction l as [|[b|] l IH]; cbn; [reflexivity | exact IH | now rewrite IH]. Qed.

Definition placed (s : R) (target current : axis) (ht : bool) (d d' : document) (n : nat) : Prop :=
  let f := PrepareFunctor target current in
  let l := convert_stack s f (stack d n) in
  (has_swap f = false -> stack d' n = l /\ kinds d' n = kinds d n /\ chi (scene d') n = chi (scene d) n) /\
  (has_swap f = true -> forall b, chi (scene d) n = [] -> kinds d n = [Pivoted b] ->
     stack d' n = SetPivotTransform target current (ht && b) l /\ kinds d' n = kinds d n /\ chi (scene d') n = []) /\
  (has_swap f = true -> ~ only_pivoted d n ->
     stack d' n = l /\ kinds d' n = filter (fun i => negb (is_pivoted i)) (kinds d n) /\
     exists ps, chi (scene d') n = chi (scene d) n ++ ps /\ NoDup ps /\
       Forall2 (fun p i => next (scene d) <= p < next (scene d') /\ turned_pivot target current ht d' n p i) ps (filter is_pivoted (kinds d n))).
Lemma set_nodes_only d n g na st ki : g = scene d -> (forall x, x <> n -> st x = stack d x) -> (forall x, x <> n -> ki x = kinds d x) ->
  ((forall x, quiet (node_asset d x)) -> forall x, quiet (na x)) -> only d (set_nodes d g na st ki) n.
Proof. intros -> S K Q. split; cbn; auto. Qed.
Lemma set_ins_only d n l ki : (forall x, x <> n -> ki x = kinds d x) -> only d (set_nodes d (set_ins (scene d) n l) (node_asset d) (stack d) ki) n.
Proof. intro K. split; cbn; auto. Qed.
Lemma quiet_reset a : quiet (ResetAsset a). Proof. destruct a; cbn; auto. Qed.
Lemma convert_node_placed fuel unit target ht d n d' : n < next (scene d) -> fresh d -> (forall x, quiet (node_asset d x)) -> quiet (scene_library d) ->
  convert_node fuel unit target ht d n = Done d' ->
  only d d' n /\ placed (SetCurrent unit (current_unit d)) target (current_axis d) ht d d' n.
Proof.
  intros H F Q L E. unfold convert_node in E. destruct (node_assets fuel d n) as [l| |] eqn:A; try discriminate.
  destruct (node_assets_quiet d Q fuel n l A) as (b & -> & Fb). rewrite (functors_quiet d unit b (scene_library d) Fb L) in E.
  set (s := SetCurrent unit (current_unit d)) in *. set (current := current_axis d) in *. set (f := PrepareFunctor target current) in *.
  set (d1 := set_nodes d (scene d) (node_asset d) (upd (stack d) n (convert_stack s f (stack d n))) (kinds d)) in *.
  assert (O1 : only d d1 n) by (apply set_nodes_only; auto; intros x Hx; now rewrite upd_ne).
  injection E as E. set (d2 := pivot_node target current ht d1 n) in *.
  assert (O3 : only d2 d' n). { subst d'. apply set_nodes_only; auto. intros Q2 x. unfold upd. destruct (x =? n); [apply quiet_reset | apply Q2]. }
  assert (S3 : stack d' = stack d2 /\ kinds d' = kinds d2 /\ scene d' = scene d2) by (subst d'; repeat split).
  destruct S3 as (S3 & K3 & G3).
  assert (F1 : fresh d1) by exact F.
  unfold pivot_node in d2. fold f in d2. destruct (has_swap f) eqn:Sw.
  - destruct (pivot_instances target current ht d1 n _ (kinds d1 n)) as [d3 marks] eqn:P.
    destruct (chi (scene d1) n) as [|c cs] eqn:C; [destruct (length (kinds d1 n) =? 1) eqn:Len|]; cbn [andb] in P.
    + apply Nat.eqb_eq in Len. change (kinds d1 n) with (kinds d n) in *. change (chi (scene d1) n) with (chi (scene d) n) in C.
      destruct (kinds d n) as [|i [|j r]] eqn:K; cbn [length] in Len; try lia. destruct i as [b0|]; cbn [pivot_instances] in P; injection P as <- <-.
      * assert (O2 : only d1 d2 n). { unfold d2. eapply only_trans; [|apply set_ins_only; intros x Hx; cbn; now rewrite upd_ne]. apply set_nodes_only; auto. intros x Hx. now rewrite upd_ne. }
        split; [eapply only_trans; [exact O1|]; eapply only_trans; eauto|]. unfold placed; cbv zeta; fold f; rewrite Sw; split; [|split]; unfold only_pivoted.
        -- discriminate.
        -- intros _ b' _ K'. assert (b' = b0) as -> by congruence. rewrite S3, K3, G3. unfold d2. cbn. rewrite !upd_eq. split; [reflexivity|]. split; [now rewrite K|]. exact C.
        -- intros _ N. exfalso. apply N. split; [exact C|]. exists b0. exact K.
      * assert (O2 : only d1 d2 n) by (unfold d2; apply set_ins_only; intros x Hx; cbn; now rewrite upd_ne).
        split; [eapply only_trans; [exact O1|]; eapply only_trans; eauto|]. unfold placed; cbv zeta; fold f; rewrite Sw; split; [|split]; unfold only_pivoted.
        -- discriminate.
        -- intros _ b' _ K'. congruence.
        -- intros _ _. rewrite S3, K3, G3. unfold d2. cbn. rewrite !upd_eq. split; [reflexivity|]. rewrite K. split; [reflexivity|]. exists []. rewrite C. split; [reflexivity|]. split; constructor.
    + apply Nat.eqb_neq in Len. destruct (pivot_others target current ht n _ d1 d3 marks H F1 P) as (O & -> & St & Ki & ps & Cc & Nd & Fp).
      assert (O2 : only d1 d2 n). { unfold d2. eapply only_trans; [exact O|]. apply set_ins_only. intros x Hx. now rewrite upd_ne. }
      split; [eapply only_trans; [exact O1|]; eapply only_trans; eauto|]. unfold placed; cbv zeta; fold f; rewrite Sw; split; [|split]; unfold only_pivoted.
      * discriminate.
      * intros _ b' _ K'. change (kinds d1 n) with (kinds d n) in Len. rewrite K' in Len. cbn in Len. lia.
      * intros _ _. rewrite S3, K3, G3. unfold d2. cbn. rewrite upd_eq, St, Ki. unfold d1 at 1. cbn. rewrite upd_eq. split; [reflexivity|]. split; [apply unmarked_other|].
        exists ps. split; [exact Cc|]. split; [exact Nd|]. change (kinds d1 n) with (kinds d n) in Fp. change (scene d1) with (scene d) in Fp.
        eapply Forall2_impl; [|exact Fp]. cbv beta. intros p i (R & T1 & T2 & T3). split; [exact R|]. unfold turned_pivot. rewrite S3, K3, G3. unfold d2. cbn. rewrite upd_ne by (cbn in H; lia). auto.
    + destruct (pivot_others target current ht n _ d1 d3 marks H F1 P) as (O & -> & St & Ki & ps & Cc & Nd & Fp).
      assert (O2 : only d1 d2 n). { unfold d2. eapply only_trans; [exact O|]. apply set_ins_only. intros x Hx. now rewrite upd_ne. }
      split; [eapply only_trans; [exact O1|]; eapply only_trans; eauto|]. unfold placed; cbv zeta; fold f; rewrite Sw; split; [|split]; unfold only_pivoted.
      * discriminate.
      * intros _ b' C' _. change (chi (scene d1) n) with (chi (scene d) n) in C. congruence.
      * intros _ _. rewrite S3, K3, G3. unfold d2. cbn. rewrite upd_eq, St, Ki. unfold d1 at 1. cbn. rewrite upd_eq. split; [reflexivity|]. split; [apply unmarked_other|].
        exists ps. split; [exact Cc|]. split; [exact Nd|]. change (kinds d1 n) with (kinds d n) in Fp. change (scene d1) with (scene d) in Fp.
        eapply Forall2_impl; [|exact Fp]. cbv beta. intros p i (R & T1 & T2 & T3). split; [exact R|]. unfold turned_pivot. rewrite S3, K3, G3. unfold d2. cbn. rewrite upd_ne by (cbn in H; lia). auto.
  - assert (O2 : only d1 d2 n) by apply only_refl. split; [eapply only_trans; [exact O1|]; eapply only_trans; eauto|]. unfold placed; cbv zeta; fold f; rewrite Sw; split; [|split]; unfold only_pivoted.
    + intros _. rewrite S3, K3, G3. unfold d2, d1. cbn. rewrite upd_eq. auto.
    + discriminate.
    + discriminate.
Qed.
