(** A scene that is written and read back. *)
From Coq Require Import String List ZArith QArith Bool Lia Relations.
From Verif Require Import TextModel StringModel FloatModel FloatSpec FloatProps DaeModel DaeSpec RigSpec RigProofs RigWriteProofs UniqueSpec IdProps UriModel SceneModel SceneSpec SceneProofs SceneIterProofs NodeModel NodeSpec NodeTextProofs NodeFindProofs NodeLoadProofs NodeLibProofs NodeWriteProofs.
From Verif Require IdModel UniqueModel.
Import ListNotations.
Local Open Scope nat_scope.
Local Open Scope list_scope.

(** *** Lists side by side, with what came before *)
Inductive along {A B} (R : list A -> A -> B -> Prop) : list A -> list A -> list B -> Prop :=
| G_nil : forall b, along R b [] []
| G_cons : forall b x l y m, R b x y -> along R (b ++ [x]) l m -> along R b (x :: l) (y :: m).
Lemma along_app {A B} (R : list A -> A -> B -> Prop) b l m : along R b l m -> forall l2 m2, along R (b ++ l) l2 m2 -> along R b (l ++ l2) (m ++ m2).
Proof.
  induction 1 as [b|b x l y m H _ IH]; intros l2 m2 H2; [now rewrite app_nil_r in H2|]. cbn [app]. constructor; auto. apply IH. rewrite <- app_assoc. exact H2.
Qed.
Lemma along_map {A B C} (R : list A -> A -> B -> Prop) (f : A -> C) (h : B -> C) b l m : (forall b x y, R b x y -> h y = f x) -> along R b l m -> map h m = map f l.
Proof. intros Hr. induction 1 as [b|b x l y m H _ IH]; [reflexivity|]. cbn. f_equal; auto. eapply Hr; eauto. Qed.
Lemma along_length {A B} (R : list A -> A -> B -> Prop) b l m : along R b l m -> List.length m = List.length l.
Proof. induction 1; cbn; congruence. Qed.
Lemma along_nth {A B} (R : list A -> A -> B -> Prop) b l m : along R b l m -> forall k x, nth_error l k = Some x -> exists y, nth_error m k = Some y /\ R (b ++ firstn k l) x y.
Proof.
  induction 1 as [b|b x l y m H _ IH]; intros k z Hk; [destruct k; discriminate|]. destruct k as [|k].
  - injection Hk as <-. exists y. cbn. rewrite app_nil_r. auto.
  - cbn in Hk. destruct (IH k z Hk) as (w & W1 & W2). exists w. split; auto. cbn [firstn]. rewrite <- app_assoc in W2. exact W2.
Qed.

(** *** The entries of the document that was written *)
Section Entries.
Variables (eps : Q) (s : scene).
Let g := s_graph s.
Let nid (x : nat) := n_id (s_data s x).
Definition matches (b : list nat) (x : nat) (e : entry) : Prop :=
  e_id e = n_id (s_data s x) /\ e_name e = saved_name (s_data s x) /\ e_sub e = saved_sub s x /\ e_joint e = saved_joint s x /\
  Forall2 (as_written eps) (n_transforms (s_data s x)) (e_transforms e) /\ e_children e = map (fun c => n_id (s_data s c)) (saved_children (s_graph s) b x).
Hypothesis O : ok g.
Hypothesis Inj : forall x y, alive g x = true -> alive g y = true -> nid x = nid y -> x = y.
Lemma isin_map l c : (forall y, In y l -> alive g y = true) -> alive g c = true -> isin (nid c) (map nid l) = existsb (Nat.eqb c) l.
Proof.
  intros Hl Hc. destruct (existsb (Nat.eqb c) l) eqn:E.
  - apply existsb_exists in E as (y & Hy & Ey). apply Nat.eqb_eq in Ey. subst. apply isin_iff. now apply in_map.
  - apply isin_not. intro I. apply in_map_iff in I as (y & Ey & Hy). apply Inj in Ey; auto. subst.
    assert (X : existsb (Nat.eqb c) l = true) by (apply existsb_exists; exists c; split; auto; apply Nat.eqb_refl). congruence.
Qed.
Lemma walk_items id path known cs tis rest : walk id path known cs (map to_item tis ++ rest) = walk id path known cs rest.
Proof. induction tis; cbn; auto. Qed.
Lemma items_transforms tis l kids : transforms_of (map to_item tis ++ map (fun c => IRef (nid c)) l ++ map INode kids) = tis.
Proof.
  induction tis as [|[u v] tis IH]; cbn; [|now rewrite IH]. induction l; cbn; auto. induction kids; cbn; auto.
Qed.
Lemma walk_refs n b anc rest : alive g n = true -> (forall y, In y b -> alive g y = true) -> (forall y, In y anc -> descendant g y n) ->
  forall l cs, NoDup l -> (forall c, In c l -> In c (chi g n) /\ ~ In c cs) -> (forall c, In c cs -> alive g c = true) ->
  walk (nid n) (map nid anc) (map nid b ++ [nid n]) (map nid cs) (map (fun c => IRef (nid c)) l ++ rest) =
  walk (nid n) (map nid anc) (map nid b ++ [nid n]) (map nid (cs ++ filter (fun c => existsb (Nat.eqb c) b) l)) rest.
Proof.
  intros Hn Hb Ha. induction l as [|c l IH]; intros cs Nd Hl Hcs; [cbn; now rewrite app_nil_r|].
  destruct (Hl c (or_introl eq_refl)) as (Hc & Hnc). destruct (ok_alive g O _ _ Hc) as (_ & Ac). cbn [map app walk filter].
  assert (Dn : c <> n).
  { intros ->. apply (Acc_irrefl _ _ (ok_down g O n)). exact Hc. }
  assert (Da : ~ In c anc).
  { intro I. apply Ha in I. apply (Acc_no_cycle _ _ (ok_up g O n)). assert (X : ancestor g n n) by (apply (ancestor_descendant g O); eapply t_trans; [apply t_step; exact Hc|exact I]). exact X. }
  assert (E1 : isin (nid c) (map nid b ++ [nid n]) = existsb (Nat.eqb c) b).
  { change [nid n] with (map nid [n]). rewrite <- map_app, isin_map; auto; [rewrite existsb_app; cbn; destruct (Nat.eqb_spec c n); [congruence|]; now rewrite !orb_false_r|].
    intros y I. apply in_app_or in I as [I|[<- |[]]]; auto. }
  assert (E2 : isin (nid c) (nid n :: map nid anc) = false).
  { change (nid n :: map nid anc) with (map nid (n :: anc)). rewrite isin_map; auto.
    - destruct (existsb (Nat.eqb c) (n :: anc)) eqn:X; auto. apply existsb_exists in X as (y & Hy & Ey). apply Nat.eqb_eq in Ey. subst y. destruct Hy as [Hy|Hy]; [congruence|contradiction].
    - intros y [<- |I]; auto. apply Ha in I. now apply (below_alive' g y n O). }
  assert (E3 : isin (nid c) (map nid cs) = false).
  { rewrite isin_map; auto. destruct (existsb (Nat.eqb c) cs) eqn:X; auto. apply existsb_exists in X as (y & Hy & Ey). apply Nat.eqb_eq in Ey. subst y. contradiction. }
  rewrite E1, E2, E3. cbn [negb]. rewrite !andb_true_r. inversion Nd as [|? ? N1 N2]; subst. destruct (existsb (Nat.eqb c) b).
  - change [nid c] with (map nid [c]). rewrite <- map_app, IH; auto.
    + now rewrite <- app_assoc.
    + intros d Hd. destruct (Hl d (or_intror Hd)) as (D1 & D2). split; auto. intro I. apply in_app_or in I as [I|[<- |[]]]; auto.
    + intros d I. apply in_app_or in I as [I|[<- |[]]]; auto.
  - apply IH; auto. intros d Hd. apply Hl. now right.
Qed.
Lemma image_id t T : image eps s t T -> tree_id T = nid (root t).
Proof. now inversion 1. Qed.
Lemma image_entries : forall t T n, unfolds g true n t -> image eps s t T -> alive g n = true -> forall b anc, (forall y, In y b -> alive g y = true) ->
  (forall y, In y anc -> descendant g y n) -> along matches b (preorder t) (nodes_of_tree (map nid b) (map nid anc) T) /\ (forall y, In y (preorder t) -> alive g y = true).
Proof.
  induction t as [m ts IHts] using tree_ind'. intros T n U I Ha b anc Hb Hanc. apply unfolds_below in U as [-> F].
  inversion I as [n0 ts0 kids tis It Ik E1 E2]. subst n0 ts0. clear I E2. rewrite tree_eq. fold (nid n). fold g.
  rewrite walk_items.
  change (@nil (list Z)) with (map nid []). rewrite (walk_refs n b anc _ Ha Hb Hanc); [|apply NoDup_filter, (ok_chi g O)|intros c Hc; split; [apply filter_In in Hc; tauto|intros []]|intros c []].
  cbn [app]. set (refs := map nid (filter (fun c => existsb (Nat.eqb c) b) (others g n))).
  assert (Hin : forall c, In c (under g true n) -> In c (chi g n)) by (intros c Hc; apply filter_In in Hc; tauto).
  assert (W : forall b', (forall y, In y b' -> alive g y = true) -> forall cs, exists es, walk (nid n) (map nid anc) (map nid b') cs (map INode kids) = (cs ++ map nid (under g true n), es) /\
    along matches b' (flat_map preorder ts) es /\ (forall y, In y (flat_map preorder ts) -> alive g y = true)).
  { revert ts F kids Ik IHts Hin. clear It. generalize (under g true n). intros l ts F. induction F as [|c t l ts Hu _ IH]; intros kids Ik IHts Hin b' Hb' cs.
    - inversion Ik; subst. exists []. cbn. rewrite app_nil_r. split; [reflexivity|]. split; [constructor|intros y []].
    - inversion Ik as [|t0 T1 l0 kids' HT Hk X1 X2]; subst. cbn [map walk flat_map].
      pose proof (Hin c (or_introl eq_refl)) as Hc. destruct (ok_alive g O _ _ Hc) as (_ & Ac).
      destruct (Forall_inv IHts T1 c Hu HT Ac b' (n :: anc)) as (A1 & A2); auto.
      { intros y [<- |Hy]; [now apply t_step|]. eapply t_trans; [apply Hanc; exact Hy|now apply t_step]. }
      cbn [map] in A1. set (es := nodes_of_tree (map nid b') (nid n :: map nid anc) T1) in *.
      assert (Em : map e_id es = map nid (preorder t)) by (eapply along_map; [|exact A1]; intros ? ? ? M; apply M).
      destruct (IH kids' Hk (Forall_inv_tail IHts)) with (b' := b' ++ preorder t) (cs := cs ++ [tree_id T1]) as (es1 & Y1 & Y2 & Y3); auto.
      { intros d Hd. apply Hin. now right. }
      { intros y Hy. apply in_app_or in Hy as [Hy|Hy]; auto. }
      rewrite Em, <- map_app, Y1. exists (es ++ es1). split.
      + rewrite (image_id t T1 HT), (unfolds_root _ _ _ _ Hu), <- app_assoc. reflexivity.
      + split; [now apply along_app|]. intros y Hy. apply in_app_or in Hy as [Hy|Hy]; auto. }
  destruct (W (b ++ [n])) with (cs := refs) as (es & Y1 & Y2 & Y3).
  { intros y Hy. apply in_app_or in Hy as [Hy|[<- |[]]]; auto. }
  rewrite map_app in Y1. cbn [map] in Y1. rewrite Y1. cbn [preorder]. split.
  - constructor; [|exact Y2]. unfold matches. cbn [e_id e_name e_sub e_joint e_transforms e_children]. rewrite items_transforms.
    repeat (split; [reflexivity|]). split; [exact It|]. unfold saved_children, refs. rewrite map_app. reflexivity.
  - intros y [<- |Hy]; auto.
Qed.
Lemma image_subs : (forall p c, descendant g p c -> par g p <> [] -> n_sub (s_data s c) <> [] -> n_sub (s_data s p) <> n_sub (s_data s c)) ->
  forall t T n, unfolds g true n t -> image eps s t T -> forall anc, (forall y, In y anc -> descendant g y n) -> subs_fine (map (saved_sub s) anc) T.
Proof.
  intro Hs. induction t as [m ts IHts] using tree_ind'. intros T n U I anc Hanc. apply unfolds_below in U as [-> F].
  inversion I as [n0 ts0 kids tis It Ik E1 E2]. subst n0 ts0. clear I E2. constructor.
  - intros Hne Hi. apply in_map_iff in Hi as (p & Ep & Hp). pose proof (Hanc p Hp) as D. unfold saved_sub in *.
    destruct (par (s_graph s) n) as [|? ?]; [congruence|]. destruct (par (s_graph s) p) as [|q l1] eqn:E; [congruence|].
    apply (Hs p n D); auto. fold g in E. rewrite E. discriminate.
  - intros T2 Hi. apply in_app_or in Hi as [Hi|Hi]; [apply in_map_iff in Hi as (? & X & _); discriminate|].
    apply in_app_or in Hi as [Hi|Hi]; [apply in_map_iff in Hi as (? & X & _); discriminate|].
    apply in_map_iff in Hi as (T0 & ET & Hi). injection ET as ->.
    assert (Hin : forall c, In c (under g true n) -> In c (chi g n)) by (intros c Hc; apply filter_In in Hc; tauto).
    revert kids Ik T2 Hi IHts Hin. induction F as [|c t l ts Hu _ IH]; intros kids Ik T2 Hi IHts Hin; inversion Ik as [|t0 T1 l0 kids' HT Hk X1 X2]; subst; [destruct Hi|].
    destruct Hi as [-> |Hi].
    + change (saved_sub s n :: map (saved_sub s) anc) with (map (saved_sub s) (n :: anc)). eapply (Forall_inv IHts); eauto.
      pose proof (Hin c (or_introl eq_refl)) as Hc. intros y [<- |Hy]; [now apply t_step|]. eapply t_trans; [apply Hanc; exact Hy|now apply t_step].
    + eapply IH; eauto; [exact (Forall_inv_tail IHts)|]. intros d Hd. apply Hin. now right.
Qed.
Lemma library_entries : forall roots trees, Forall2 (unfolds g true) roots trees -> (forall r, In r roots -> alive g r = true) -> forall Ts, Forall2 (image eps s) trees Ts ->
  forall b, (forall y, In y b -> alive g y = true) -> along matches b (flat_map preorder trees) (nodes_of_library (map nid b) Ts) /\ map tree_id Ts = map nid roots.
Proof.
  induction 1 as [|r t roots trees Hu _ IH]; intros Hr Ts HT b Hb; inversion HT as [|t0 T l0 Ts' HT1 HT2 X1 X2]; subst; [split; [constructor|reflexivity]|].
  cbn [flat_map nodes_of_library map]. destruct (image_entries t T r Hu HT1 (Hr r (or_introl eq_refl)) b []) as (A1 & A2); [exact Hb|intros y []|].
  assert (Em : map e_id (nodes_of_tree (map nid b) [] T) = map nid (preorder t)) by (eapply along_map; [|exact A1]; intros ? ? ? M; apply M).
  destruct (IH (fun x h => Hr x (or_intror h)) Ts' HT2 (b ++ preorder t)) as (B1 & B2).
  { intros y Hy. apply in_app_or in Hy as [Hy|Hy]; auto. }
  split; [|rewrite (image_id t T HT1), (unfolds_root _ _ _ _ Hu), B2; reflexivity].
  apply along_app; [exact A1|]. rewrite Em, <- map_app. exact B1.
Qed.
End Entries.

(** Every node is somewhere in the order. *)
Lemma in_preorder g t : forall n x c, unfolds g true n t -> In x (preorder t) -> In c (under g true x) -> In c (preorder t).
Proof.
  induction t as [m ts IHts] using tree_ind'. intros n x c U Hx Hc. apply unfolds_below in U as [-> F]. cbn [preorder] in *. right.
  destruct Hx as [<- |Hx].
  - clear IHts. induction F as [|d t l ts Hu _ IH]; [destruct Hc|]. cbn [flat_map]. apply in_or_app. destruct Hc as [-> |Hc]; [left|right; auto].
    destruct t as [q us]. apply unfolds_below in Hu as [-> _]. now left.
  - apply in_flat_map in Hx as (t & Ht & Hx). apply in_flat_map. exists t. split; auto. rewrite Forall_forall in IHts.
    assert (exists d, unfolds g true d t) as (d & Hd) by (clear -F Ht; induction F; [destruct Ht|destruct Ht as [<- |Ht]; eauto]).
    eapply IHts; eauto.
Qed.
Lemma root_in_order g roots trees x : Forall2 (unfolds g true) roots trees -> In x roots -> In x (flat_map preorder trees).
Proof.
  induction 1 as [|r t roots trees Hu _ IH]; intro Hr; [destruct Hr|]. cbn [flat_map]. apply in_or_app. destruct Hr as [-> |Hr]; [left|right; auto].
  destruct t as [q us]. apply unfolds_below in Hu as [-> _]. now left.
Qed.
Lemma all_in_order g roots trees : ok g -> (forall x, alive g x = true -> par g x = [] -> In x roots) -> Forall2 (unfolds g true) roots trees ->
  forall x, alive g x = true -> In x (flat_map preorder trees).
Proof.
  intros O Hr F x. induction (ok_up g O x) as [x _ IH]. intro Ha. destruct (par g x) as [|p l] eqn:E.
  - eapply root_in_order; eauto.
  - assert (Hp : In p (par g x)) by (rewrite E; now left). assert (Hc : In x (chi g p)) by now apply (ok_mirror g O).
    specialize (IH p (or_introl eq_refl) (proj1 (ok_alive g O _ _ Hc))). apply in_flat_map in IH as (t & Ht & It). apply in_flat_map. exists t. split; auto.
    assert (exists d, unfolds g true d t) as (d & Hd) by (clear -F Ht; induction F; [destruct Ht|destruct Ht as [<- |Ht]; eauto]).
    eapply in_preorder; eauto. unfold under. apply filter_In. split; auto. rewrite E. apply Nat.eqb_refl.
Qed.
Lemma nth_map_inj {A} (f : nat -> A) l x y : NoDup (map f l) -> In x l -> In y l -> f x = f y -> x = y.
Proof.
  induction l as [|z l IH]; cbn; intros N Hx Hy E; [destruct Hx|]. inversion N as [|? ? N1 N2]; subst.
  destruct Hx as [-> |Hx], Hy as [-> |Hy]; auto; exfalso; apply N1; [rewrite E|rewrite <- E]; now apply in_map.
Qed.

(** *** All together *)
Lemma scenes_round names0 a other eps s roots order doc : machine_eps eps -> proper_scene (fun c => other c = true) s roots order ->
  Forall (fun x => UniqueModel.contains names0 (n_id (s_data s x)) = false) order -> WriteScenes a eps s roots doc ->
  exists f0 st, (forall fuel, f0 <= fuel -> LoadScenes fuel a other (no_scenes names0) true (children_of doc) = Done (true, st)) /\
  next (l_graph st) = List.length order /\ map (id_of st) (l_roots st) = map (fun r => n_id (s_data s r)) roots /\
  (forall k x, nth_error order k = Some x -> node_saved (remains eps) s st (firstn k order) x k).
Proof.
  intros He [Hh Hr (trees & Ht & ->) Hp Hi Hs] Hfree (l & Hl & ->). pose proof (history_ok _ Hh) as O. destruct Hr as (_ & Hr).
  assert (Har : forall r, In r roots -> alive (s_graph s) r = true) by (intros r I; now apply Hr).
  assert (Inj : forall x y, alive (s_graph s) x = true -> alive (s_graph s) y = true -> n_id (s_data s x) = n_id (s_data s y) -> x = y).
  { intros x y Hx Hy. apply (nth_map_inj (fun x => n_id (s_data s x)) _ x y (told_NoDup _ Hi)); eapply all_in_order; eauto; intros z Z1 Z2; now apply Hr. }
  assert (HT : exists Ts, Forall2 (image eps s) trees Ts /\ library_is (fun c => other c = true) l Ts /\ Forall (subs_fine []) Ts).
  { assert (Htop : forall r, In r roots -> par (s_graph s) r = []) by (intros r I; now apply Hr).
    revert l Hl Har Htop. clear -Ht He O Hp Hs. induction Ht as [|r t roots trees Hu _ IH]; intros l Hl Har Htop; inversion Hl as [|r0 e l0 l' He1 Hl1 X1 X2]; subst.
    - exists []. repeat split; constructor.
    - destruct (IH l' Hl1) as (Ts & A1 & A2 & A3); [intros z Z; apply Har; now right|intros z Z; apply Htop; now right|].
      destruct (node_describes _ a eps s He O Hp t r e Hu (Har r (or_introl eq_refl)) He1) as (T & B1 & B2 & B3).
      unfold is_top in B3. rewrite (Htop r (or_introl eq_refl)) in B3. destruct B3 as (at0 & ch & ->).
      exists (T :: Ts). split; [now constructor|]. split; [|constructor; auto; exact (image_subs eps s Hs t T r Hu B1 [] (fun y h => match h with end))].
      apply L_scene; auto; intros (x1 & x2 & X); apply (f_equal (fun n => match n with Elem nm _ _ => nm | _ => [] end)) in X; vm_compute in X; discriminate X. }
  destruct HT as (Ts & T1 & T2 & T3).
  destruct (library_entries eps s O Inj roots trees Ht Har Ts T1 [] (fun y h => match h with end)) as (A1 & A2). cbn [map] in A1.
  assert (Em : map e_id (nodes_of_library [] Ts) = map (fun x => n_id (s_data s x)) (flat_map preorder trees)) by (eapply along_map; [|exact A1]; intros ? ? ? M; apply M).
  destruct (read_library names0 a other l Ts T2 (no_scenes names0) [] (start names0)) as (f0 & st & E & V & _ & R & NS); auto.
  { cbn [app]. now rewrite Em. }
  { apply Forall_forall. intros e I. rewrite Forall_forall in Hfree. assert (J : In (e_id e) (map e_id (nodes_of_library [] Ts))) by now apply in_map.
    rewrite Em in J. apply in_map_iff in J as (x & <- & J). now apply Hfree. }
  exists f0, st. split; [exact E|]. split; [rewrite (b_next _ _ _ _ V); cbn; rewrite map_length; eapply along_length; eauto|].
  split; [rewrite R; cbn; rewrite A2; reflexivity|].
  intros k x Hk. destruct (along_nth _ _ _ _ A1 k x Hk) as (e & Ek & M). cbn [app] in M. cbn [List.length] in NS.
  assert (N : node_is close st k e).
  { clear -NS Ek. revert k Ek NS. generalize (nodes_of_library [] Ts) as es. intros es k Ek NS.
    assert (G : forall n, Forall2 (node_is close st) (seq n (List.length es)) es -> node_is close st (n + k) e).
    { clear NS. revert k Ek. induction es as [|d es IH]; intros k Ek n NS; [destruct k; discriminate|]. cbn [List.length seq] in NS. inversion NS; subst.
      destruct k as [|k]; [injection Ek as ->; now rewrite Nat.add_0_r|]. rewrite Nat.add_succ_r. apply (IH k Ek (S n)). assumption. }
    exact (G 0 NS). }
  destruct N as (N1 & N2 & N3 & N4 & N5 & N6). destruct M as (M1 & M2 & M3 & M4 & M5 & M6).
  unfold node_saved. split; [unfold id_of; rewrite N1; exact M1|]. repeat (split; [congruence|]). split; [|congruence].
  clear -N5 M5. revert N5. generalize (l_transforms st k). induction M5 as [|t p ts tis (P1 & P2) _ IH]; intros l N5; inversion N5 as [|p0 t' l0 l' (Q1 & Q2) Q3]; subst; constructor; auto.
  split; [congruence|]. eapply rel_compose; eauto.
Qed.
