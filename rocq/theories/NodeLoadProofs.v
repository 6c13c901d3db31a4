(** Reading the elements of scene nodes. *)
From Coq Require Import String List ZArith QArith Bool Lia Relations.
From Verif Require Import TextModel TextProofs StringModel StringProofs DaeModel DaeSpec RigSpec RigProofs UniqueSpec IdProps UriModel SceneModel SceneSpec SceneProofs SubIdProps NodeModel NodeSpec NodeTextProofs NodeFindProofs.
From Verif Require IdModel UniqueModel UniqueProofs.
Import ListNotations.
Local Open Scope nat_scope.
Local Open Scope list_scope.

(** *** The loops by themselves *)
Definition children_loop (fuel : nat) (a : arith) (other : xml -> bool) (i : nat) :=
  fix loop (st : lstate) (status : bool) (l : list xml) {struct l} : res (bool * lstate) :=
     match l with
     | [] => Done (status, st)
     | Text _ :: r => loop st status r
     | (Elem cn ca cc as c) :: r =>
         if named c "node" then
           match AddNewChild fuel st i with
           | Done (k, st1) =>
               match LoadSceneNode fuel a other st1 k c with
               | Done (true, st2) => loop st2 true r
               | stop => stop
               end
           | Fuel => Fuel
           | Bad => Bad
           end
         else if named c "instance_node" then
           match LoadNodeInstance fuel a st i c with Done st1 => loop st1 status r | Fuel => Fuel | Bad => Bad end
         else if named c "extra" then loop st status r
         else if named c "asset" then loop st status r
         else match GetTransformType c with
              | Some k => match LoadTransform a k c with
                          | Some (ok, v) => loop (add_transform st i c v) (status && ok) r
                          | None => Bad
                          end
              | None => loop st (status && other c) r
              end
     end.
Lemma load_eq fuel a other st i name attrs ch : LoadSceneNode fuel a other st i (Elem name attrs ch) =
  match LoadHead fuel st i (Elem name attrs ch) with Done st1 => children_loop fuel a other i st1 true ch | Fuel => Fuel | Bad => Bad end.
Proof. reflexivity. Qed.
Definition walk (id : list Z) (path : list (list Z)) :=
  fix walk (known : list (list Z)) (cs : list (list Z)) (items : list item) : list (list Z) * list entry :=
     match items with
     | [] => (cs, [])
     | ITransform _ _ :: r => walk known cs r
     | IRef x :: r => walk known (if isin x known && negb (isin x (id :: path)) && negb (isin x cs) then cs ++ [x] else cs) r
     | INode t :: r =>
         let es := nodes_of_tree known (id :: path) t in
         let (cs1, es1) := walk (known ++ map e_id es) (cs ++ [tree_id t]) r in (cs1, es ++ es1)
     end.
Lemma tree_eq known path id name sub joint items : nodes_of_tree known path (NTree id name sub joint items) =
  let (cs, es) := walk id path (known ++ [id]) [] items in Entry id name sub joint (transforms_of items) cs :: es.
Proof. reflexivity. Qed.
Lemma isin_iff x l : isin x l = true <-> In x l.
Proof. unfold isin. destruct (in_dec (list_eq_dec Z.eq_dec) x l); split; auto; discriminate. Qed.
Lemma isin_not x l : isin x l = false <-> ~ In x l.
Proof. rewrite <- isin_iff. destruct (isin x l); split; congruence. Qed.

(** *** Graphs *)
Lemma descendant_mono g g' : (forall p, incl (chi g p) (chi g' p)) -> forall a b, descendant g a b -> descendant g' a b.
Proof. intros H a b D. induction D as [x y D|x y z _ I1 _ I2]; [apply t_step; now apply H|eapply t_trans; eauto]. Qed.
Lemma beyond g k : ok g -> next g <= k -> chi g k = [] /\ par g k = [].
Proof.
  intros O H. split.
  - destruct (chi g k) as [|c l] eqn:E; auto. assert (I : In c (chi g k)) by (rewrite E; now left). apply (ok_alive g O) in I as (A & _). apply (ok_next g O) in A. lia.
  - destruct (par g k) as [|p l] eqn:E; auto. assert (I : In p (par g k)) by (rewrite E; now left). apply (ok_mirror g O) in I. apply (ok_alive g O) in I as (_ & A). apply (ok_next g O) in A. lia.
Qed.
Lemma no_descendant g k m : chi g k = [] -> ~ descendant g k m.
Proof. intros H D. apply clos_trans_t1n in D. destruct D as [y A|y z A _]; rewrite H in A; destruct A. Qed.
Lemma below_alive' g a b : ok g -> descendant g a b -> alive g a = true /\ alive g b = true.
Proof.
  intros O D. induction D as [x y D|x y z _ I1 _ I2]; [now apply (ok_alive g O)|]. split; [apply I1|apply I2].
Qed.

(** *** The invariant *)
Section Load.
Variable names0 : UniqueModel.names.

Definition ids_known (st : lstate) (ids : list (list Z)) : Prop := forall x, UniqueModel.contains (IdModel.doc_names (l_doc st)) x = true ->
  UniqueModel.contains names0 x = true \/ exists y, In y ids /\ split_name x = split_name y.
Record inv (st : lstate) (ids : list (list Z)) (chain : list nat) : Prop := {
  b_hist : history (l_graph st);
  b_next : next (l_graph st) = List.length ids;
  b_alive : forall k, k < List.length ids -> alive (l_graph st) k = true;
  b_objs : IdModel.objects (l_doc st) = map node_object ids;
  b_names : ids_known st ids;
  b_roots : Forall (fun r => r < List.length ids) (l_roots st);
  b_reach : forall k, k < List.length ids -> exists r, In r (l_roots st) /\ (k = r \/ descendant (l_graph st) r k);
  b_linked : linked (l_graph st) chain;
  b_chain : Forall (fun k => k < List.length ids) chain }.
Definition new_object : IdModel.object := {| IdModel.daeId := tx "VisualSceneNode"; IdModel.unique := false; IdModel.alive := true |}.
(** A node was made, and its element was not read yet. *)
Record opened (st : lstate) (ids : list (list Z)) (chain : list nat) : Prop := {
  o_hist : history (l_graph st);
  o_next : next (l_graph st) = S (List.length ids);
  o_alive : forall k, k <= List.length ids -> alive (l_graph st) k = true;
  o_objs : IdModel.objects (l_doc st) = map node_object ids ++ [new_object];
  o_names : ids_known st ids;
  o_roots : Forall (fun r => r <= List.length ids) (l_roots st);
  o_reach : forall k, k <= List.length ids -> exists r, In r (l_roots st) /\ (k = r \/ descendant (l_graph st) r k);
  o_linked : linked (l_graph st) (List.length ids :: chain);
  o_chain : Forall (fun k => k < List.length ids) chain;
  o_chi : chi (l_graph st) (List.length ids) = [];
  o_transforms : l_transforms st (List.length ids) = [];
  o_joint : l_joint st (List.length ids) = false }.
(** The data of the nodes below n but those in except stay. *)
Definition frame (n : nat) (except : nat -> Prop) (st st' : lstate) : Prop := forall m, m < n -> ~ except m ->
  l_name st' m = l_name st m /\ l_sub st' m = l_sub st m /\ l_joint st' m = l_joint st m /\ l_transforms st' m = l_transforms st m /\
  chi (l_graph st') m = chi (l_graph st) m.
Definition nobody (m : nat) : Prop := False.
Lemma inv_alive_iff st ids chain : inv st ids chain -> forall k, alive (l_graph st) k = true <-> k < List.length ids.
Proof.
  intros V k. split; [|apply (b_alive _ _ _ V)]. intro A. apply (ok_next _ (history_ok _ (b_hist _ _ _ V))) in A. now rewrite (b_next _ _ _ V) in A.
Qed.
Lemma inv_id st ids chain : inv st ids chain -> forall k, id_of st k = nth k ids [].
Proof.
  intros V k. unfold id_of. rewrite (b_objs _ _ _ V), nth_error_map. destruct (nth_error ids k) as [x|] eqn:E; cbn.
  - symmetry. now apply nth_error_nth.
  - apply nth_error_None in E. symmetry. now apply nth_overflow.
Qed.
Lemma inv_chi st ids chain : inv st ids chain -> forall k c, In c (chi (l_graph st) k) -> k < List.length ids /\ c < List.length ids.
Proof.
  intros V k c I. apply (ok_alive _ (history_ok _ (b_hist _ _ _ V))) in I as (A & B). split; now apply (inv_alive_iff _ _ _ V).
Qed.

Lemma inv_inner st ids i chain : inv st ids (i :: chain) -> inv st ids chain.
Proof. intros [B1 B2 B3 B4 B5 B6 B7 (_ & B8) B9]. constructor; auto. exact (Forall_inv_tail B9). Qed.

(** *** A new node *)
Lemma new_history g d : history g -> ok (NewNode g d). Proof. intro H. apply history_ok. now apply h_new. Qed.
Lemma open_child st ids i chain : inv st ids (i :: chain) -> exists f0 st1,
  (forall fuel, f0 <= fuel -> AddNewChild fuel st i = Done (List.length ids, st1)) /\ opened st1 ids (i :: chain) /\
  frame (List.length ids) (eq i) st st1 /\ l_roots st1 = l_roots st /\ chi (l_graph st1) i = chi (l_graph st) i ++ [List.length ids] /\
  l_name st1 i = l_name st i /\ l_sub st1 i = l_sub st i /\ l_joint st1 i = l_joint st i /\ l_transforms st1 i = l_transforms st i.
Proof.
  intros V. set (n := List.length ids). pose proof (b_hist _ _ _ V) as Hh. pose proof (history_ok _ Hh) as O0.
  assert (Hi : i < n) by (apply (Forall_inv (b_chain _ _ _ V))).
  set (g := NewNode (l_graph st) 0). assert (O : ok g) by now apply new_history.
  assert (Hn : next (l_graph st) = n) by apply (b_next _ _ _ V).
  assert (Ai : alive g i = true) by (cbn; rewrite Hn, upd_other by lia; now apply (b_alive _ _ _ V)).
  assert (An : alive g n = true) by (cbn; rewrite Hn; apply upd_same).
  destruct (beyond (l_graph st) n O0 ltac:(lia)) as (C0 & P0).
  destruct (add_spec g i n O Ai An) as (f0 & [(N1 & N2 & N3 & E)|(X & _)]).
  2:{ exfalso. destruct X as [X|[X|X]]; [lia| |].
      - cbn in X. apply (inv_chi _ _ _ V) in X. unfold n in X. lia.
      - revert X. apply no_descendant. exact C0. }
  assert (Hj : history (joined g i n)).
  { eapply (h_add f0 g i (Some n)); [now apply h_new|exact Ai| |apply (E f0); lia]. intros x Hx. now injection Hx as <-. }
  assert (Ej : forall st', l_graph st' = g -> l_graph (with_graph st' (joined g i n)) = joined g i n) by reflexivity.
  exists f0, (with_graph (NewSceneNode st) (joined g i n)). split; [|split; [|split; [|split; [|split; [|split; [|split; [|split]]]]]]].
  - intros fuel Hf. unfold AddNewChild. rewrite Hn. change (l_graph (NewSceneNode st)) with g. rewrite (E fuel Hf). reflexivity.
  - assert (Hchi : forall p, incl (chi (l_graph st) p) (chi (joined g i n) p)).
    { intros p y I. cbn. unfold upd. destruct (Nat.eqb_spec p i) as [->|]; [apply in_or_app; now left|exact I]. }
    constructor; cbn [with_graph l_graph l_doc l_roots l_transforms l_joint NewSceneNode].
    + exact Hj.
    + cbn. now rewrite Hn.
    + intros k Hk. cbn. rewrite Hn. destruct (Nat.eq_dec k n) as [->|]; [apply upd_same|]. rewrite upd_other by auto. apply (b_alive _ _ _ V). fold n. unfold n in *. lia.
    + cbn. now rewrite (b_objs _ _ _ V).
    + exact (b_names _ _ _ V).
    + eapply Forall_impl; [|exact (b_roots _ _ _ V)]. cbv beta. intros; lia.
    + intros k Hk. destruct (Nat.eq_dec k n) as [->|Hne].
      * destruct (b_reach _ _ _ V i Hi) as (r & Hr & D). exists r. split; auto. right.
        assert (S1 : descendant (joined g i n) i n) by (apply t_step; cbn; rewrite upd_same; apply in_or_app; right; now left).
        destruct D as [->|D]; [exact S1|]. eapply t_trans; [|exact S1]. eapply descendant_mono; [exact Hchi|exact D].
      * destruct (b_reach _ _ _ V k) as (r & Hr & D); [unfold n in *; lia|]. exists r. split; auto. destruct D as [->|D]; auto. right. eapply descendant_mono; eauto.
    + fold n. split.
      * cbn. rewrite upd_same. rewrite P0. reflexivity.
      * eapply linked_ext; [|exact (b_linked _ _ _ V)]. intros x Hx. cbn. apply upd_other. pose proof (b_chain _ _ _ V) as Hc. rewrite Forall_forall in Hc. specialize (Hc x Hx). fold n in Hc. lia.
    + exact (b_chain _ _ _ V).
    + fold n. cbn. rewrite upd_other by lia. exact C0.
    + fold n. rewrite Hn. apply upd_same.
    + fold n. rewrite Hn. apply upd_same.
  - intros m Hm Hx. cbn [with_graph l_graph l_name l_sub l_joint l_transforms NewSceneNode]. rewrite Hn, !upd_other by lia. cbn. rewrite upd_other by auto. auto.
  - reflexivity.
  - cbn. apply upd_same.
  - cbn. rewrite Hn. apply upd_other. lia.
  - cbn. rewrite Hn. apply upd_other. lia.
  - cbn. rewrite Hn. apply upd_other. lia.
  - cbn. rewrite Hn. apply upd_other. lia.
Qed.
Lemma open_root st ids : inv st ids [] -> exists st1, AddEntity st = (List.length ids, st1) /\ opened st1 ids [] /\
  frame (List.length ids) nobody st st1 /\ l_roots st1 = l_roots st ++ [List.length ids].
Proof.
  intros V. set (n := List.length ids). pose proof (b_hist _ _ _ V) as Hh. pose proof (history_ok _ Hh) as O0.
  assert (Hn : next (l_graph st) = n) by apply (b_next _ _ _ V). destruct (beyond (l_graph st) n O0 ltac:(lia)) as (C0 & P0).
  unfold AddEntity. rewrite Hn. eexists. split; [reflexivity|]. split; [|split].
  - constructor; cbn [l_graph l_doc l_roots l_transforms l_joint NewSceneNode].
    + now apply h_new.
    + cbn. now rewrite Hn.
    + intros k Hk. cbn. rewrite Hn. destruct (Nat.eq_dec k n) as [->|]; [apply upd_same|]. rewrite upd_other by auto. apply (b_alive _ _ _ V). unfold n in *. lia.
    + cbn. now rewrite (b_objs _ _ _ V).
    + exact (b_names _ _ _ V).
    + apply Forall_app. split; [|repeat constructor]. eapply Forall_impl; [|exact (b_roots _ _ _ V)]. cbv beta. intros; lia.
    + intros k Hk. destruct (Nat.eq_dec k n) as [->|Hne]; [exists n; split; [apply in_or_app; right; now left|now left]|].
      destruct (b_reach _ _ _ V k) as (r & Hr & D); [unfold n in *; lia|]. exists r. split; [apply in_or_app; now left|exact D].
    + fold n. split; [exact P0|exact I].
    + constructor.
    + exact C0.
    + rewrite Hn. apply upd_same.
    + rewrite Hn. apply upd_same.
  - intros m Hm _. cbn [l_graph l_name l_sub l_joint l_transforms NewSceneNode]. rewrite Hn, !upd_other by lia. auto.
  - reflexivity.
Qed.

(** *** Its attributes *)
Lemma set_nth_last l o o' : IdModel.set_nth (l ++ [o]) (List.length l) o' = l ++ [o'].
Proof. induction l as [|x l IH]; cbn; auto. now rewrite IH. Qed.
Lemma set_id d ids x : IdModel.objects d = map node_object ids ++ [new_object] -> id_text x -> UniqueModel.contains (IdModel.doc_names d) x = false ->
  exists m', IdModel.SetDaeId d (List.length ids) x = {| IdModel.doc_names := m'; IdModel.objects := map node_object (ids ++ [x]) |} /\
  (forall y, UniqueModel.contains m' y = true <-> split_name y = split_name x \/ UniqueModel.contains (IdModel.doc_names d) y = true).
Proof.
  intros Hd Hx Hc. destruct (insert_fresh _ _ Hc) as (m' & E & P). exists m'. split; [|exact P].
  assert (Ho : nth_error (IdModel.objects d) (List.length ids) = Some new_object).
  { rewrite Hd, nth_error_app2 by (rewrite map_length; lia). rewrite map_length, Nat.sub_diag. reflexivity. }
  unfold IdModel.SetDaeId, IdModel.RemoveDaeId, IdModel.object_at. rewrite Ho. cbn [IdModel.alive new_object IdModel.unique]. rewrite Ho. cbn [IdModel.alive new_object].
  rewrite (clean_id_same x Hx), E. unfold IdModel.put. f_equal. rewrite Hd. rewrite <- (map_length node_object ids). rewrite set_nth_last, map_app. reflexivity.
Qed.
Lemma head_spec st ids chain nm attrs ch x name sub (joint : bool) :
  let c := Elem nm attrs ch in let n := List.length ids in opened st ids chain ->
  has_attr c "id" x -> id_text x -> (has_attr c "name" name /\ name_text name \/ no_attr c "name" /\ name = dots_replaced x) -> sid_is c sub ->
  (if joint then has_attr c "type" (tx "JOINT") else no_attr c "type" \/ has_attr c "type" (tx "NODE")) ->
  told_apart (ids ++ [x]) -> UniqueModel.contains names0 x = false -> (sub <> [] -> ~ In sub (map (l_sub st) chain)) ->
  exists f0 st1, (forall fuel, f0 <= fuel -> LoadHead fuel st n c = Done st1) /\ inv st1 (ids ++ [x]) (n :: chain) /\ l_graph st1 = l_graph st /\
  l_roots st1 = l_roots st /\ frame n nobody st st1 /\ l_transforms st1 n = [] /\ l_name st1 n = name /\ l_sub st1 n = sub /\ l_joint st1 n = joint.
Proof.
  intros c n V Hid Hx Hname Hsid Htype Htold Hfree Hsub.
  assert (Eid : ReadNodeProperty c "id" = x) by (apply has_attr_plain; [exact Hid|apply id_plain; exact Hx]).
  assert (Hxn : x <> []) by (apply (id_plain x Hx)).
  assert (Hc : UniqueModel.contains (IdModel.doc_names (l_doc st)) x = false).
  { destruct (UniqueModel.contains (IdModel.doc_names (l_doc st)) x) eqn:E; auto. apply (o_names _ _ _ V) in E as [E|(y & Hy & E)]; [congruence|].
    exfalso. destruct (told_app _ _ Htold) as (T1 & T2 & T3). rewrite Forall_forall in T3. pose proof (Forall_inv (T3 y Hy)) as N. apply N.
    apply UniqueProofs.same_name_sym. apply (UniqueProofs.key_same x y); [apply (told_modest _ _ T2); now left|now apply (told_modest _ _ T1)|exact E]. }
  destruct (set_id (l_doc st) ids x (o_objs _ _ _ V) Hx Hc) as (m' & Es & Pm).
  destruct (C76_choice (l_graph st) (l_sub st) n sub (o_hist _ _ _ V)) as (f0 & sub' & Hs & Hs1 & Hs2 & Hs3 & _).
  assert (Esub : sub' n = sub).
  { destruct (list_eq_dec Z.eq_dec sub []) as [E|E]; [rewrite Hs2; auto|]. destruct (sid_read c sub Hsid) as (_ & Ec). rewrite Hs3; auto. intros m [D|D]; rewrite Ec.
    - exfalso. revert D. apply no_descendant. exact (o_chi _ _ _ V).
    - intro Em. apply (Hsub E). rewrite <- Em. apply in_map. apply (ancestor_descendant _ (history_ok _ (o_hist _ _ _ V))) in D.
      apply (linked_ancestors _ chain n (o_linked _ _ _ V)). exact D. }
  assert (Ename : match IdModel.CleanName (ReadNodeProperty c "name") with [] => IdModel.CleanName x | _ :: _ => IdModel.CleanName (ReadNodeProperty c "name") end = name).
  { destruct Hname as [(H1 & H2)|(H1 & ->)].
    - destruct (name_plain name H2) as (Hp & Hne). rewrite (has_attr_plain _ _ _ H1 Hp), (clean_name_same name H2). destruct name; congruence.
    - rewrite (no_attr_read _ _ H1). cbn. now apply clean_name_id. }
  assert (Ejoint : text_eq (ReadNodeProperty c "type") (tx "JOINT") = joint).
  { destruct joint.
    - rewrite (has_attr_read _ _ _ Htype). reflexivity.
    - destruct Htype as [H|H]; [rewrite (no_attr_read _ _ H)|rewrite (has_attr_read _ _ _ H)]; reflexivity. }
  exists f0, (LState (l_graph st) {| IdModel.doc_names := m'; IdModel.objects := map node_object (ids ++ [x]) |} (upd (l_name st) n name) sub'
    (if joint then upd (l_joint st) n true else l_joint st) (l_transforms st) (l_roots st)). split; [|split; [|split; [|split; [|split; [|split; [|split; [|split]]]]]]].
  - intros fuel Hf. unfold LoadHead, LoadEntity. rewrite Eid. cbn [l_graph l_doc l_name l_sub l_joint l_transforms l_roots].
    rewrite (proj1 (sid_read c sub Hsid)), (Hs fuel Hf), Ejoint.
    destruct x as [|x0 xr] eqn:Ex; [congruence|]. rewrite <- Ex in *. fold n in Es. rewrite Es, Ename. reflexivity.
  - constructor; cbn [l_graph l_doc l_roots]; rewrite ?app_length; cbn [List.length]; fold n; rewrite ?Nat.add_1_r.
    + apply V.
    + exact (o_next _ _ _ V).
    + intros k Hk. apply (o_alive _ _ _ V). unfold n in Hk. lia.
    + reflexivity.
    + intros y Hy. cbn in Hy. apply Pm in Hy as [Hy|Hy]; [right; exists x; split; [apply in_or_app; right; now left|exact Hy]|].
      apply (o_names _ _ _ V) in Hy as [Hy|(z & Hz & E)]; [now left|right; exists z; split; [apply in_or_app; now left|exact E]].
    + eapply Forall_impl; [|exact (o_roots _ _ _ V)]. cbv beta. unfold n. intros; lia.
    + intros k Hk. apply (o_reach _ _ _ V). unfold n in Hk. lia.
    + exact (o_linked _ _ _ V).
    + constructor; [lia|]. eapply Forall_impl; [|exact (o_chain _ _ _ V)]. cbv beta. unfold n. intros; lia.
  - reflexivity.
  - reflexivity.
  - intros m Hm _. cbn. rewrite upd_other by lia. rewrite Hs1 by lia. repeat split; auto. destruct joint; auto. apply upd_other. lia.
  - exact (o_transforms _ _ _ V).
  - cbn. apply upd_same.
  - exact Esub.
  - cbn. destruct joint; [apply upd_same|exact (o_joint _ _ _ V)].
Qed.

(** *** A reference to a node *)
Definition same_node (i : nat) (st st' : lstate) : Prop :=
  l_name st' i = l_name st i /\ l_sub st' i = l_sub st i /\ l_joint st' i = l_joint st i.
Lemma in_ids (ids : list (list Z)) k x : NoDup ids -> k < List.length ids -> nth_error ids k = Some x -> forall l, Forall (fun m => m < List.length ids) l ->
  (In x (map (fun m => nth m ids []) l) <-> In k l).
Proof.
  intros Nd Hk Hx l Hl. rewrite in_map_iff. split.
  - intros (m & E & I). assert (Hm : m < List.length ids) by (rewrite Forall_forall in Hl; auto).
    assert (Em : nth_error ids m = Some x) by (rewrite <- E; now apply nth_error_nth'). now rewrite (NoDup_nth_inj ids k m x Nd Hx Em).
  - intros I. exists k. split; auto. now apply nth_error_nth.
Qed.
Lemma ref_spec a st ids i rest c x : inv st ids (i :: rest) -> NoDup ids -> has_attr c "url" (35%Z :: x) -> id_text x ->
  exists f0 st', (forall fuel, f0 <= fuel -> LoadNodeInstance fuel a st i c = Done st') /\ inv st' ids (i :: rest) /\ frame (List.length ids) (eq i) st st' /\
  l_roots st' = l_roots st /\ same_node i st st' /\ l_transforms st' i = l_transforms st i /\
  map (id_of st') (chi (l_graph st') i) =
    let cs := map (id_of st) (chi (l_graph st) i) in
    if isin x ids && negb (isin x (map (fun m => nth m ids []) (i :: rest))) && negb (isin x cs) then cs ++ [x] else cs.
Proof.
  intros V Nd Hurl Hx. pose proof (history_ok _ (b_hist _ _ _ V)) as O.
  destruct (legal_chars _ _ (proj1 Hx) (fun c h => h)) as (Hch & _).
  destruct (parse_id a x Hch) as (u & Eu & Es & Ef & Ep).
  assert (Hp : plain (35%Z :: x)).
  { destruct (chars_plain x Hch) as (P1 & P2). split; [constructor; [lia|auto]|]. intros [E|I]; [discriminate|contradiction]. }
  assert (Er : ReadNodeProperty c "url" = 35%Z :: x) by (now apply has_attr_plain).
  destruct (find_scene (l_graph st) (l_doc st) ids x O (b_objs _ _ _ V) (fun k A => proj1 (inv_alive_iff _ _ _ V k) A) (l_roots st)) as (f1 & r & E1 & P1).
  { eapply Forall_impl; [|exact (b_roots _ _ _ V)]. intros k Hk. now apply (b_alive _ _ _ V). }
  assert (Hi : i < List.length ids) by (apply (Forall_inv (b_chain _ _ _ V))).
  assert (Ic : Forall (fun m => m < List.length ids) (chi (l_graph st) i)) by (apply Forall_forall; intros m Hm; apply (inv_chi _ _ _ V i m Hm)).
  assert (Ecs : map (id_of st) (chi (l_graph st) i) = map (fun m => nth m ids []) (chi (l_graph st) i)) by (apply map_ext; intro; apply (inv_id _ _ _ V)).
  assert (Same : forall st', st' = with_doc st (l_doc st) -> st' = st) by (intros st' ->; destruct st; reflexivity).
  destruct r as [k|].
  - assert (Hk : k < List.length ids) by (apply nth_error_Some; congruence).
    assert (I1 : isin x ids = true) by (apply isin_iff; eapply nth_error_In; eauto).
    destruct (add_spec (l_graph st) i k O (b_alive _ _ _ V i Hi) (b_alive _ _ _ V k Hk)) as (f2 & [(N1 & N2 & N3 & E2)|(X & E2)]).
    + assert (Hj : history (joined (l_graph st) i k)).
      { eapply (h_add f2 _ i (Some k)); [apply V|now apply (b_alive _ _ _ V)| |apply (E2 f2); lia]. intros y Hy. injection Hy as <-. now apply (b_alive _ _ _ V). }
      assert (Nc : ~ In k (i :: rest)).
      { intros [->|I]; [congruence|]. apply N3. apply (ancestor_descendant _ O). now apply (linked_ancestors _ rest i (b_linked _ _ _ V)). }
      assert (Hchi : forall p, incl (chi (l_graph st) p) (chi (joined (l_graph st) i k) p)).
      { intros p y I. cbn. unfold upd. destruct (Nat.eqb_spec p i) as [->|]; [apply in_or_app; now left|exact I]. }
      exists (max f1 f2), (with_graph st (joined (l_graph st) i k)).
      assert (V' : inv (with_graph st (joined (l_graph st) i k)) ids (i :: rest)).
      { constructor; cbn [with_graph l_graph l_doc l_roots]; try apply V.
        - exact Hj.
        - intros m Hm. destruct (b_reach _ _ _ V m Hm) as (r & Hr & D). exists r. split; auto. destruct D as [->|D]; auto. right. eapply descendant_mono; eauto.
        - eapply linked_ext; [|exact (b_linked _ _ _ V)]. intros y Hy. cbn. apply upd_other. intros ->. contradiction. }
      split; [|split; [exact V'|split; [|split; [|split; [|split]]]]].
      * intros fuel Hf. unfold LoadNodeInstance. rewrite Er, Eu, Ep, Ef, E1, E2 by lia. destruct st; reflexivity.
      * intros m Hm Hne. cbn. rewrite upd_other by auto. auto.
      * reflexivity.
      * repeat split.
      * reflexivity.
      * cbv zeta. assert (I2 : isin x (map (fun m => nth m ids []) (i :: rest)) = false).
        { apply isin_not. rewrite (in_ids ids k x Nd Hk P1 (i :: rest) (b_chain _ _ _ V)). exact Nc. }
        assert (I3 : isin x (map (id_of st) (chi (l_graph st) i)) = false).
        { apply isin_not. rewrite Ecs, (in_ids ids k x Nd Hk P1 _ Ic). exact N2. }
        rewrite I1, I2, I3. cbn [negb andb]. cbn [with_graph l_graph]. cbn [joined set_par set_chi chi]. rewrite upd_same, map_app. cbn [map].
        change (id_of (with_graph st (joined (l_graph st) i k))) with (id_of st). f_equal. rewrite (inv_id _ _ _ V). f_equal. now apply nth_error_nth.
    + exists (max f1 f2), st. split; [|split; [exact V|split; [|split; [|split; [|split]]]]].
      * intros fuel Hf. unfold LoadNodeInstance. rewrite Er, Eu, Ep, Ef, E1, E2 by lia. destruct st; reflexivity.
      * intros m Hm _. auto.
      * reflexivity.
      * repeat split.
      * reflexivity.
      * cbv zeta. rewrite I1. cbn [andb]. destruct X as [X|[X|X]].
        -- assert (I2 : isin x (map (fun m => nth m ids []) (i :: rest)) = true).
           { apply isin_iff. rewrite (in_ids ids k x Nd Hk P1 (i :: rest) (b_chain _ _ _ V)). now left. } now rewrite I2.
        -- assert (I3 : isin x (map (id_of st) (chi (l_graph st) i)) = true).
           { apply isin_iff. rewrite Ecs, (in_ids ids k x Nd Hk P1 _ Ic). exact X. } rewrite I3. cbn [negb]. now rewrite andb_false_r.
        -- assert (I2 : isin x (map (fun m => nth m ids []) (i :: rest)) = true).
           { apply isin_iff. rewrite (in_ids ids k x Nd Hk P1 (i :: rest) (b_chain _ _ _ V)). right. apply (linked_ancestors _ rest i (b_linked _ _ _ V)). now apply (ancestor_descendant _ O). }
           now rewrite I2.
  - assert (I1 : isin x ids = false).
    { apply isin_not. intro I. apply In_nth_error in I as (k & Hk). assert (Hl : k < List.length ids) by (apply nth_error_Some; congruence).
      destruct (b_reach _ _ _ V k Hl) as (r & Hr & D). apply (P1 r k Hr D Hk). }
    exists f1, st. split; [|split; [exact V|split; [|split; [|split; [|split]]]]].
    + intros fuel Hf. unfold LoadNodeInstance. rewrite Er, Eu, Ep, Ef, E1 by lia. destruct st; reflexivity.
    + intros m Hm _. auto.
    + reflexivity.
    + repeat split.
    + reflexivity.
    + cbv zeta. now rewrite I1.
Qed.

(** *** Everything in a node *)
Lemma frame_weaken n n' (e e' : nat -> Prop) st st' : n' <= n -> (forall m, m < n' -> e m -> e' m) -> frame n e st st' -> frame n' e' st st'.
Proof. intros H E F m Hm Hx. apply F; [lia|]. intro X. apply Hx. auto. Qed.
Lemma frame_trans n e st1 st2 st3 : frame n e st1 st2 -> frame n e st2 st3 -> frame n e st1 st3.
Proof.
  intros A B m Hm Hx. destruct (A m Hm Hx) as (A1 & A2 & A3 & A4 & A5), (B m Hm Hx) as (B1 & B2 & B3 & B4 & B5). repeat split; congruence.
Qed.
Lemma nth_prefix (l l' : list (list Z)) k : k < List.length l -> nth k (l ++ l') [] = nth k l [].
Proof. intro H. now apply app_nth1. Qed.
Lemma node_kept R st st' ids ids' chain chain' n k e : inv st ids chain -> inv st' (ids ++ ids') chain' -> frame n nobody st st' -> k < n -> n <= List.length ids ->
  node_is R st k e -> node_is R st' k e.
Proof.
  intros V V' F Hk Hn (N1 & N2 & N3 & N4 & N5 & N6). destruct (F k Hk (fun x => x)) as (F1 & F2 & F3 & F4 & F5).
  split; [|split; [congruence|split; [congruence|split; [congruence|split; [now rewrite F4|]]]]].
  - rewrite (b_objs _ _ _ V) in N1. rewrite (b_objs _ _ _ V'), map_app, nth_error_app1; [exact N1|]. rewrite map_length. lia.
  - rewrite F5, <- N6. apply map_ext_in. intros c Hc. rewrite (inv_id _ _ _ V), (inv_id _ _ _ V'). apply nth_prefix. apply (inv_chi _ _ _ V k c Hc).
Qed.
Lemma node_kept' R st st' ids ids' chain chain' (e0 : nat -> Prop) k e : inv st ids chain -> inv st' (ids ++ ids') chain' -> frame (List.length ids) e0 st st' -> k < List.length ids -> ~ e0 k ->
  node_is R st k e -> node_is R st' k e.
Proof.
  intros V V' F Hk Hn (N1 & N2 & N3 & N4 & N5 & N6). destruct (F k Hk Hn) as (F1 & F2 & F3 & F4 & F5).
  split; [|split; [congruence|split; [congruence|split; [congruence|split; [now rewrite F4|]]]]].
  - rewrite (b_objs _ _ _ V) in N1. rewrite (b_objs _ _ _ V'), map_app, nth_error_app1; [exact N1|]. rewrite map_length. lia.
  - rewrite F5, <- N6. apply map_ext_in. intros c Hc. rewrite (inv_id _ _ _ V), (inv_id _ _ _ V'). apply nth_prefix. apply (inv_chi _ _ _ V k c Hc).
Qed.
Lemma nodes_kept st st' ids ids' chain chain' (e0 : nat -> Prop) : inv st ids chain -> inv st' (ids ++ ids') chain' -> frame (List.length ids) e0 st st' ->
  forall es k, k + List.length es <= List.length ids -> (forall j, k <= j -> ~ e0 j) -> Forall2 (node_is close st) (seq k (List.length es)) es -> Forall2 (node_is close st') (seq k (List.length es)) es.
Proof.
  intros V V' F. induction es as [|e es IH]; intros k Hk He H; cbn in *; [constructor|]. inversion H; subst. constructor.
  - apply (node_kept' close st st' ids ids' chain chain' e0 k e V V' F); auto. lia.
  - apply IH; auto; [lia|]. intros j Hj. apply He. lia.
Qed.
Lemma transform_step st ids i rest c v : inv st ids (i :: rest) -> let st' := add_transform st i c v in
  inv st' ids (i :: rest) /\ frame (List.length ids) (eq i) st st' /\ l_roots st' = l_roots st /\ same_node i st st' /\
  l_transforms st' i = l_transforms st i ++ [Transform (IdModel.CleanSubId (ReadNodeProperty c "sid")) v] /\
  map (id_of st') (chi (l_graph st') i) = map (id_of st) (chi (l_graph st) i).
Proof.
  intros V st'. split; [destruct V; constructor; assumption|]. split; [intros m Hm Hne; cbn; rewrite upd_other by auto; auto|].
  split; [reflexivity|]. split; [repeat split|]. split; [cbn; apply upd_same|reflexivity].
Qed.
Lemma entries_length es : List.length (map e_id es) = List.length es. Proof. apply map_length. Qed.
Lemma elem_of_attr k c : is_elem k c -> exists n a ch, c = Elem n a ch. Proof. intros (a & ch & ->). eauto. Qed.
Lemma foreign_named c : foreign c -> exists n at0 ch, c = Elem n at0 ch /\ named c "node" = false /\ named c "instance_node" = false /\ GetTransformType c = None.
Proof.
  intros (n & at0 & ch & -> & H). exists n, at0, ch. split; auto.
  assert (G : forall k, In k ["node"; "instance_node"; "rotate"; "translate"; "scale"; "skew"; "matrix"; "lookat"]%string -> named (Elem n at0 ch) k = false).
  { intros k Hk. cbn. destruct (text_eq n (tx k)) eqn:E; auto. apply text_eq_spec in E. exfalso. apply H. rewrite E. now apply in_map. }
  split; [apply G; cbn; auto|]. split; [apply G; cbn; auto|]. unfold GetTransformType. rewrite !G by (cbn; auto 10). reflexivity.
Qed.

Scheme describes_mut := Minimality for describes Sort Prop with content_mut := Minimality for content_is Sort Prop.
Definition fresh_entries (es : list entry) : Prop := Forall (fun e => UniqueModel.contains names0 (e_id e) = false) es.
Definition read_node (a : arith) (other : xml -> bool) (c : xml) (t : ntree) : Prop := forall st1 ids chain,
  let es := nodes_of_tree ids (map (fun m => nth m ids []) chain) t in opened st1 ids chain -> told_apart (ids ++ map e_id es) -> fresh_entries es ->
  subs_fine (map (l_sub st1) chain) t -> exists f0 st', (forall fuel, f0 <= fuel -> LoadSceneNode fuel a other st1 (List.length ids) c = Done (true, st')) /\
  inv st' (ids ++ map e_id es) chain /\ l_roots st' = l_roots st1 /\ frame (List.length ids) nobody st1 st' /\
  Forall2 (node_is close st') (seq (List.length ids) (List.length es)) es.
Definition read_content (a : arith) (other : xml -> bool) (ch : list xml) (items : list item) : Prop := forall st ids i rest id cs' es,
  inv st ids (i :: rest) -> nth_error ids i = Some id -> walk id (map (fun m => nth m ids []) rest) ids (map (id_of st) (chi (l_graph st) i)) items = (cs', es) ->
  told_apart (ids ++ map e_id es) -> fresh_entries es -> (forall t, In (INode t) items -> subs_fine (map (l_sub st) (i :: rest)) t) ->
  exists f0 st' ts, (forall fuel, f0 <= fuel -> children_loop fuel a other i st true ch = Done (true, st')) /\ inv st' (ids ++ map e_id es) (i :: rest) /\
  l_roots st' = l_roots st /\ frame (List.length ids) (eq i) st st' /\ same_node i st st' /\
  l_transforms st' i = l_transforms st i ++ ts /\ Forall2 (transform_rel close) (transforms_of items) ts /\
  map (id_of st') (chi (l_graph st') i) = cs' /\ Forall2 (node_is close st') (seq (List.length ids) (List.length es)) es.

Lemma read_all a other : (forall c t, describes (fun c => other c = true) c t -> read_node a other c t).
Proof.
  apply (describes_mut (fun c => other c = true) (read_node a other) (read_content a other)).
  - (* a node *)
    intros nm attrs ch id name sub joint items Hid Hidt Hname Hsid Htype _ IH st1 ids chain es V Htold Hfree Hsubs.
    unfold es in *. clear es. rewrite tree_eq in *. destruct (walk id (map (fun m => nth m ids []) chain) (ids ++ [id]) [] items) as [cs es] eqn:Ew. cbn [map e_id] in *.
    assert (Happ : ids ++ id :: map e_id es = (ids ++ [id]) ++ map e_id es) by (rewrite <- app_assoc; reflexivity). rewrite Happ in *.
    inversion Hsubs as [above id' name' sub' joint' items' S1 S2]; subst.
    destruct (head_spec st1 ids chain nm attrs ch id name sub joint V Hid Hidt Hname Hsid Htype (proj1 (told_app _ _ Htold)) (Forall_inv Hfree) S1)
      as (f1 & st2 & E1 & V2 & G2 & R2 & F2 & T2 & N2 & B2 & J2).
    set (n := List.length ids) in *.
    assert (Hl : List.length (ids ++ [id]) = S n) by (rewrite app_length; cbn; unfold n; lia).
    assert (Hsame : map (l_sub st2) (n :: chain) = sub :: map (l_sub st1) chain).
    { cbn [map]. rewrite B2. f_equal. apply map_ext_in. intros m Hm. pose proof (o_chain _ _ _ V) as Hc. rewrite Forall_forall in Hc. apply (F2 m (Hc m Hm)). intros []. }
    assert (Hpath : map (fun m => nth m (ids ++ [id]) []) chain = map (fun m => nth m ids []) chain).
    { apply map_ext_in. intros m Hm. apply nth_prefix. pose proof (o_chain _ _ _ V) as Hc. rewrite Forall_forall in Hc. now apply Hc. }
    destruct (IH st2 (ids ++ [id]) n chain id cs es V2) as (f2 & st' & ts & E2 & V' & R' & F' & (K1 & K2 & K3) & T' & TS & C' & NS).
    { rewrite nth_error_app2 by (unfold n; lia). unfold n. rewrite Nat.sub_diag. reflexivity. }
    { rewrite Hpath, G2. unfold n. rewrite (o_chi _ _ _ V). exact Ew. }
    { exact Htold. }
    { exact (Forall_inv_tail Hfree). }
    { intros t Ht. rewrite Hsame. now apply S2. }
    exists (max f1 f2), st'. split; [|split; [exact (inv_inner _ _ _ _ V')|split; [congruence|split]]].
    + intros fuel Hf. rewrite load_eq. fold n. rewrite E1 by lia. apply E2. lia.
    + eapply frame_trans; [eapply frame_weaken; [| |exact F2]; [lia|intros m _ []]|]. eapply frame_weaken; [| |exact F']; [lia|intros m Hm <-; lia].
    + cbn [List.length seq]. constructor; [|rewrite Hl in NS; exact NS]. repeat split; cbn [e_id e_name e_sub e_joint e_transforms e_children].
      * rewrite (b_objs _ _ _ V'), nth_error_map. rewrite nth_error_app1 by lia. rewrite nth_error_app2 by (unfold n; lia). unfold n. rewrite Nat.sub_diag. reflexivity.
      * congruence.
      * congruence.
      * congruence.
      * rewrite T', T2. exact TS.
      * exact C'.
  - (* nothing *)
    intros st ids i rest id cs' es V Hi Ew Htold Hfree Hsubs. cbn in Ew. injection Ew as <- <-. exists 0, st, []. rewrite !app_nil_r.
    split; [reflexivity|]. split; [exact V|]. split; [reflexivity|]. split; [intros m _ _; auto|]. split; [repeat split|]. split; [reflexivity|]. split; [constructor|]. split; [reflexivity|constructor].
  - (* a text *)
    intros t ch items _ IH st ids i rest id cs' es V Hi Ew Htold Hfree Hsubs. destruct (IH st ids i rest id cs' es V Hi Ew Htold Hfree Hsubs) as (f0 & st' & ts & E & H).
    exists f0, st', ts. split; [|exact H]. intros fuel Hf. cbn. now apply E.
  - (* something else *)
    intros c ch items Hc Hok _ IH st ids i rest id cs' es V Hi Ew Htold Hfree Hsubs. destruct (IH st ids i rest id cs' es V Hi Ew Htold Hfree Hsubs) as (f0 & st' & ts & E & H).
    exists f0, st', ts. split; [|exact H]. intros fuel Hf. destruct (foreign_named c Hc) as (n & at0 & cc & -> & N1 & N2 & N3).
    cbn [children_loop]. rewrite N1, N2, N3. destruct (named (Elem n at0 cc) "extra") eqn:X1; [now apply E|]. destruct (named (Elem n at0 cc) "asset") eqn:X2; [now apply E|].
    destruct Hok as [Hok|[Hok|Hok]]; [apply named_iff in Hok; congruence|apply named_iff in Hok; congruence|]. rewrite Hok. now apply E.
  - (* a transformation *)
    intros c s v ch items Hc _ IH st ids i rest id cs' es V Hi Ew Htold Hfree Hsubs. cbn [walk] in Ew.
    destruct (load_transform_in a c s v Hc) as (v' & Ev & Rv). pose proof Hc as (name & l & t & N & El & _ & _ & Hs). destruct (notation_kind v name l c N El) as (X1 & X2 & X3 & X4 & X5).
    destruct (sid_read c s Hs) as (Es & Ecs).
    destruct (transform_step st ids i rest c v' V) as (V1 & F1 & R1 & (K1 & K2 & K3) & T1 & C1). set (st1 := add_transform st i c v') in *.
    destruct (IH st1 ids i rest id cs' es V1 Hi) as (f0 & st' & ts & E & V' & R' & F' & (L1 & L2 & L3) & T' & TS & C' & NS); auto.
    { intros t0 Ht0. assert (Eq : map (l_sub st1) (i :: rest) = map (l_sub st) (i :: rest)) by reflexivity. rewrite Eq. apply Hsubs. now right. }
    exists f0, st', (Transform s v' :: ts). split; [|split; [exact V'|split; [congruence|split; [eapply frame_trans; eauto|split; [repeat split; congruence|split; [|split; [|split; [exact C'|exact NS]]]]]]]].
    + intros fuel Hf. destruct (elem_of_attr _ _ El) as (n & at0 & cc & ->). cbn [children_loop]. rewrite X1, X2, X3, X4, X5, Ev. cbn [andb]. apply E. exact Hf.
    + rewrite T', T1, Es, Ecs, <- app_assoc. reflexivity.
    + cbn [transforms_of]. constructor; [split; [reflexivity|exact Rv]|exact TS].
  - (* a node in it *)
    intros c t ch items Hc _ IHn _ IH st ids i rest id cs' es V Hi Ew Htold Hfree Hsubs.
    cbn [walk] in Ew. set (path := map (fun m => nth m ids []) rest) in *. fold (walk id path) in Ew.
    assert (Eid : nth i ids [] = id) by now apply nth_error_nth.
    assert (Ep : map (fun m => nth m ids []) (i :: rest) = id :: path) by (cbn [map]; rewrite Eid; reflexivity).
    destruct (walk id path (ids ++ map e_id (nodes_of_tree ids (id :: path) t)) (map (id_of st) (chi (l_graph st) i) ++ [tree_id t]) items) as [cs1 es1] eqn:Ew1. injection Ew as <- <-.
    set (es0 := nodes_of_tree ids (id :: path) t) in *. rewrite map_app in Htold. rewrite app_assoc in Htold. apply Forall_app in Hfree as (Hf0 & Hf1).
    destruct (open_child st ids i rest V) as (f1 & st1 & E1 & O1 & F1 & R1 & C1 & (K1 & K2 & K3 & K4)).
    assert (Hlt : Forall (fun m => m < List.length ids) (i :: rest)) by apply (b_chain _ _ _ V).
    assert (Hsub1 : map (l_sub st1) (i :: rest) = map (l_sub st) (i :: rest)).
    { apply map_ext_in. intros m Hm. destruct (Nat.eq_dec i m) as [<-|Ne]; [exact K2|]. rewrite Forall_forall in Hlt. apply (F1 m (Hlt m Hm) Ne). }
    destruct (IHn st1 ids (i :: rest) O1) as (f2 & st2 & E2 & V2 & R2 & F2 & NS2).
    { rewrite Ep. apply (told_app _ _ Htold). }
    { rewrite Ep. exact Hf0. }
    { rewrite Hsub1. apply Hsubs. now left. }
    rewrite Ep in V2, NS2. fold es0 in V2, NS2. set (n := List.length ids) in *. pose proof (Forall_inv Hlt) as Hilt.
    destruct (F2 i Hilt (fun x => x)) as (G1 & G2 & G3 & G4 & G5).
    assert (Hsub2 : map (l_sub st2) (i :: rest) = map (l_sub st) (i :: rest)).
    { rewrite <- Hsub1. apply map_ext_in. intros m Hm. rewrite Forall_forall in Hlt. apply (F2 m (Hlt m Hm)). intros []. }
    assert (Htree : exists r, es0 = r /\ nth_error (map e_id r) 0 = Some (tree_id t)).
    { exists es0. split; auto. unfold es0. destruct t as [tid tn ts tj ti]. rewrite tree_eq. destruct (walk tid (id :: path) (ids ++ [tid]) [] ti). reflexivity. }
    destruct Htree as (r0 & <- & Htree).
    assert (Hcs : map (id_of st2) (chi (l_graph st2) i) = map (id_of st) (chi (l_graph st) i) ++ [tree_id t]).
    { rewrite G5, C1, map_app. f_equal.
      - apply map_ext_in. intros m Hm. rewrite (inv_id _ _ _ V), (inv_id _ _ _ V2). apply nth_prefix. apply (inv_chi _ _ _ V i m Hm).
      - cbn [map]. rewrite (inv_id _ _ _ V2). f_equal. apply nth_error_nth. rewrite nth_error_app2 by (unfold n; lia). unfold n. rewrite Nat.sub_diag. exact Htree. }
    assert (Hpath : map (fun m => nth m (ids ++ map e_id es0) []) rest = path).
    { apply map_ext_in. intros m Hm. apply nth_prefix. rewrite Forall_forall in Hlt. apply Hlt. now right. }
    destruct (IH st2 (ids ++ map e_id es0) i rest id cs1 es1 V2) as (f3 & st' & ts & E3 & V' & R' & F' & (L1 & L2 & L3) & T' & TS & C' & NS).
    { rewrite nth_error_app1 by exact Hilt. exact Hi. }
    { rewrite Hpath, Hcs. exact Ew1. }
    { exact Htold. }
    { exact Hf1. }
    { intros t0 Ht0. rewrite Hsub2. apply Hsubs. now right. }
    assert (Hlen : List.length (ids ++ map e_id es0) = n + List.length es0) by (rewrite app_length, map_length; reflexivity).
    exists (max f1 (max f2 f3)), st', ts. split; [|split; [|split; [congruence|split; [|split; [repeat split; congruence|split; [congruence|split; [exact TS|split; [exact C'|]]]]]]]].
    + intros fuel Hf. destruct (elem_of_attr _ _ Hc) as (nn & at0 & cc & ->). cbn [children_loop]. rewrite (proj2 (named_iff _ _) Hc), E1, E2 by lia. apply E3. lia.
    + rewrite map_app, app_assoc. exact V'.
    + eapply frame_trans; [exact F1|]. eapply frame_trans; [eapply frame_weaken; [| |exact F2]; [lia|intros m _ []]|].
      eapply frame_weaken; [| |exact F']; [rewrite Hlen; lia|auto].
    + rewrite app_length, seq_app. apply Forall2_app.
      * apply (nodes_kept st2 st' (ids ++ map e_id es0) (map e_id es1) (i :: rest) (i :: rest) (eq i) V2 V' F'); [rewrite Hlen; lia|intros j Hj ->; lia|exact NS2].
      * rewrite <- Hlen. exact NS.
  - (* a reference *)
    intros c x ch items Hc Hurl Hx _ IH st ids i rest id cs' es V Hi Ew Htold Hfree Hsubs. cbn [walk] in Ew. set (path := map (fun m => nth m ids []) rest) in *. fold (walk id path) in Ew.
    assert (Eid : nth i ids [] = id) by now apply nth_error_nth.
    destruct (ref_spec a st ids i rest c x V (told_NoDup _ (proj1 (told_app _ _ Htold))) Hurl Hx) as (f1 & st1 & E1 & V1 & F1 & R1 & (K1 & K2 & K3) & T1 & C1).
    cbv zeta in C1. assert (Ep : map (fun m => nth m ids []) (i :: rest) = id :: path) by (cbn [map]; rewrite Eid; reflexivity). rewrite Ep in C1.
    assert (Hsub1 : map (l_sub st1) (i :: rest) = map (l_sub st) (i :: rest)).
    { apply map_ext_in. intros m Hm. destruct (Nat.eq_dec i m) as [<-|Ne]; [exact K2|]. pose proof (b_chain _ _ _ V) as Hlt. rewrite Forall_forall in Hlt. apply (F1 m (Hlt m Hm) Ne). }
    destruct (IH st1 ids i rest id cs' es V1 Hi) as (f2 & st' & ts & E2 & V' & R' & F' & (L1 & L2 & L3) & T' & TS & C' & NS); auto.
    { fold path. rewrite C1. exact Ew. }
    { intros t0 Ht0. rewrite Hsub1. apply Hsubs. now right. }
    exists (max f1 f2), st', ts. split; [|split; [exact V'|split; [congruence|split; [eapply frame_trans; eauto|split; [repeat split; congruence|split; [congruence|split; [exact TS|split; [exact C'|exact NS]]]]]]]].
    intros fuel Hf. pose proof Hc as (at0 & cc & ->). cbn [children_loop]. assert (Nn : named (Elem (tx "instance_node") at0 cc) "node" = false) by reflexivity.
    assert (Ni : named (Elem (tx "instance_node") at0 cc) "instance_node" = true) by reflexivity. rewrite Nn, Ni, E1 by lia. apply E2. lia.
Qed.
End Load.
