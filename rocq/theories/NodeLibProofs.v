(** Reading a library of visual scenes. *)
From Coq Require Import String List ZArith QArith Bool Lia Relations.
From Verif Require Import TextModel TextProofs StringModel StringProofs DaeModel DaeSpec RigSpec RigProofs UniqueSpec IdProps UriModel SceneModel SceneSpec SceneProofs NodeModel NodeSpec NodeTextProofs NodeFindProofs NodeLoadProofs.
From Verif Require IdModel UniqueModel UniqueProofs.
Import ListNotations.
Local Open Scope nat_scope.
Local Open Scope list_scope.

Lemma head_entry known path t : exists e es, nodes_of_tree known path t = e :: es /\ e_id e = tree_id t.
Proof. destruct t as [id name sub joint items]. rewrite tree_eq. destruct (walk id path (known ++ [id]) [] items) as [cs es]. do 2 eexists. split; reflexivity. Qed.
Lemma read_library names0 a other l ts : library_is (fun c => other c = true) l ts -> forall st ids, let es := nodes_of_library ids ts in
  inv names0 st ids [] -> told_apart (ids ++ map e_id es) -> fresh_entries names0 es -> Forall (subs_fine []) ts ->
  exists f0 st', (forall fuel, f0 <= fuel -> LoadScenes fuel a other st true l = Done (true, st')) /\ inv names0 st' (ids ++ map e_id es) [] /\
  frame (List.length ids) nobody st st' /\ map (id_of st') (l_roots st') = map (id_of st) (l_roots st) ++ map tree_id ts /\
  Forall2 (node_is close st') (seq (List.length ids) (List.length es)) es.
Proof.
  induction 1 as [|t l ts _ IH|c l ts Hc _ IH|c t l ts N1 N2 Hc _ IH]; intros st ids es V Htold Hfree Hsubs.
  - unfold es. cbn. exists 0, st. rewrite !app_nil_r. split; [reflexivity|]. split; [exact V|]. split; [intros m _ _; auto|]. split; [reflexivity|constructor].
  - destruct (IH st ids V Htold Hfree Hsubs) as (f0 & st' & E & H). exists f0, st'. split; [|exact H]. intros fuel Hf. cbn. now apply E.
  - destruct (IH st ids V Htold Hfree Hsubs) as (f0 & st' & E & H). exists f0, st'. split; [|exact H]. intros fuel Hf.
    assert (B : (named c "asset" || named c "extra") = true) by (destruct Hc as [Hc|Hc]; apply named_iff in Hc; rewrite Hc; auto using orb_true_r).
    destruct c as [n at0 ch|tt]; [|destruct Hc as [(x & y & X)|(x & y & X)]; discriminate]. cbn [LoadScenes]. rewrite B. now apply E.
  - unfold es in *. clear es. cbn [nodes_of_library] in *. set (es0 := nodes_of_tree ids [] t) in *. set (es1 := nodes_of_library (ids ++ map e_id es0) ts) in *.
    rewrite map_app, app_assoc in Htold. apply Forall_app in Hfree as (Hf0 & Hf1).
    destruct (open_root names0 st ids V) as (st1 & E1 & O1 & F1 & R1).
    destruct (read_all names0 a other c t Hc st1 ids [] O1 (proj1 (told_app _ _ Htold)) Hf0 (Forall_inv Hsubs)) as (f2 & st2 & E2 & V2 & R2 & F2 & NS2).
    cbn [map] in *. fold es0 in E2, V2, NS2.
    destruct (IH st2 (ids ++ map e_id es0) V2 Htold Hf1 (Forall_inv_tail Hsubs)) as (f3 & st' & E3 & V' & F3 & R3 & NS3). fold es1 in V', NS3.
    assert (Hlen : List.length (ids ++ map e_id es0) = List.length ids + List.length es0) by (rewrite app_length, map_length; reflexivity).
    exists (max f2 f3), st'. split; [|split; [|split; [|split]]].
    + intros fuel Hf. apply named_not in N1. apply named_not in N2. destruct c as [n at0 ch|tt]; [|inversion Hc].
      cbn [LoadScenes]. rewrite N1, N2. cbn [orb]. rewrite E1, E2 by lia. cbn [andb]. apply E3. lia.
    + rewrite map_app, app_assoc. exact V'.
    + eapply frame_trans; [exact F1|]. eapply frame_trans; [exact F2|]. eapply frame_weaken; [| |exact F3]; [rewrite Hlen; lia|auto].
    + rewrite R3, R2, R1, map_app, <- app_assoc. f_equal.
      * apply map_ext_in. intros m Hm. rewrite (inv_id _ _ _ _ V), (inv_id _ _ _ _ V2). apply nth_prefix. pose proof (b_roots _ _ _ _ V) as Hr. rewrite Forall_forall in Hr. now apply Hr.
      * cbn [map app]. f_equal. rewrite (inv_id _ _ _ _ V2). destruct (head_entry ids [] t) as (e & r & Ee & Eid). fold es0 in Ee. rewrite Ee. cbn [map]. rewrite app_nth2 by lia.
        rewrite Nat.sub_diag. exact Eid.
    + rewrite app_length, seq_app. apply Forall2_app.
      * apply (nodes_kept names0 st2 st' (ids ++ map e_id es0) (map e_id es1) [] [] nobody V2 V' F3); [rewrite Hlen; lia|intros j _ []|exact NS2].
      * rewrite <- Hlen. exact NS3.
Qed.
Lemma start names0 : inv names0 (no_scenes names0) [] [].
Proof.
  constructor; cbn; auto; try constructor; try (intros; lia). now rewrite <- H.
Qed.
