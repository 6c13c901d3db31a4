(** C99-C102: scene nodes in COLLADA XML.  The specification is in NodeSpec.v. *)
From Coq Require Import String List ZArith QArith Qabs Bool Lia Lqa Relations.
From Verif Require Import TextModel TextSpec TextProofs StringModel StringProofs XmlModel FloatModel FloatSpec FloatProps DaeModel DaeSpec RigSpec RigProofs RigWriteProofs UniqueSpec IdProps UriModel SceneModel SceneSpec SceneProofs SceneIterProofs NodeModel NodeSpec NodeTextProofs NodeFindProofs NodeLoadProofs NodeLibProofs NodeWriteProofs NodeRoundProofs NodeSafeProofs.
From Verif Require IdModel UniqueModel SceneProps DaeProps RigTextProofs RigProps.
Import ListNotations.
Local Open Scope nat_scope.
Local Open Scope list_scope.

(** *** C99: transformations *)
Definition visual_scene (id : list Z) (ch : list xml) : xml := Elem (tx "visual_scene") [(tx "id", id)] ch.
Lemma loop_written eps used ts out : machine_eps eps -> WriteTransforms eps used ts out -> Forall (fun t => proper_value (t_value t)) ts ->
  forall a other fuel i st, exists st2 ts', children_loop fuel a other i st true out = Done (true, st2) /\ l_transforms st2 i = l_transforms st i ++ ts' /\
  Forall2 (fun t t' => value_rel (remains eps) (t_value t) (t_value t')) ts ts' /\
  map t_sid ts' = map (fun c => IdModel.CleanSubId (ReadNodeProperty c "sid")) out /\
  (Forall (fun t => t_sid t = [] \/ name_text (t_sid t)) ts -> NoDup (given (used ++ map t_sid ts)) -> Forall name_text used -> map t_sid ts' = map t_sid ts).
Proof.
  intro He. induction 1 as [used|used t r text out Ht _ IH]; intros Hv a other fuel i st.
  - exists st, []. rewrite app_nil_r. split; [reflexivity|]. split; [reflexivity|]. split; [constructor|]. split; reflexivity.
  - set (c := Elem (tx (element_of (t_value t))) (optional "sid" (written_sid used t)) (value_content (t_value t) text)).
    destruct (written_value eps (t_value t) text (optional "sid" (written_sid used t)) He (Forall_inv Hv) Ht) as (v1 & l & N & T & Nu & R). fold c in T.
    assert (Hc : is_elem (element_of (t_value t)) c) by (eexists _, _; reflexivity).
    destruct (notation_kind _ _ _ _ N Hc) as (K1 & K2 & K3 & K4 & K5).
    destruct (load_notation a _ _ _ _ _ N Hc T Nu) as (v2 & E & R2).
    destruct (IH (Forall_inv_tail Hv) a other fuel i (add_transform st i c v2)) as (st2 & ts' & L & X & F & Sr & Sid).
    exists st2, (Transform (IdModel.CleanSubId (ReadNodeProperty c "sid")) v2 :: ts'). split; [|split; [|split; [|split]]].
    + unfold c at 1. cbn [children_loop]. fold c. rewrite K1, K2, K3, K4, K5, E. exact L.
    + rewrite X. unfold add_transform at 1. cbn [l_transforms]. rewrite upd_same, <- app_assoc. reflexivity.
    + constructor; auto. cbn [t_value]. eapply rel_compose; eauto.
    + cbn [map t_sid]. now rewrite Sr.
    + intros Hs Hn Hu. cbn [map t_sid].
      assert (W : written_sid used t = t_sid t).
      { unfold written_sid. destruct (t_sid t) as [|z s] eqn:Et; [reflexivity|]. unfold AddNodeSid. rewrite not_used; auto.
        - revert Hu. apply Forall_impl. intros u U. apply (name_plain u U).
        - intro I. cbn [map] in Hn. rewrite Et in Hn. unfold given in Hn. rewrite filter_app in Hn. apply in_split in I as (l1 & l2 & El). rewrite El, filter_app in Hn. cbn in Hn.
          rewrite <- app_assoc in Hn. apply NoDup_remove_2 in Hn. apply Hn. apply in_or_app. right. apply in_or_app. right. now left. }
      assert (Ws : ReadNodeProperty c "sid" = t_sid t /\ IdModel.CleanSubId (t_sid t) = t_sid t).
      { apply sid_read. unfold c. rewrite W. apply optional_sid. exact (Forall_inv Hs). }
      destruct Ws as (W1 & W2). rewrite W1, W2. f_equal. apply Sid; [exact (Forall_inv_tail Hs)| |].
      * rewrite W. destruct (t_sid t) as [|z s] eqn:Et.
        -- cbn [map] in Hn. rewrite Et in Hn. unfold given in *. rewrite filter_app in Hn. rewrite filter_app. exact Hn.
        -- cbn [map] in Hn. rewrite Et in Hn. unfold given in *. rewrite filter_app in Hn. cbn in Hn. cbn. rewrite filter_app.
           constructor; [now apply NoDup_remove_2 in Hn|now apply NoDup_remove_1 in Hn].
      * rewrite W. destruct (t_sid t) as [|z s] eqn:Et; auto. constructor; auto. destruct (Forall_inv Hs) as [X1|X1]; rewrite Et in X1; [discriminate|exact X1].
Qed.
Lemma transforms_read a other eps ts out id names : machine_eps eps -> Forall (fun t => proper_value (t_value t)) ts ->
  WriteTransforms eps [] ts out ->
  exists st, (forall fuel, LoadScenes fuel a other (no_scenes names) true [visual_scene id out] = Done (true, st)) /\
  Forall2 (fun t t' => value_rel (remains eps) (t_value t) (t_value t')) ts (l_transforms st 0) /\
  map t_sid (l_transforms st 0) = map (fun c => IdModel.CleanSubId (ReadNodeProperty c "sid")) out /\
  (Forall (fun t => t_sid t = [] \/ name_text (t_sid t)) ts -> NoDup (given (map t_sid ts)) -> map t_sid (l_transforms st 0) = map t_sid ts).
Proof.
  intros He Hv Hw.
  assert (H : forall st1, exists st2 ts', (forall fuel, children_loop fuel a other 0 st1 true out = Done (true, st2)) /\ l_transforms st2 0 = l_transforms st1 0 ++ ts' /\
    Forall2 (fun t t' => value_rel (remains eps) (t_value t) (t_value t')) ts ts' /\
    map t_sid ts' = map (fun c => IdModel.CleanSubId (ReadNodeProperty c "sid")) out /\
    (Forall (fun t => t_sid t = [] \/ name_text (t_sid t)) ts -> NoDup (given (map t_sid ts)) -> map t_sid ts' = map t_sid ts)).
  { intro st1. destruct (loop_written eps [] ts out He Hw Hv a other 0 0 st1) as (st2 & ts' & L & X & F & Sr & Sid). exists st2, ts'. split; [|split; [exact X|split; [exact F|split; [exact Sr|intros; apply Sid; auto]]]].
    intro fuel. rewrite <- L. clear - Hw He Hv. revert st1. induction Hw as [used|used t r text out Ht _ IH]; intro st1; [reflexivity|].
    destruct (written_value eps (t_value t) text (optional "sid" (written_sid used t)) He (Forall_inv Hv) Ht) as (v1 & l & N & T & Nu & R).
    cbn [children_loop].
    assert (Hc : is_elem (element_of (t_value t)) (Elem (tx (element_of (t_value t))) (optional "sid" (written_sid used t)) (value_content (t_value t) text))) by (eexists _, _; reflexivity).
    destruct (notation_kind _ _ _ _ N Hc) as (K1 & K2 & K3 & K4 & K5). rewrite K1, K2, K3, K4, K5.
    destruct (load_notation a _ _ _ _ _ N Hc T Nu) as (v2 & E & R2). rewrite E. cbn [andb]. exact (IH (Forall_inv_tail Hv) _). }
  set (st0 := snd (AddEntity (no_scenes names))).
  assert (E0 : exists st1, forall fuel, LoadHead fuel st0 0 (visual_scene id out) = Done st1 /\ l_transforms st1 0 = []) by (eexists; intro fuel; split; [reflexivity|reflexivity]).
  destruct E0 as (st1 & E0). destruct (H st1) as (st2 & ts' & L & X & F & Sid). exists st2. split.
  - intro fuel. unfold visual_scene. cbn [LoadScenes].
    change (AddEntity (no_scenes names)) with (0, st0). cbv beta iota zeta. rewrite load_eq. fold (visual_scene id out). destruct (E0 fuel) as (E1 & _). rewrite E1, L. reflexivity.
  - destruct (E0 0) as (_ & E1). rewrite E1 in X. cbn [app] in X. rewrite X. auto.
Qed.
(** C99 (full statement, refuted below): the transformations of a node that is written to XML and read back are the same.  What holds: a
    list of transformations, written one after the other, comes back in order and with its kinds, and each number remains (RigSpec.v:
    exactly below six digits); the axes of skews are normalised.  The sub ids are kept if they are legal and pairwise different. *)
Theorem C99_transforms_partial : forall a other eps ts out id names, machine_eps eps -> Forall (fun t => proper_value (t_value t)) ts ->
  WriteTransforms eps [] ts out ->
  exists st, (forall fuel, LoadScenes fuel a other (no_scenes names) true [visual_scene id out] = Done (true, st)) /\
  Forall2 (fun t t' => value_rel (remains eps) (t_value t) (t_value t')) ts (l_transforms st 0) /\
  (Forall (fun t => t_sid t = [] \/ name_text (t_sid t)) ts -> NoDup (given (map t_sid ts)) -> map t_sid (l_transforms st 0) = map t_sid ts).
Proof.
  intros a other eps ts out id names He Hv Hw. destruct (transforms_read a other eps ts out id names He Hv Hw) as (st & E & F & _ & Sid). exists st. auto.
Qed.
Print Assumptions C99_transforms_partial.
(** Every such list can be written. *)
Theorem C99_writable : forall eps ts used, machine_eps eps -> Forall (fun t => proper_value (t_value t)) ts -> exists out, WriteTransforms eps used ts out.
Proof. intros eps ts used He Hv. now apply transforms_writable. Qed.
Print Assumptions C99_writable.
Definition pivot : list transform :=
  [Transform (tx "move") (Translation (1 # 2, -3, 0)%Q); Transform (tx "turn") (Rotation (0, 1, 0)%Q 90%Q); Transform [] (Skew 30%Q (Given (1, 0, 0)%Q) (Given (0, 2, 0)%Q));
   Transform (tx "all") (Matrix identity)].
Lemma pivot_proper : Forall (fun t => proper_value (t_value t)) pivot.
Proof.
  constructor; [cbn; repeat split; vm_compute; congruence|]. constructor; [cbn; repeat split; vm_compute; congruence|]. constructor.
  - cbn. split; [vm_compute; repeat split; congruence|]. split; [repeat split; vm_compute; congruence|]. split; [repeat split; vm_compute; congruence|].
    split; [left; vm_compute; congruence|right; left; vm_compute; congruence].
  - constructor; [|constructor]. cbn. intros i j _ _. unfold identity. destruct (i =? j); vm_compute; repeat split; congruence.
Qed.
Ltac legal_name := match goal with |- ?P ?x => let y := eval vm_compute in x in change (P y) end; split; [split; [unfold is_letter; lia|repeat (apply Forall_cons; [unfold name_char, id_char, is_letter, UniqueSpec.is_digit; lia|]); apply Forall_nil]|cbn; lia].
Example C99_demo : Forall (fun t => proper_value (t_value t)) pivot /\ Forall (fun t => t_sid t = [] \/ name_text (t_sid t)) pivot /\ NoDup (given (map t_sid pivot)) /\
  exists out, WriteTransforms eps_float [] pivot out.
Proof.
  split; [exact pivot_proper|]. split; [|split].
  - constructor; [right; legal_name|]. constructor; [right; legal_name|]. constructor; [now left|]. constructor; [right; legal_name|constructor].
  - vm_compute. repeat (apply NoDup_cons; [cbn; intuition discriminate|]). apply NoDup_nil.
  - apply C99_writable; [now left|exact pivot_proper].
Qed.
(** No sub id is written twice, and none that is already used in the enclosing element. *)
Theorem C99_sids_distinct : forall eps used ts out, WriteTransforms eps used ts out -> Forall plain used -> Forall (fun t => plain (t_sid t)) ts ->
  forall i c v, nth_error out i = Some c -> has_attr c "sid" v -> ~ In v used /\ forall j d, nth_error out j = Some d -> has_attr d "sid" v -> i = j.
Proof. intros eps used ts out H Hu Hs i c v Hi Hc. destruct (written_sids eps used ts out H Hu Hs i c v Hi Hc) as (_ & H1 & H2). auto. Qed.
Print Assumptions C99_sids_distinct.
Definition twins : list transform := [Transform (tx "t") (Translation (1, 0, 0)%Q); Transform (tx "t") (Translation (0, 1, 0)%Q)].
Lemma twins_proper : Forall (fun t => proper_value (t_value t)) twins.
Proof. constructor; [cbn; repeat split; vm_compute; congruence|]. constructor; [cbn; repeat split; vm_compute; congruence|constructor]. Qed.
Example C99_sids_distinct_demo : exists out, WriteTransforms eps_float [tx "t"] twins out /\ Forall plain [tx "t"] /\ Forall (fun t => plain (t_sid t)) twins /\
  map (fun c => ReadNodeProperty c "sid") out = [tx "t2"; tx "t3"].
Proof.
  destruct (C99_writable eps_float twins [tx "t"] (or_introl eq_refl) twins_proper) as (out & H). exists out. split; [exact H|].
  assert (P : plain (tx "t")) by (apply DaeProps.plain_check; reflexivity).
  split; [constructor; [exact P|constructor]|]. split; [constructor; [exact P|constructor; [exact P|constructor]]|].
  inversion H as [|u t r text out1 Ht H1]; subst. inversion H1 as [|u2 t2 r2 text2 out2 Ht2 H2]; subst. inversion H2; subst. vm_compute. reflexivity.
Qed.
(** C99 (full statement, refuted): equal sub ids of two transformations do not come back. *)
Theorem C99_equal_sids_refuted : ~ forall a other eps ts out id names st fuel, machine_eps eps -> Forall (fun t => proper_value (t_value t)) ts ->
  Forall (fun t => name_text (t_sid t)) ts -> WriteTransforms eps [] ts out ->
  LoadScenes fuel a other (no_scenes names) true [visual_scene id out] = Done (true, st) -> map t_sid (l_transforms st 0) = map t_sid ts.
Proof.
  intro H. destruct (C99_writable eps_float twins [] (or_introl eq_refl) twins_proper) as (out & Hw).
  destruct (transforms_read Strict (fun _ => true) eps_float twins out [] [] (or_introl eq_refl) twins_proper Hw) as (st & E & _ & Sr & _).
  specialize (H Strict (fun _ => true) eps_float twins out [] [] st 0 (or_introl eq_refl) twins_proper).
  assert (N : Forall (fun t => name_text (t_sid t)) twins) by (constructor; [legal_name|constructor; [legal_name|constructor]]).
  specialize (H N Hw (E 0)). rewrite H in Sr.
  inversion Hw as [|u t r text out1 Ht H1]; subst. inversion H1 as [|u2 t2 r2 text2 out2 Ht2 H2]; subst. inversion H2; subst. vm_compute in Sr. discriminate.
Qed.
Print Assumptions C99_equal_sids_refuted.
(** C99 (full statement, refuted): a sub id that is used with all numbers up to 99 is not written at all. *)
Theorem C99_lost_sid_refuted : ~ forall eps used ts out, machine_eps eps -> Forall (fun t => proper_value (t_value t)) ts -> Forall (fun t => name_text (t_sid t)) ts ->
  WriteTransforms eps used ts out -> Forall (fun c => exists v, has_attr c "sid" v) out.
Proof.
  intro H. set (used := tx "t" :: map (fun k => tx "t" ++ append_u32 (Z.of_nat k)) (seq 2 98)).
  destruct (C99_writable eps_float [Transform (tx "t") (Translation (1, 0, 0)%Q)] used (or_introl eq_refl)) as (out & Hw); [constructor; [exact (Forall_inv twins_proper)|constructor]|].
  assert (X : Forall (fun c => exists v, has_attr c "sid" v) out).
  { eapply H; [now left| | |exact Hw]; [constructor; [exact (Forall_inv twins_proper)|constructor]|constructor; [legal_name|constructor]]. }
  inversion Hw as [|u t r text out1 Ht H1 E1 E2 E3]; subst. apply Forall_inv in X as (v & Hv).
  destruct Hv as (n1 & c1 & pre & post & E & _). apply (f_equal (fun n => match n with Elem _ a _ => a | _ => [] end)) in E. vm_compute in E. destruct pre; discriminate.
Qed.
Print Assumptions C99_lost_sid_refuted.
(** C99 (full statement, refuted): a skew whose axis has only components below 1/10000 makes the reader fail. *)
Theorem C99_skew_refuted : ~ forall a other eps w r p out id names, machine_eps eps -> Forall finite (w :: coords r ++ coords p) ->
  WriteTransforms eps [] [Transform [] (Skew w (Given r) (Given p))] out ->
  exists st, forall fuel, LoadScenes fuel a other (no_scenes names) true [visual_scene id out] = Done (true, st).
Proof.
  intro H. set (out := [Elem (tx "skew") [] [Text (tx "0 0 0 0 0 0 0")]]).
  destruct (H Strict (fun _ => true) eps_float 0%Q (0, 0, 0)%Q (0, 0, 0)%Q out [] []) as (st & E); [now left|repeat (constructor; [vm_compute; congruence|]); constructor| |].
  - apply (WT_cons eps_float [] (Transform [] (Skew 0%Q (Given (0, 0, 0)%Q) (Given (0, 0, 0)%Q))) [] (tx "0 0 0 0 0 0 0") []); [|constructor].
    unfold value_text. cbn. apply (TS_cons eps_float [] (Fin 0) _ [48%Z] (tx " 0 0 0 0 0 0")); [reflexivity|].
    repeat (apply (AR_cons eps_float (Fin 0) _ [48%Z]); [reflexivity|]). constructor.
  - specialize (E 0). vm_compute in E. discriminate.
Qed.
Print Assumptions C99_skew_refuted.

(** *** C100: scenes *)
(** C100 (full statement, refuted below): a scene that is written to XML and read back has the same nodes and hierarchy.  What holds, for a
    scene with legal ids that the map of names tells apart: the nodes come back in the order of [order], with their ids, names, sub ids,
    joint flags and transformations, the visual scenes too, and each node has the children of [saved_children] (NodeSpec.v). *)
Theorem C100_scene_partial : forall names a other eps s roots order doc, machine_eps eps -> proper_scene (fun c => other c = true) s roots order ->
  Forall (fun x => UniqueModel.contains names (n_id (s_data s x)) = false) order -> WriteScenes a eps s roots doc ->
  exists f0 st, (forall fuel, f0 <= fuel -> LoadScenes fuel a other (no_scenes names) true (children_of doc) = Done (true, st)) /\
  next (l_graph st) = List.length order /\ map (id_of st) (l_roots st) = map (fun r => n_id (s_data s r)) roots /\
  (forall k x, nth_error order k = Some x -> node_saved (remains eps) s st (firstn k order) x k).
Proof. exact scenes_round. Qed.
Print Assumptions C100_scene_partial.
(** Every such scene can be written, and all its nodes are in the order, once. *)
Theorem C100_writable : forall a eps accepted s roots order, machine_eps eps -> proper_scene accepted s roots order ->
  (exists doc, WriteScenes a eps s roots doc) /\ NoDup order /\ forall x, alive (s_graph s) x = true -> In x order.
Proof.
  intros a eps accepted s roots order He [Hh (_ & Hr) (trees & Ht & ->) Hp Hi Hs]. pose proof (history_ok _ Hh) as O. split; [|split].
  - assert (W : exists l, Forall2 (WriteSceneNode a eps s) roots l).
    { assert (Har : forall r, In r roots -> alive (s_graph s) r = true) by (intros r I; now apply Hr). clear Hi Hr.
      induction Ht as [|r t roots trees Hu _ IH]; [exists []; constructor|]. destruct IH as (l & Hl); [intros z Z; apply Har; now right|].
      destruct (node_writable accepted a eps s He O Hp t r Hu (Har r (or_introl eq_refl))) as (e & Ee). exists (e :: l). now constructor. }
    destruct W as (l & W). eexists. exists l. auto.
  - apply told_NoDup in Hi. revert Hi. apply NoDup_map_inv.
  - intros x Hx. eapply all_in_order; eauto. intros y Y1 Y2. now apply Hr.
Qed.
Print Assumptions C100_writable.
(** If no node has two parents, the children are kept in their order. *)
Theorem C100_forest : forall R s st before x k, history (s_graph s) -> (forall c, List.length (par (s_graph s) c) <= 1) ->
  node_saved R s st before x k -> map (id_of st) (chi (l_graph st) k) = map (fun c => n_id (s_data s c)) (chi (s_graph s) x).
Proof.
  intros R s st before x k Hh Hl (_ & _ & _ & _ & _ & H). rewrite H. f_equal. pose proof (history_ok _ Hh) as O.
  assert (F : forall c, In c (chi (s_graph s) x) -> (match par (s_graph s) c with p :: _ => Nat.eqb p x | [] => false end) = true).
  { intros c Hc. apply (ok_mirror _ O) in Hc. specialize (Hl c). destruct (par (s_graph s) c) as [|p [|q l]]; [destruct Hc|destruct Hc as [<- |[]]; apply Nat.eqb_refl|cbn in Hl; lia]. }
  unfold saved_children, under. rewrite (filter_all _ _ F).
  replace (filter (fun c => negb (match par (s_graph s) c with p :: _ => Nat.eqb p x | [] => false end)) (chi (s_graph s) x)) with (@nil nat); [reflexivity|].
  symmetry. induction (chi (s_graph s) x) as [|c l IH]; [reflexivity|]. cbn [filter]. rewrite (F c (or_introl eq_refl)). cbn [negb]. apply IH. intros d Hd. apply F. now right.
Qed.
Print Assumptions C100_forest.
(** The scenes of the examples: five nodes, two of them with a parent in common. *)
Definition figure (n : nat) : node_data :=
  match n with
  | 0 => NodeData (tx "body") [] [] false [] []
  | 1 => NodeData (tx "arm") (tx "Arm") [] false pivot []
  | 2 => NodeData (tx "leg") [] [] false [] []
  | 3 => NodeData (tx "bone") [] (tx "sub") true [] []
  | _ => NodeData (tx "foot") [] [] false [] [Elem (tx "instance_geometry") [(tx "url", tx "#shoe")] []]
  end.
Definition new5 : graph := NewNode (NewNode (NewNode (NewNode (NewNode no_nodes 0) 0) 0) 0) 0.
(** The arm holds the bone first, the leg refers to it. *)
Definition backward : graph := SceneProps.add (SceneProps.add (SceneProps.add (SceneProps.add (SceneProps.add new5 0 1) 0 2) 1 3) 2 4) 2 3.
(** The leg holds the bone first, the arm refers to it. *)
Definition forward : graph := SceneProps.add (SceneProps.add (SceneProps.add (SceneProps.add (SceneProps.add new5 0 1) 0 2) 2 3) 2 4) 1 3.
Lemma history_backward : history backward.
Proof. repeat (eapply SceneProps.history_add; [| reflexivity | reflexivity | reflexivity]). repeat constructor. Qed.
Lemma history_forward : history forward.
Proof. repeat (eapply SceneProps.history_add; [| reflexivity | reflexivity | reflexivity]). repeat constructor. Qed.
Lemma letters_parts x p ds : Forall (fun c => ~ UniqueSpec.is_digit c) x -> parts x p ds -> p = x /\ ds = [].
Proof.
  intros H (E & D & _). destruct ds as [|d ds]; [split; auto; now rewrite app_nil_r in E|]. exfalso. rewrite Forall_forall in H. apply Forall_inv in D. apply (H d); auto. rewrite E. apply in_or_app. right. now left.
Qed.
Lemma told_letters l : Forall (Forall (fun c => ~ UniqueSpec.is_digit c)) l -> NoDup l -> told_apart l.
Proof.
  induction 1 as [|x l Hx Hl IH]; intro N; [constructor|]. inversion N as [|? ? N1 N2]; subst. constructor; auto.
  - apply Forall_forall. intros y Hy (p & ds & es & P1 & P2 & _). rewrite Forall_forall in Hl. apply (letters_parts x) in P1 as (-> & _); auto.
    apply (letters_parts y) in P2 as (-> & _); auto.
  - intros p ds P. apply (letters_parts x) in P as (_ & ->); auto. cbn. lia.
Qed.
Definition accepting (c : xml) : bool := true.
Lemma figure_proper g trees order : history g -> (forall x, alive g x = true <-> x < 5) -> (forall x, x < 5 -> par g x = [] <-> x = 0) ->
  Forall2 (unfolds g true) [0] trees -> order = flat_map preorder trees -> NoDup order -> Forall (fun x => x < 5) order ->
  proper_scene (fun c => accepting c = true) (Scene g figure) [0] order.
Proof.
  intros Hh Ha Hp Ht Ho Hn Hl. constructor; cbn [s_graph s_data]; auto.
  - split; [repeat constructor; intros []|]. intro x. split.
    + intros [<- |[]]. split; [apply Ha; lia|apply Hp; lia].
    + intros (H1 & H2). apply Ha in H1. left. symmetry. now apply Hp.
  - exists trees. auto.
  - intros x Hx. apply Ha in Hx. destruct x as [|[|[|[|[|x]]]]]; [| | | | |lia];
    (constructor; unfold saved_sub; cbn [s_graph s_data figure n_id n_name n_sub n_transforms n_instances];
     [legal_name|try (now left); right; legal_name|try (now left); right; legal_name| | | |]); try (now constructor).
    + destruct (par g 0); constructor.
    + exact pivot_proper.
    + constructor; [right; legal_name|]. constructor; [right; legal_name|]. constructor; [now left|]. constructor; [right; legal_name|constructor].
    + destruct (par g 1); vm_compute; repeat (apply NoDup_cons; [cbn; intuition discriminate|]); apply NoDup_nil.
    + destruct (par g 2); constructor.
    + destruct (par g 3); vm_compute; repeat (apply NoDup_cons; [cbn; intuition discriminate|]); apply NoDup_nil.
    + destruct (par g 4); constructor.
    + constructor; [|constructor]. split; [|right; right; reflexivity]. eexists _, _, _. split; [reflexivity|]. vm_compute. intuition discriminate.
  - assert (I : forall x, n_id (figure x) = nth (Nat.min x 4) [tx "body"; tx "arm"; tx "leg"; tx "bone"; tx "foot"] []) by (intro x; do 5 (destruct x as [|x]; [reflexivity|]); reflexivity).
    apply told_letters.
    + apply Forall_forall. intros t Ht0. apply in_map_iff in Ht0 as (x & <- & _). do 4 (destruct x as [|x]; [repeat (constructor; [unfold UniqueSpec.is_digit; cbn; lia|]); constructor|]).
      repeat (constructor; [unfold UniqueSpec.is_digit; cbn; lia|]); constructor.
    + clear Ho. induction Hn as [|x l N1 N2 IH]; [constructor|]. cbn [map]. inversion Hl as [|? ? L1 L2]; subst. constructor; auto. intro X. apply in_map_iff in X as (y & E & Hy).
      rewrite Forall_forall in L2. specialize (L2 y Hy). assert (y = x); [|congruence].
      do 5 (destruct x as [|x]; [do 5 (destruct y as [|y]; [reflexivity || (vm_compute in E; discriminate E)|]); lia|]). lia.
  - intros p c D _ Hc E. pose proof (history_ok _ Hh) as O. assert (X : forall x, n_sub (figure x) <> [] -> x = 3) by (intros [|[|[|[|x]]]] N; cbn in N; congruence).
    assert (c = 3) by auto. assert (p = 3) by (apply X; congruence). subst. apply (ancestor_descendant g O) in D. exact (Acc_no_cycle _ _ (ok_up g O 3) D).
Qed.
Lemma backward_proper : proper_scene (fun c => accepting c = true) (Scene backward figure) [0] [0; 1; 3; 2; 4].
Proof.
  apply (figure_proper backward [Node 0 [Node 1 [Node 3 []]; Node 2 [Node 4 []]]]).
  - exact history_backward.
  - intro x. do 5 (destruct x as [|x]; [split; [lia|reflexivity]|]). split; [discriminate|lia].
  - intros x Hx. do 5 (destruct x as [|x]; [vm_compute; split; congruence|]). lia.
  - repeat (constructor; try (change (under backward true 0) with [1; 2]); try (change (under backward true 1) with [3]); try (change (under backward true 2) with [4]); try (change (under backward true 3) with (@nil nat)); try (change (under backward true 4) with (@nil nat))).
  - reflexivity.
  - repeat (apply NoDup_cons; [cbn; intuition discriminate|]). apply NoDup_nil.
  - repeat constructor.
Qed.
Lemma forward_proper : proper_scene (fun c => accepting c = true) (Scene forward figure) [0] [0; 1; 2; 3; 4].
Proof.
  apply (figure_proper forward [Node 0 [Node 1 []; Node 2 [Node 3 []; Node 4 []]]]).
  - exact history_forward.
  - intro x. do 5 (destruct x as [|x]; [split; [lia|reflexivity]|]). split; [discriminate|lia].
  - intros x Hx. do 5 (destruct x as [|x]; [vm_compute; split; congruence|]). lia.
  - repeat (constructor; try (change (under forward true 0) with [1; 2]); try (change (under forward true 1) with (@nil nat)); try (change (under forward true 2) with [3; 4]); try (change (under forward true 3) with (@nil nat)); try (change (under forward true 4) with (@nil nat))).
  - reflexivity.
  - repeat (apply NoDup_cons; [cbn; intuition discriminate|]). apply NoDup_nil.
  - repeat constructor.
Qed.
Example C100_demo : exists doc f0 st, WriteScenes Strict eps_float (Scene backward figure) [0] doc /\
  (forall fuel, f0 <= fuel -> LoadScenes fuel Strict accepting (no_scenes []) true (children_of doc) = Done (true, st)) /\
  map (fun k => (id_of st k, map (id_of st) (chi (l_graph st) k))) [0; 1; 2; 3; 4] =
  [(tx "body", [tx "arm"; tx "leg"]); (tx "arm", [tx "bone"]); (tx "bone", []); (tx "leg", [tx "bone"; tx "foot"]); (tx "foot", [])] /\
  l_sub st 2 = tx "sub" /\ l_joint st 2 = true /\ l_name st 2 = tx "bone" /\ l_name st 1 = tx "Arm" /\ List.length (l_transforms st 1) = 4.
Proof.
  destruct (C100_writable Strict eps_float _ _ _ _ (or_introl eq_refl) backward_proper) as ((doc & W) & _). exists doc.
  destruct (C100_scene_partial [] Strict accepting eps_float _ _ _ doc (or_introl eq_refl) backward_proper) as (f0 & st & E & En & Er & N); [repeat constructor|exact W|].
  exists f0, st. split; [exact W|]. split; [exact E|].
  pose proof (N 0 0 eq_refl) as (A1 & _ & _ & _ & _ & A2). pose proof (N 1 1 eq_refl) as (B1 & B3 & _ & _ & B4 & B2). pose proof (N 2 3 eq_refl) as (C1 & C3 & C4 & C5 & _ & C2).
  pose proof (N 3 2 eq_refl) as (D1 & _ & _ & _ & _ & D2). pose proof (N 4 4 eq_refl) as (G1 & _ & _ & _ & _ & G2).
  cbn [map]. rewrite A1, A2, B1, B2, C1, C2, D1, D2, G1, G2, C4, C5, C3, B3. split; [reflexivity|]. repeat (split; [reflexivity|]). clear - B4. cbn [s_data figure n_transforms] in B4. unfold pivot in B4. inversion B4 as [|? ? ? ? _ B5]; subst. inversion B5 as [|? ? ? ? _ B6]; subst. inversion B6 as [|? ? ? ? _ B7]; subst. inversion B7 as [|? ? ? ? _ B8]; subst. inversion B8; subst. reflexivity.
Qed.
(** C100 (full statement, refuted): a child is lost if its other parent comes later in the document. *)
Theorem C100_children_refuted : ~ forall a other eps s roots order doc st fuel, machine_eps eps -> proper_scene (fun c => other c = true) s roots order ->
  WriteScenes a eps s roots doc -> LoadScenes fuel a other (no_scenes []) true (children_of doc) = Done (true, st) ->
  forall k x c, nth_error order k = Some x -> In c (chi (s_graph s) x) -> In (n_id (s_data s c)) (map (id_of st) (chi (l_graph st) k)).
Proof.
  intro H. destruct (C100_writable Strict eps_float _ _ _ _ (or_introl eq_refl) forward_proper) as ((doc & W) & _).
  destruct (C100_scene_partial [] Strict accepting eps_float _ _ _ doc (or_introl eq_refl) forward_proper) as (f0 & st & E & _ & _ & N); [repeat constructor|exact W|].
  specialize (H Strict accepting eps_float _ _ _ doc st f0 (or_introl eq_refl) forward_proper W (E f0 (le_n _)) 1 1 3 eq_refl).
  destruct (N 1 1 eq_refl) as (_ & _ & _ & _ & _ & N1). rewrite N1 in H. specialize (H (or_introl eq_refl)). vm_compute in H. exact H.
Qed.
Print Assumptions C100_children_refuted.
(** C100 (full statement, refuted): the order of the children changes. *)
Theorem C100_order_refuted : ~ forall a other eps s roots order doc st fuel, machine_eps eps -> proper_scene (fun c => other c = true) s roots order ->
  WriteScenes a eps s roots doc -> LoadScenes fuel a other (no_scenes []) true (children_of doc) = Done (true, st) ->
  forall k x, nth_error order k = Some x -> List.length (chi (l_graph st) k) = List.length (chi (s_graph s) x) ->
  map (id_of st) (chi (l_graph st) k) = map (fun c => n_id (s_data s c)) (chi (s_graph s) x).
Proof.
  intro H. destruct (C100_writable Strict eps_float _ _ _ _ (or_introl eq_refl) backward_proper) as ((doc & W) & _).
  destruct (C100_scene_partial [] Strict accepting eps_float _ _ _ doc (or_introl eq_refl) backward_proper) as (f0 & st & E & _ & _ & N); [repeat constructor|exact W|].
  specialize (H Strict accepting eps_float _ _ _ doc st f0 (or_introl eq_refl) backward_proper W (E f0 (le_n _)) 3 2 eq_refl).
  destruct (N 3 2 eq_refl) as (_ & _ & _ & _ & _ & N1). rewrite N1 in H.
  assert (L : List.length (chi (l_graph st) 3) = 2) by (apply (f_equal (@List.length _)) in N1; rewrite !map_length in N1; exact N1).
  specialize (H L). vm_compute in H. discriminate.
Qed.
Print Assumptions C100_order_refuted.

(** *** C101: what the XML means *)
(** C101 (full statement, refuted below): reading a library of visual scenes gives the nodes that the XML describes.  What holds: so it is
    for well-formed content whose ids the map of names tells apart; a reference becomes a child if it points to a node that came before,
    is not around it and not yet its child. *)
Theorem C101_meaning_partial : forall names a other l ts, library_is (fun c => other c = true) l ts ->
  let es := nodes_of_library [] ts in told_apart (map e_id es) -> Forall (fun e => UniqueModel.contains names (e_id e) = false) es -> Forall (subs_fine []) ts ->
  exists f0 st, (forall fuel, f0 <= fuel -> LoadScenes fuel a other (no_scenes names) true l = Done (true, st)) /\
  next (l_graph st) = List.length es /\ Forall2 (node_is Qeq st) (seq 0 (List.length es)) es /\ map (id_of st) (l_roots st) = map tree_id ts.
Proof.
  intros names a other l ts H es Hi Hf Hs. destruct (read_library names a other l ts H (no_scenes names) [] (start names)) as (f0 & st & E & V & _ & R & NS); auto.
  exists f0, st. split; [exact E|]. split; [rewrite (b_next _ _ _ _ V); cbn; apply map_length|]. split; [|rewrite R; reflexivity].
  cbn [List.length] in NS. fold es in NS. revert NS. clear. generalize (seq 0 (List.length es)) as l. intros l NS. induction NS as [|k e l es' (H1 & H2 & H3 & H4 & H5 & H6) _ IH]; constructor; auto.
  unfold node_is. repeat (split; [assumption|]). split; [|exact H6]. clear - H5. induction H5 as [|p t ps ts (T1 & T2) _ IH]; constructor; auto. split; auto.
  assert (C : forall q r, close q r -> (q == r)%Q) by (intros q r X; symmetry; exact X).
  assert (Cv : forall u v, vec_rel close u v -> vec_rel Qeq u v) by (intros [[x y] z] [[x' y'] z'] (X1 & X2 & X3); repeat split; apply C; assumption).
  destruct (snd p) as [u|u w|u|w [u|u] [v|v]|m|u v q], (t_value t) as [u'|u' w'|u'|w' [u'|u'] [v'|v']|m'|u' v' q']; cbn [value_rel] in *; try contradiction; try tauto.
  - auto.
  - destruct T2. auto.
  - auto.
  - destruct T2 as (X1 & X2 & X3). auto.
  - intros i j Hi Hj. apply C. auto.
  - destruct T2 as (X1 & X2 & X3). auto.
Qed.
Print Assumptions C101_meaning_partial.

(** A transformation with too few or too many numbers is reported and stays as it was made.  (A <matrix> is not: the reader of matrices stops at the
    end of the text and ignores what comes after the sixteenth number.) *)
Definition numbers_needed (k : tkind) : nat := match k with TRANSLATION | SCALE => 3 | ROTATION => 4 | SKEW => 7 | MATRIX => 16 | LOOKAT => 9 end.
Theorem C101_wrong_count : forall a k c t l, k <> MATRIX -> has_text c t -> numbers_of float_text t l -> List.length l <> numbers_needed k ->
  LoadTransform a k c = Some (false,
    match k with
    | TRANSLATION => Translation (0, 0, 0)%Q | ROTATION => Rotation (1, 0, 0)%Q 0%Q | SCALE => Scale (1, 1, 1)%Q
    | SKEW => Skew 0%Q (Given (1, 0, 0)%Q) (Given (0, 1, 0)%Q) | MATRIX => Matrix identity | LOOKAT => LookAt (0, 0, 0)%Q (0, 0, -1)%Q (0, 1, 0)%Q
    end).
Proof.
  intros a k c t l Hk Ht Hn Hl. destruct (RigTextProofs.floats_of_parse a t l Hn) as (rs & Hp & Hr). apply has_text_read in Ht.
  assert (HL : ToFloatList a (ReadNodeContentDirect c) [] = Some rs) by (rewrite Ht; now apply to_list_spec).
  assert (L : List.length rs <> numbers_needed k) by (rewrite <- (RigTextProofs.Forall2_len _ _ _ Hr); exact Hl). clear -Hk HL L.
  destruct k; try (now elim Hk); cbn [LoadTransform]; rewrite HL; cbn in L;
    repeat (destruct rs as [|? rs]; try (cbn in L; exfalso; apply L; reflexivity); try reflexivity).
Qed.
Print Assumptions C101_wrong_count.
Example C101_wrong_count_demo : exists t l, numbers_of float_text t l /\ List.length l = 4%nat /\
  LoadTransform Strict TRANSLATION (Elem (tx "translate") [] [Text t]) = Some (false, Translation (0, 0, 0)%Q) /\
  LoadTransform Strict ROTATION (Elem (tx "rotate") [] [Text t]) = Some (true, Rotation (0, 0, 1)%Q 90%Q).
Proof.
  exists (tx "0 0 1 90"), [0; 0; 1; 90]%Q. split; [|repeat split; vm_compute; reflexivity].
  change (tx "0 0 1 90") with ([48] ++ 32 :: ([48] ++ 32 :: ([49] ++ 32 :: [57; 48])))%Z.
  apply (RigProps.one_more float_text [48%Z] _ 0%Q _ RigProps.zero_text); [RigProps.no_blank|].
  apply (RigProps.one_more float_text [48%Z] _ 0%Q _ RigProps.zero_text); [RigProps.no_blank|].
  apply (RigProps.one_more float_text [49%Z] _ 1%Q _ RigProps.one_text); [RigProps.no_blank|].
  apply (RigProps.one_last float_text [57; 48]%Z 90%Q). apply (RigProps.text_digits [57; 48]%Z); [reflexivity|discriminate].
Qed.
(** A document of two scenes with references and texts between. *)
Definition node_of (id : string) (ch : list xml) : xml := Elem (tx "node") [(tx "id", tx id)] ch.
Definition library : list xml :=
  [Elem (tx "asset") [] []; Text (tx " ");
   visual_scene (tx "a") [node_of "b" [Elem (tx "translate") [(tx "sid", tx "t")] [Text (tx "1 2 3")]; Text (tx " "); node_of "c" []; Elem (tx "instance_node") [(tx "url", tx "#a")] []]];
   visual_scene (tx "d") [Elem (tx "instance_node") [(tx "url", tx "#b")] []; Elem (tx "instance_node") [(tx "url", tx "#b")] []]].
Definition meant : list ntree :=
  [NTree (tx "a") (tx "a") [] false [INode (NTree (tx "b") (tx "b") [] false [ITransform (tx "t") (Translation (1, 2, 3)%Q); INode (NTree (tx "c") (tx "c") [] false []); IRef (tx "a")])];
   NTree (tx "d") (tx "d") [] false [IRef (tx "b"); IRef (tx "b")]].
Lemma node_meant accepted nm id ch items : id_text (tx id) -> dots_replaced (tx id) = tx id -> content_is accepted ch items ->
  describes accepted (Elem nm [(tx "id", tx id)] ch) (NTree (tx id) (tx id) [] false items).
Proof.
  intros Hi Hd Hc. apply D_node; auto.
  - eexists _, _, [], []. split; [reflexivity|constructor].
  - right. split; auto. intros ? ? ? [= _ <- _]. constructor; [|constructor]. cbn. discriminate.
  - left. split; auto. intros ? ? ? [= _ <- _]. constructor; [|constructor]. cbn. discriminate.
  - left. intros ? ? ? [= _ <- _]. constructor; [|constructor]. cbn. discriminate.
Qed.
Lemma url_meant accepted id ch items : id_text (tx id) -> content_is accepted ch items ->
  content_is accepted (Elem (tx "instance_node") [(tx "url", 35%Z :: tx id)] [] :: ch) (IRef (tx id) :: items).
Proof.
  intros Hi Hc. apply K_ref; auto; [eexists _, _; reflexivity|]. eexists _, _, [], []. split; [reflexivity|constructor].
Qed.
Example C101_demo : library_is (fun c => accepting c = true) library meant /\ told_apart (map e_id (nodes_of_library [] meant)) /\ Forall (subs_fine []) meant /\
  map (fun e => (e_id e, e_children e)) (nodes_of_library [] meant) = [(tx "a", [tx "b"]); (tx "b", [tx "c"]); (tx "c", []); (tx "d", [tx "b"])].
Proof.
  split; [|split; [|split]].
  - apply L_skip; [left; eexists _, _; reflexivity|]. apply L_text.
    assert (V : forall id ch nm, tx nm <> tx "visual_scene" -> ~ is_elem nm (visual_scene id ch)).
    { intros id ch nm N (x & y & E). apply N. unfold visual_scene in E. congruence. }
    apply L_scene; [apply V; cbn; discriminate|apply V; cbn; discriminate| |].
    + apply node_meant; [legal_name|reflexivity|]. apply K_node; [eexists _, _; reflexivity| |constructor]. apply node_meant; [legal_name|reflexivity|].
      apply K_transform.
      * exists "translate"%string, [1; 2; 3]%Q, (tx "1 2 3"). split; [constructor|]. split; [eexists _, _; reflexivity|]. split; [eexists _, _, _; split; [reflexivity|right; eexists; reflexivity]|].
        split; [|right; split; [eexists _, _, [], []; split; [reflexivity|constructor]|legal_name]].
        change (tx "1 2 3") with ([49] ++ 32 :: ([50] ++ 32 :: [51]))%Z.
        apply (RigProps.one_more float_text [49%Z] _ 1%Q _ RigProps.one_text); [RigProps.no_blank|].
        apply (RigProps.one_more float_text [50%Z] _ 2%Q); [apply (RigProps.text_digits [50%Z]); [reflexivity|discriminate]|RigProps.no_blank|].
        apply (RigProps.one_last float_text [51%Z] 3%Q). apply (RigProps.text_digits [51%Z]); [reflexivity|discriminate].
      * apply K_text. apply K_node; [eexists _, _; reflexivity|apply node_meant; [legal_name|reflexivity|constructor]|]. apply (url_meant _ "a"); [legal_name|constructor].
    + apply L_scene; [apply V; cbn; discriminate|apply V; cbn; discriminate| |constructor].
      apply node_meant; [legal_name|reflexivity|]. apply (url_meant _ "b"); [legal_name|]. apply (url_meant _ "b"); [legal_name|constructor].
  - assert (E : map e_id (nodes_of_library [] meant) = [[97]; [98]; [99]; [100]]%Z) by (vm_compute; reflexivity). rewrite E.
    apply told_letters; [repeat (constructor; [constructor; [unfold UniqueSpec.is_digit; lia|constructor]|]); constructor|]. repeat (apply NoDup_cons; [cbn; intuition discriminate|]). apply NoDup_nil.
  - repeat (constructor; [constructor; [congruence|]|]); [|intros t [E|[E|[]]]; discriminate|constructor].
    intros t [[= <-]|[]]. constructor; [congruence|]. intros t [E|[E|[E|[]]]]; try discriminate. injection E as <-. constructor; [congruence|]. intros t [].
  - vm_compute. reflexivity.
Qed.
(** C101 (full statement, refuted): a malformed transformation in a node drops all nodes that follow it in its parent. *)
Theorem C101_siblings_refuted : exists l, (forall a fuel, exists st, LoadScenes (20 + fuel) a accepting (no_scenes []) true l = Done (false, st) /\ next (l_graph st) = 2 /\
  chi (l_graph st) 0 = [1]) /\ l = [visual_scene (tx "a") [node_of "b" [Elem (tx "translate") [] [Text (tx "1 2")]]; node_of "c" []]].
Proof. eexists. split; [|reflexivity]. intros a fuel. destruct a; eexists; (split; [vm_compute; reflexivity|vm_compute; auto]). Qed.
Print Assumptions C101_siblings_refuted.
(** C101 (full statement, refuted): a malformed transformation goes unnoticed if a node follows it. *)
Theorem C101_status_refuted : exists l, (forall a fuel, exists st, LoadScenes (20 + fuel) a accepting (no_scenes []) true l = Done (true, st) /\
  l_transforms st 0 = [Transform [] (Translation (0, 0, 0)%Q)]) /\ l = [visual_scene (tx "a") [Elem (tx "translate") [] [Text (tx "1 2")]; node_of "b" []]].
Proof. eexists. split; [|reflexivity]. intros a fuel. destruct a; eexists; (split; [vm_compute; reflexivity|vm_compute; auto]). Qed.
Print Assumptions C101_status_refuted.
(** C101 (full statement, refuted): a matrix with two numbers is accepted and filled with zeros. *)
Theorem C101_matrix_refuted : exists l, (forall a fuel, exists st m, LoadScenes (20 + fuel) a accepting (no_scenes []) true l = Done (true, st) /\
  l_transforms st 0 = [Transform [] (Matrix m)] /\ (m 0%nat 0%nat == 1)%Q /\ (m 1%nat 0%nat == 2)%Q /\ (m 1%nat 1%nat == 0)%Q /\ (m 3%nat 3%nat == 0)%Q) /\ l = [visual_scene (tx "a") [Elem (tx "matrix") [] [Text (tx "1 2")]]].
Proof. eexists. split; [|reflexivity]. intros a fuel. destruct a; do 2 eexists; (split; [vm_compute; reflexivity|]; split; [vm_compute; reflexivity|vm_compute; auto]). Qed.
Print Assumptions C101_matrix_refuted.
(** C101 (full statement, refuted): of the different ids "n1" and "n01" the second is replaced. *)
Theorem C101_ids_refuted : exists l, (forall a fuel, exists st, LoadScenes (20 + fuel) a accepting (no_scenes []) true l = Done (true, st) /\
  id_of st 1 = tx "n1" /\ id_of st 2 <> tx "n01") /\ l = [visual_scene (tx "a") [node_of "n1" []; node_of "n01" []]].
Proof. eexists. split; [|reflexivity]. intros a fuel. destruct a; eexists; (split; [vm_compute; reflexivity|split; [vm_compute; reflexivity|vm_compute; discriminate]]). Qed.
Print Assumptions C101_ids_refuted.

(** *** C102: reading ends *)
(** Whatever the XML: the reader ends, and the nodes it made are a scene graph without cycles in which parents and children agree, no
    child occurs twice, and every node has an id object. *)
Theorem C102_ends : forall a other names l, exists f0 r, (forall fuel, f0 <= fuel -> LoadScenes fuel a other (no_scenes names) true l = r) /\ r <> Fuel /\
  forall b st, r = Done (b, st) -> history (l_graph st) /\ (forall x, ~ descendant (l_graph st) x x) /\
  (forall p c, In c (chi (l_graph st) p) <-> In p (par (l_graph st) c)) /\ (forall p, NoDup (chi (l_graph st) p)) /\
  List.length (IdModel.objects (l_doc st)) = next (l_graph st) /\ Forall (fun r => alive (l_graph st) r = true) (l_roots st).
Proof.
  intros a other names l. destruct (scenes_end a other l (no_scenes names) true (start_sound names)) as (f0 & r & E & N & _ & D). exists f0, r. split; [exact E|]. split; [exact N|].
  intros b st Er. destruct (D b st Er) as ([S1 S2 S3 S4 S5] & _). pose proof (history_ok _ S1) as O. split; [exact S1|].
  split; [intros x X; apply (ancestor_descendant _ O) in X; exact (Acc_no_cycle _ _ (ok_up _ O x) X)|]. split; [exact (ok_mirror _ O)|]. split; [exact (ok_chi _ O)|].
  split; [exact S3|]. revert S5. apply Forall_impl. intros; auto.
Qed.
Print Assumptions C102_ends.
(** C102 (full statement, refuted below): reading has defined behaviour for every XML.  What holds: with wrapping arithmetic and without the
    letter I in any text. *)
Theorem C102_safe_partial : forall other names l, Forall calm l -> exists f0 b st, forall fuel, f0 <= fuel -> LoadScenes fuel Wrapping other (no_scenes names) true l = Done (b, st).
Proof.
  intros other names l H. destruct (scenes_end Wrapping other l (no_scenes names) true (start_sound names)) as (f0 & r & E & N & B & _).
  specialize (B eq_refl H). destruct r as [[b st]| |]; [|congruence|congruence]. exists f0, b, st. exact E.
Qed.
Print Assumptions C102_safe_partial.
(** A node that refers to itself, to its parent and to nothing; a matrix without numbers; an element without id. *)
Definition hostile : list xml :=
  [visual_scene (tx "a") [Elem (tx "node") [] [Elem (tx "instance_node") [(tx "url", tx "#a")] []; Elem (tx "instance_node") [] []; Elem (tx "instance_node") [(tx "url", tx "#x")] []];
                          Elem (tx "matrix") [] []; Elem (tx "instance_node") [(tx "url", tx "#a")] []]].
Example C102_demo : Forall calm hostile /\ exists st, LoadScenes 20 Wrapping accepting (no_scenes []) true hostile = Done (true, st) /\ chi (l_graph st) 0 = [1] /\ chi (l_graph st) 1 = [].
Proof. split; [repeat constructor|]. eexists. split; [vm_compute; reflexivity|]. vm_compute. auto. Qed.
(** C102 (full statement, refuted): the letter I at the end of a text makes the reader of numbers leave the text. *)
Theorem C102_infinity_refuted : exists l, (forall a fuel, LoadScenes (20 + fuel) a accepting (no_scenes []) true l = Bad) /\
  l = [visual_scene (tx "a") [Elem (tx "translate") [] [Text (tx "1 2 I")]]].
Proof. eexists. split; [|reflexivity]. intros a fuel. destruct a; vm_compute; reflexivity. Qed.
Print Assumptions C102_infinity_refuted.
(** C102 (full statement, refuted): a port number in a reference overflows a signed integer. *)
Theorem C102_port_refuted : exists l, (forall fuel, LoadScenes (20 + fuel) Strict accepting (no_scenes []) true l = Bad) /\
  l = [visual_scene (tx "a") [Elem (tx "instance_node") [(tx "url", tx "http://h:99999999999/x#b")] []]].
Proof. eexists. split; [|reflexivity]. intros fuel. vm_compute; reflexivity. Qed.
Print Assumptions C102_port_refuted.
