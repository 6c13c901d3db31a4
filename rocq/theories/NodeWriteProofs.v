(** Writing scenes: the elements that are written, and what they mean. *)
From Coq Require Import String List ZArith QArith Bool Lia Relations.
From Verif Require Import TextModel TextProofs StringModel StringProofs XmlModel FloatModel FloatSpec FloatProps DaeModel DaeSpec DaeProofs RigSpec RigProofs RigWriteProofs UniqueSpec IdProps UriModel SceneModel SceneSpec SceneProofs SceneIterProofs NodeModel NodeSpec NodeTextProofs NodeFindProofs NodeLoadProofs.
From Verif Require IdModel UniqueModel UniqueProofs.
Import ListNotations.
Local Open Scope nat_scope.
Local Open Scope list_scope.

(** *** Sub ids of transformations *)
Lemma not_used used w : Forall plain used -> ~ In w used -> existsb (fun v => text_eq (XmlToString v) w) used = false.
Proof.
  intros H N. induction H as [|u used Hu _ IH]; [reflexivity|]. cbn [existsb]. rewrite plain_same by exact Hu.
  destruct (text_eq u w) eqn:E; [apply text_eq_spec in E; subst; exfalso; apply N; now left|]. cbn. apply IH. intro X. apply N. now right.
Qed.
Lemma optional_sid s (nm : list Z) ch : s = [] \/ name_text s -> sid_is (Elem nm (optional "sid" s) ch) s.
Proof.
  intros [-> |H]; [left; split; auto; intros ? ? ? [= _ <- _]; constructor|]. right. split; auto.
  destruct (name_plain s H) as (_ & Hn). destruct s as [|z s]; [congruence|]. exists nm, ch, [], []. split; [reflexivity|constructor].
Qed.
Definition to_item (p : list Z * tvalue) : item := ITransform (fst p) (snd p).
Definition as_written (eps : Q) (t : transform) (p : list Z * tvalue) : Prop := fst p = t_sid t /\ text_rel (remains eps) (t_value t) (snd p).
Lemma given_cons_some s l : s <> [] -> given (s :: l) = s :: given l.
Proof. destruct s; [congruence|reflexivity]. Qed.
Lemma written_transforms accepted eps used ts out : WriteTransforms eps used ts out -> machine_eps eps -> Forall (fun t => proper_value (t_value t)) ts ->
  Forall (fun t => t_sid t = [] \/ name_text (t_sid t)) ts -> Forall plain used -> NoDup (given (map t_sid ts)) -> (forall x, In x used -> ~ In x (given (map t_sid ts))) ->
  exists tis, Forall2 (as_written eps) ts tis /\
  forall rest items, content_is accepted rest items -> content_is accepted (out ++ rest) (map to_item tis ++ items).
Proof.
  induction 1 as [used|used t r text out Ht _ IH]; intros He Hv Hs Hu Hn Hd.
  - exists []. split; [constructor|]. auto.
  - assert (W : written_sid used t = t_sid t).
    { unfold written_sid. destruct (t_sid t) as [|z s] eqn:E; [reflexivity|]. unfold AddNodeSid. rewrite not_used; auto.
      intro I. apply (Hd _ I). cbn [map]. rewrite E, given_cons_some by discriminate. now left. }
    rewrite W in *. destruct (written_value eps (t_value t) text (optional "sid" (t_sid t)) He (Forall_inv Hv) Ht) as (v' & l & N & T & Nu & R).
    destruct IH as (tis & F & K); auto; [exact (Forall_inv_tail Hv)|exact (Forall_inv_tail Hs)| | | |].
    + destruct (t_sid t) as [|z s] eqn:E; auto. constructor; auto. destruct (Forall_inv Hs) as [X|X]; [congruence|]. apply name_plain in X. rewrite E in X. tauto.
    + cbn [map] in Hn. destruct (t_sid t) as [|z s]; [exact Hn|]. rewrite given_cons_some in Hn by discriminate. now inversion Hn.
    + intros x I. cbn [map] in Hn, Hd. destruct (t_sid t) as [|z s] eqn:E; [now apply Hd|]. rewrite given_cons_some in Hn, Hd by discriminate.
      destruct I as [<- |I]; [now inversion Hn|]. intro J. apply (Hd x I). now right.
    + exists ((t_sid t, v') :: tis). split; [constructor; auto; split; auto|].
      intros rest items Hr. cbn [app map to_item fst snd]. apply K_transform; [|now apply K].
      exists (element_of (t_value t)), l, text. split; [exact N|]. split; [eexists _, _; reflexivity|]. split; [exact T|]. split; [exact Nu|]. apply optional_sid. exact (Forall_inv Hs).
Qed.

(** *** The element of a node *)
Definition others (g : graph) (n : nat) : list nat := filter (fun c => negb (first_parent g n c)) (chi g n).
Inductive image (eps : Q) (s : scene) : tree -> ntree -> Prop :=
| Img : forall n ts kids tis, Forall2 (as_written eps) (n_transforms (s_data s n)) tis -> Forall2 (image eps s) ts kids ->
    image eps s (Node n ts) (NTree (n_id (s_data s n)) (saved_name (s_data s n)) (saved_sub s n) (saved_joint s n)
      (map to_item tis ++ map (fun c => IRef (n_id (s_data s c))) (others (s_graph s) n) ++ map INode kids)).
Lemma id_chars t : id_text t -> Forall id_char t /\ t <> [].
Proof. intros (H & _). exact (legal_chars _ _ H (fun c h => h)). Qed.
Lemma instance_written a id e : id_text id -> WriteNodeInstance a id = Some e -> is_elem "instance_node" e /\ has_attr e "url" (35%Z :: id).
Proof.
  intros Hi H. unfold WriteNodeInstance in H. destruct (parse_id a id (proj1 (id_chars id Hi))) as (u & E & Es & Ef & _). rewrite E, Es, Ef in H. injection H as <-.
  split; [eexists _, _; reflexivity|]. eexists _, _, [], []. split; [reflexivity|constructor].
Qed.
Lemma instance_writable a id : id_text id -> exists e, WriteNodeInstance a id = Some e.
Proof. intro Hi. unfold WriteNodeInstance. destruct (parse_id a id (proj1 (id_chars id Hi))) as (u & E & Es & Ef & _). rewrite E, Es. eauto. Qed.
Ltac ne := let X := fresh in intro X; vm_compute in X; discriminate X.
Ltac attr_skip := repeat (apply Forall_cons; [ne|]); apply Forall_nil.
Lemma head_written s x ch : id_text (n_id (s_data s x)) -> (n_name (s_data s x) = [] \/ name_text (n_name (s_data s x))) ->
  (n_sub (s_data s x) = [] \/ name_text (n_sub (s_data s x))) ->
  forall nm attrs, node_element (is_top (s_graph s) x) (s_data s x) ch = Elem nm attrs ch ->
  has_attr (Elem nm attrs ch) "id" (n_id (s_data s x)) /\
  (has_attr (Elem nm attrs ch) "name" (saved_name (s_data s x)) /\ name_text (saved_name (s_data s x)) \/
   no_attr (Elem nm attrs ch) "name" /\ saved_name (s_data s x) = dots_replaced (n_id (s_data s x))) /\
  sid_is (Elem nm attrs ch) (saved_sub s x) /\
  (if saved_joint s x then has_attr (Elem nm attrs ch) "type" (tx "JOINT")
   else no_attr (Elem nm attrs ch) "type" \/ has_attr (Elem nm attrs ch) "type" (tx "NODE")).
Proof.
  intros Hi Hn Hs nm attrs E. unfold node_element in E. injection E as <- <-. unfold is_top, saved_sub, saved_joint, saved_name.
  split; [eexists _, _, [], _; split; [reflexivity|constructor]|].
  assert (N : n_name (s_data s x) = [] \/ exists z t, n_name (s_data s x) = z :: t) by (destruct (n_name (s_data s x)); eauto).
  assert (U : n_sub (s_data s x) = [] \/ exists z t, n_sub (s_data s x) = z :: t) by (destruct (n_sub (s_data s x)); eauto).
  split; [|split].
  - destruct N as [N|(z & t & N)].
    + right. rewrite N. split; auto. intros ? ? ? [= _ <- _]. cbn [optional app]. constructor; [ne|].
      destruct (par (s_graph s) x); [attr_skip|]. destruct U as [U|(y & u & U)]; rewrite U; cbn [optional app]; attr_skip.
    + left. rewrite N in *. cbn [optional app]. split; [|destruct Hn; [discriminate|auto]].
      eexists _, _, [_], _. split; [reflexivity|attr_skip].
  - destruct (par (s_graph s) x).
    + left. split; auto. intros ? ? ? [= _ <- _]. constructor; [ne|]. rewrite app_nil_r. destruct N as [N|(z & t & N)]; rewrite N; cbn [optional]; attr_skip.
    + destruct U as [U|(y & u & U)]; rewrite U in *; cbn [optional app].
      * left. split; auto. intros ? ? ? [= _ <- _]. constructor; [ne|]. destruct N as [N|(z & t & N)]; rewrite N; cbn [optional app]; attr_skip.
      * right. split; [|destruct Hs; [discriminate|auto]]. destruct N as [N|(z & t & N)]; rewrite N; cbn [optional app].
        -- eexists _, _, [_], _. split; [reflexivity|attr_skip].
        -- eexists _, _, [_; _], _. split; [reflexivity|attr_skip].
  - destruct (par (s_graph s) x).
    + left. intros ? ? ? [= _ <- _]. constructor; [ne|]. rewrite app_nil_r. destruct N as [N|(z & t & N)]; rewrite N; cbn [optional]; attr_skip.
    + assert (T : has_attr (Elem (tx "node") ((tx "id", n_id (s_data s x)) :: optional "name" (n_name (s_data s x)) ++ optional "sid" (n_sub (s_data s x)) ++
                   [(tx "type", tx (if n_joint (s_data s x) then "JOINT" else "NODE"))]) ch) "type" (tx (if n_joint (s_data s x) then "JOINT" else "NODE"))).
      { eexists _, _, ((tx "id", n_id (s_data s x)) :: optional "name" (n_name (s_data s x)) ++ optional "sid" (n_sub (s_data s x))), [].
        split; [cbn [app]; rewrite <- app_assoc; reflexivity|]. constructor; [ne|].
        apply Forall_app. split; [destruct N as [N|(z & t & N)]; rewrite N|destruct U as [U|(z & t & U)]; rewrite U]; cbn [optional]; attr_skip. }
      destruct (n_joint (s_data s x)); auto.
Qed.

Lemma node_describes accepted a eps s : machine_eps eps -> ok (s_graph s) -> (forall x, alive (s_graph s) x = true -> proper_node accepted s x) ->
  forall t n e, unfolds (s_graph s) true n t -> alive (s_graph s) n = true -> WriteSceneNode a eps s n e ->
  exists T, image eps s t T /\ describes accepted e T /\ is_elem (if is_top (s_graph s) n then "visual_scene" else "node") e.
Proof.
  intros He O Hp. induction t as [m ts IHts] using tree_ind'. intros n e U Ha W. apply unfolds_below in U as [-> F]. pose proof (Hp n Ha) as P.
  inversion W as [n0 wts refs nodes H1 H2 H3 E0 Ee]. subst n0. clear W.
  (* the nodes *)
  assert (HN : exists kids, Forall2 (image eps s) ts kids /\ content_is accepted nodes (map INode kids)).
  { change (filter (first_parent (s_graph s) n) (chi (s_graph s) n)) with (under (s_graph s) true n) in H3.
    assert (Hin : forall c, In c (under (s_graph s) true n) -> In c (chi (s_graph s) n)) by (intros c Hc; apply filter_In in Hc; tauto).
    clear Ee. revert ts F IHts nodes H3 Hin. generalize (under (s_graph s) true n). intros l ts F. induction F as [|c t l ts Hu _ IH]; intros IHts nodes H3 Hin.
    - inversion H3; subst. exists []. split; constructor.
    - inversion H3 as [|c0 e0 l0 r0 We Wr E1 E2]; subst. destruct (IH (Forall_inv_tail IHts) r0 Wr) as (kids & K1 & K2); [intros d Hd; apply Hin; now right|].
      pose proof (Hin c (or_introl eq_refl)) as Hc. destruct (Forall_inv IHts c e0 Hu) as (T & T1 & T2 & T3); auto; [apply (ok_alive _ O _ _ Hc)|].
      exists (T :: kids). split; [now constructor|]. cbn [map]. apply K_node; auto.
      unfold is_top in T3. apply (ok_mirror _ O) in Hc. destruct (par (s_graph s) c); [destruct Hc|exact T3]. }
  destruct HN as (kids & K1 & K2).
  (* the references *)
  assert (HR : content_is accepted (refs ++ nodes) (map (fun c => IRef (n_id (s_data s c))) (others (s_graph s) n) ++ map INode kids)).
  { assert (Hin : forall c, In c (others (s_graph s) n) -> In c (chi (s_graph s) n)) by (intros c Hc; apply filter_In in Hc; tauto).
    unfold others in *. clear Ee. revert refs H2 Hin. generalize (filter (fun c => negb (first_parent (s_graph s) n c)) (chi (s_graph s) n)). intros l refs H2.
    induction H2 as [|c e0 l r0 We _ IH]; intro Hin; [exact K2|]. cbn [map app]. pose proof (Hin c (or_introl eq_refl)) as Hc.
    assert (Hid : id_text (n_id (s_data s c))) by (apply (pn_id accepted), Hp; apply (ok_alive _ O _ _ Hc)).
    destruct (instance_written a _ _ Hid We) as (W1 & W2). apply K_ref; auto. apply IH. intros d Hd. apply Hin. now right. }
  (* the instances of other entities *)
  assert (HI : content_is accepted (n_instances (s_data s n) ++ refs ++ nodes) (map (fun c => IRef (n_id (s_data s c))) (others (s_graph s) n) ++ map INode kids)).
  { pose proof (pn_instances _ _ _ P) as Q. clear Ee. induction Q as [|c l (Q1 & Q2) _ IH]; [exact HR|]. cbn [app]. now apply K_foreign. }
  (* the transformations *)
  pose proof (pn_distinct _ _ _ P) as D.
  assert (OS : own_sid (is_top (s_graph s) n) (s_data s n) = match saved_sub s n with [] => [] | u => [u] end).
  { unfold own_sid, is_top, saved_sub. destruct (par (s_graph s) n); [reflexivity|]. destruct (n_sub (s_data s n)); reflexivity. }
  destruct (written_transforms accepted eps _ _ _ H1 He (pn_values _ _ _ P) (pn_sids _ _ _ P)) as (tis & T1 & T2).
  { unfold own_sid. destruct (is_top (s_graph s) n); [constructor|]. destruct (pn_sub _ _ _ P) as [E|X]; [rewrite E; constructor|].
    destruct (name_plain _ X) as (X1 & X2). destruct (n_sub (s_data s n)); [constructor|constructor; [exact X1|constructor]]. }
  { destruct (saved_sub s n); [exact D|]. rewrite given_cons_some in D by discriminate. now inversion D. }
  { rewrite OS. intros x I. destruct (saved_sub s n) as [|z u] eqn:E; [destruct I|]. destruct I as [<- |[]].
    rewrite given_cons_some in D by discriminate. now inversion D. }
  specialize (T2 _ _ HI).
  eexists. split; [apply Img; eassumption|].
  destruct (node_element (is_top (s_graph s) n) (s_data s n) (wts ++ n_instances (s_data s n) ++ refs ++ nodes)) as [nm attrs ch|tt] eqn:EN; [|discriminate].
  assert (ch = wts ++ n_instances (s_data s n) ++ refs ++ nodes) as -> by (unfold node_element in EN; congruence).
  destruct (head_written s n _ (pn_id _ _ _ P) (pn_name _ _ _ P) (pn_sub _ _ _ P) nm attrs EN) as (A1 & A2 & A3 & A4).
  split; [apply D_node; auto; exact (pn_id _ _ _ P)|].
  unfold node_element in EN. injection EN as <- _. destruct (is_top (s_graph s) n); eexists _, _; reflexivity.
Qed.

(** *** Every scene can be written *)
Lemma transforms_writable eps ts : machine_eps eps -> Forall (fun t => proper_value (t_value t)) ts -> forall used, exists out, WriteTransforms eps used ts out.
Proof.
  intros He. induction 1 as [|t ts Ht _ IH]; intro used; [exists []; constructor|]. destruct (proper_numbers _ Ht) as (l & El).
  destruct (floats_writable eps l He) as (text & Hx). destruct (IH (match written_sid used t with [] => used | s => s :: used end)) as (out & Ho).
  eexists. constructor; [|exact Ho]. unfold value_text. rewrite El. exact Hx.
Qed.
Lemma node_writable accepted a eps s : machine_eps eps -> ok (s_graph s) -> (forall x, alive (s_graph s) x = true -> proper_node accepted s x) ->
  forall t n, unfolds (s_graph s) true n t -> alive (s_graph s) n = true -> exists e, WriteSceneNode a eps s n e.
Proof.
  intros He O Hp. induction t as [m ts IHts] using tree_ind'. intros n U Ha. apply unfolds_below in U as [-> F]. pose proof (Hp n Ha) as P.
  destruct (transforms_writable eps _ He (pn_values _ _ _ P) (own_sid (is_top (s_graph s) n) (s_data s n))) as (out & Ho).
  assert (HR : exists refs, Forall2 (fun c e => WriteNodeInstance a (n_id (s_data s c)) = Some e) (filter (fun c => negb (first_parent (s_graph s) n c)) (chi (s_graph s) n)) refs).
  { assert (Hin : forall c, In c (filter (fun c => negb (first_parent (s_graph s) n c)) (chi (s_graph s) n)) -> alive (s_graph s) c = true).
    { intros c Hc. apply filter_In in Hc as (Hc & _). apply (ok_alive _ O _ _ Hc). }
    revert Hin. generalize (filter (fun c => negb (first_parent (s_graph s) n c)) (chi (s_graph s) n)). induction l as [|c l IH]; intro Hin; [exists []; constructor|].
    destruct IH as (refs & Hr); [intros d Hd; apply Hin; now right|]. destruct (instance_writable a (n_id (s_data s c))) as (e & Ee); [apply (pn_id accepted), Hp, Hin; now left|].
    exists (e :: refs). now constructor. }
  destruct HR as (refs & HR).
  assert (HN : exists nodes, Forall2 (WriteSceneNode a eps s) (filter (first_parent (s_graph s) n) (chi (s_graph s) n)) nodes).
  { change (filter (first_parent (s_graph s) n) (chi (s_graph s) n)) with (under (s_graph s) true n).
    assert (Hin : forall c, In c (under (s_graph s) true n) -> alive (s_graph s) c = true).
    { intros c Hc. apply filter_In in Hc as (Hc & _). apply (ok_alive _ O _ _ Hc). }
    revert ts F IHts Hin. generalize (under (s_graph s) true n). intros l ts F. induction F as [|c t l ts Hu _ IH]; intros IHts Hin; [exists []; constructor|].
    destruct (IH (Forall_inv_tail IHts)) as (nodes & Hn); [intros d Hd; apply Hin; now right|]. destruct (Forall_inv IHts c Hu) as (e & Ee); [apply Hin; now left|].
    exists (e :: nodes). now constructor. }
  destruct HN as (nodes & HN). eexists. econstructor; eauto.
Qed.

(** *** Sub ids are never written twice *)
Lemma dec_chars n : (0 <= n)%Z -> Forall (fun c => 48 <= c <= 57)%Z (append_u32 n).
Proof.
  intro Hn. unfold append_u32, dec. assert (G : forall f m acc, (0 <= m)%Z -> Forall (fun c => 48 <= c <= 57)%Z acc -> Forall (fun c => 48 <= c <= 57)%Z (dec_digits f m acc)).
  { induction f as [|f IH]; intros m acc Hm Ha; [exact Ha|]. cbn [dec_digits]. destruct (Z.ltb_spec m 10); [constructor; auto; lia|].
    apply IH; [apply Z.div_pos; lia|]. constructor; auto. pose proof (Z.mod_pos_bound m 10). lia. }
  apply G; auto.
Qed.
Lemma plain_number w n : plain w -> (0 <= n)%Z -> plain (w ++ append_u32 n).
Proof.
  intros (H1 & H2) Hn. pose proof (dec_chars n Hn) as D. split.
  - apply Forall_app. split; auto. revert D. apply Forall_impl. intros; lia.
  - intro I. apply in_app_or in I as [I|I]; auto. rewrite Forall_forall in D. apply D in I. lia.
Qed.
Lemma unused used w : Forall plain used -> existsb (fun v => text_eq (XmlToString v) w) used = false -> ~ In w used.
Proof.
  intros H E I. assert (X : existsb (fun v => text_eq (XmlToString v) w) used = true); [|congruence].
  apply existsb_exists. exists w. split; auto. rewrite Forall_forall in H. rewrite plain_same by auto. now apply text_eq_spec.
Qed.
Lemma numbered_fresh used w k : Forall plain used -> plain w -> forall n, (0 <= n)%Z -> let s := numbered_sid used w n k in s = [] \/ (plain s /\ ~ In s used).
Proof.
  intros Hu Hw. induction k as [|k IH]; intros n Hn s; unfold s; cbn [numbered_sid]; [now left|]. destruct (existsb (fun v => text_eq (XmlToString v) (w ++ append_u32 n)) used) eqn:E.
  - apply (IH (n + 1)%Z). lia.
  - right. split; [now apply plain_number|now apply unused].
Qed.
Lemma sid_fresh used t : Forall plain used -> plain (t_sid t) -> let s := written_sid used t in s = [] \/ (plain s /\ ~ In s used).
Proof.
  intros Hu Ht. unfold written_sid. destruct (t_sid t) as [|z u] eqn:E; [now left|]. rewrite <- E in *. unfold AddNodeSid.
  destruct (existsb (fun v => text_eq (XmlToString v) (t_sid t)) used) eqn:X; [apply numbered_fresh; auto; lia|]. right. split; auto. now apply unused.
Qed.
Lemma written_sids eps used ts out : WriteTransforms eps used ts out -> Forall plain used -> Forall (fun t => plain (t_sid t)) ts ->
  forall i c v, nth_error out i = Some c -> has_attr c "sid" v -> v <> [] /\ ~ In v used /\ forall j d, nth_error out j = Some d -> has_attr d "sid" v -> i = j.
Proof.
  induction 1 as [used|used t r text out Ht _ IH]; intros Hu Hs i c v Hi Hc; [destruct i; discriminate|].
  pose proof (sid_fresh used t Hu (Forall_inv Hs)) as F. cbv zeta in F.
  assert (A : forall w nm ch, has_attr (Elem nm (optional "sid" (written_sid used t)) ch) "sid" w -> w = written_sid used t /\ w <> []).
  { intros w nm ch (n1 & c1 & pre & post & E & Hp). injection E as _ E _. destruct (written_sid used t) as [|z u]; cbn [optional] in E; [destruct pre; discriminate|].
    destruct pre as [|q pre]; [injection E as <- _; split; [reflexivity|discriminate]|]. injection E as <- E. apply Forall_inv in Hp. destruct pre; discriminate. }
  assert (Hu' : Forall plain (match written_sid used t with [] => used | s => s :: used end)).
  { destruct (written_sid used t) as [|z u]; auto. constructor; auto. destruct F as [F|F]; [discriminate|tauto]. }
  specialize (IH Hu' (Forall_inv_tail Hs)).
  assert (B : forall k d w, nth_error out k = Some d -> has_attr d "sid" w -> w <> [] /\ ~ In w used /\ w <> written_sid used t /\ forall j e, nth_error out j = Some e -> has_attr e "sid" w -> k = j).
  { intros k d w Hk Hd. destruct (IH k d w Hk Hd) as (I1 & I2 & I3). split; auto. destruct (written_sid used t) as [|z u] eqn:E.
    - auto.
    - split; [intro X; apply I2; now right|]. split; auto. intros ->. apply I2. now left. }
  destruct i as [|i].
  - injection Hi as <-. apply A in Hc as (-> & Hne). destruct F as [F|(F1 & F2)]; [congruence|]. split; auto. split; auto.
    intros [|j] d Hj Hd; auto. exfalso. cbn in Hj. destruct (B j d _ Hj Hd) as (_ & _ & X & _). congruence.
  - cbn in Hi. destruct (B i c v Hi Hc) as (B1 & B2 & B3 & B4). split; auto. split; auto. intros [|j] d Hj Hd.
    + injection Hj as <-. apply A in Hd. destruct Hd as (Hd & _). congruence.
    + f_equal. eapply B4; eauto.
Qed.
