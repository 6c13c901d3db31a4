(** C103 (extra trees written and loaded), C104 (what is loaded from a document), C105 (notes and targets). *)
From Coq Require Import String List ZArith Bool Lia.
From Verif Require Import TextModel StringModel StringProofs XmlModel XmlProofs UniqueSpec IdModel IdProps DaeModel DaeSpec DaeProofs ExtraModel ExtraProps CustomModel CustomSpec CustomProofs CustomReadProofs CustomNoteProofs.
Import ListNotations.
Local Open Scope Z_scope.
Local Open Scope list_scope.
Local Notation length := List.length.

(** *** C103 *)
(** The full statement: every extra tree that the calls build is written and loaded unchanged.  False: see below.  Proved for trees
    whose names are distinct and whose texts XML keeps. *)
Theorem C103_round_trip_partial : forall e k a before after,
  sound_extra e -> has_data e \/ e = new_extra ->
  (forall n, In n before \/ In n after -> named n "extra" = false) ->
  LoadExtras (children_of (Elem k a (before ++ WriteExtra e ++ after))) new_extra = Some e.
Proof.
  intros e k a before after S D F. cbn [children_of]. unfold LoadExtras. rewrite filter_extra_app by exact F. fold (LoadExtras (WriteExtra e) new_extra).
  destruct D as [D| ->]; [|reflexivity]. apply tree_back; [exact S|]. now apply has_data_content.
Qed.
Print Assumptions C103_round_trip_partial.

(** The same in terms of the calls: what they must respect. *)
Definition node_call_ok (c : nodecall) : Prop :=
  match c with
  | NSetName n | NAddChildNode n | NAddAttribute n _ => n <> []
  | NSetContent t => plain t
  | NAddParameter n v => n <> [] /\ plain v
  | NSetAttributeName _ _ => False
  | NSetAttributeValue _ _ | NReleaseChild _ | NReleaseAttribute _ => True
  end.
(** On the technique itself only children are added and released. *)
Definition root_call_ok (c : nodecall) : Prop :=
  match c with NAddChildNode n => n <> [] | NAddParameter n v => n <> [] /\ plain v | NReleaseChild _ => True | _ => False end.
Definition call_ok (c : call) : Prop :=
  match c with
  | AddTypeCall n => plain n
  | AddTechniqueCall _ p => plain p
  | ReleaseType i => i <> 0%nat
  | ReleaseTechnique _ _ => True
  | SetTypeName _ _ | SetProfile _ _ _ => False
  | OnNode _ _ [] c => root_call_ok c
  | OnNode _ _ (_ :: _) c => node_call_ok c
  end.
(** No node has both a content and children. *)
Definition unmixed (e : extra) : Prop :=
  forall n ts p x m t attrs kids, In (n, ts) e -> In (p, x) ts -> in_tree (ENode m t attrs kids) x -> kids = [] \/ t = [].

Definition loose (x : enode) : Prop :=
  forall n t attrs kids, in_tree (ENode n t attrs kids) x ->
    n <> [] /\ plain_name n /\ plain t /\ attributes_ok attrs /\ forall a, In a attrs -> fst a <> [].
Lemma loose_iff n t attrs kids : loose (ENode n t attrs kids) <->
  (n <> [] /\ plain_name n /\ plain t /\ attributes_ok attrs /\ (forall a, In a attrs -> fst a <> [])) /\ Forall loose kids.
Proof.
  split.
  - intro H. split; [exact (H _ _ _ _ (in_tree_self _))|]. apply Forall_forall. intros k Hk n' t' a' k' Hi. apply (H n' t' a' k'). eapply in_tree_child; eauto.
  - intros [A F] n' t' a' k' Hi. inversion Hi; subst; [exact A|]. rewrite Forall_forall in F. eapply F; eauto.
Qed.
Lemma loose_sound x : loose x -> (forall m t attrs kids, in_tree (ENode m t attrs kids) x -> kids = [] \/ t = []) -> sound_node x.
Proof.
  induction x as [n t attrs kids IH] using enode_ind'. intros L U. apply loose_iff in L. destruct L as [(A & B & C & D & E) F].
  constructor; auto; [exact (U _ _ _ _ (in_tree_self _))|]. intros k Hk. rewrite Forall_forall in IH, F. apply IH; auto.
  intros m t' a' k' Hi. apply (U m t' a' k'). eapply in_tree_child; eauto.
Qed.
Definition loose_technique (x : technique) : Prop := plain (fst x) /\ exists kids, snd x = ENode [] [] [] kids /\ Forall loose kids.
Definition loose_type (t : etype) : Prop := plain (fst t) /\ NoDup (map fst (snd t)) /\ Forall loose_technique (snd t).
Definition loose_extra (e : extra) : Prop := hd_error (map fst e) = Some [] /\ NoDup (map fst e) /\ Forall loose_type e.
Lemma plain_nil : plain [].
Proof. split; [constructor|intros []]. Qed.
Lemma attributes_nil : attributes_ok [].
Proof. split; constructor. Qed.
Lemma clean_not_nil n : n <> [] -> CleanENodeName n <> [].
Proof. destruct n; [contradiction|discriminate]. Qed.
Lemma loose_leaf n v : n <> [] -> plain v -> loose (ENode (CleanENodeName n) v [] []).
Proof.
  intros N V. apply loose_iff. split; [|constructor]. split; [now apply clean_not_nil|]. split; [apply clean_plain|]. split; [exact V|].
  split; [apply attributes_nil|]. intros a [].
Qed.
Lemma at_nth_In {A} i f (l : list A) x : In x (at_nth i f l) -> In x l \/ exists y, In y l /\ x = f y.
Proof.
  revert i. induction l as [|a l IH]; intros [|i]; cbn; auto.
  - intros [<-|H]; [right; exists a; auto|auto].
  - intros [<-|H]; [auto|]. destruct (IH _ H) as [?|(y & ? & ?)]; eauto.
Qed.
Lemma drop_nth_In {A} i (l : list A) x : In x (drop_nth i l) -> In x l.
Proof. revert i. induction l as [|a l IH]; intros [|i]; cbn; auto. intros [<-|H]; eauto. Qed.
Lemma do_node_loose c x : node_call_ok c -> loose x -> loose (do_node c x).
Proof.
  destruct x as [n t attrs kids]. intros K L. apply loose_iff in L. destruct L as [(A & B & C & D & E) F].
  destruct c; cbn [do_node node_call_ok] in *; try contradiction; apply loose_iff; (split; [|try exact F]).
  - split; [now apply clean_not_nil|]. split; [apply clean_plain|]. auto.
  - auto.
  - constructor.
  - auto.
  - apply Forall_app. split; [exact F|]. constructor; [|constructor]. apply loose_leaf; [exact K|apply plain_nil].
  - auto.
  - apply Forall_app. split; [exact F|]. constructor; [|constructor]. now apply loose_leaf.
  - split; [exact A|]. split; [exact B|]. split; [exact C|]. split; [now apply AddAttribute_ok|].
    intros a Ha. unfold AddAttribute in Ha. apply in_add_then in Ha; [|apply D]. destruct Ha as [[H _]|[(y & H & _ & ->)|[_ ->]]]; cbn [fst].
    + auto.
    + auto.
    + cbn. now apply clean_not_nil.
  - split; [exact A|]. split; [exact B|]. split; [exact C|]. destruct D as [D1 D2]. split; [split|].
    + rewrite (at_nth_keys _ _ fst) by reflexivity. exact D1.
    + apply at_nth_Forall; [|exact D2]. intros [u w] H. exact H.
    + intros a Ha. apply at_nth_In in Ha. destruct Ha as [H|(y & H & ->)]; cbn [fst]; auto.
  - auto.
  - now apply drop_nth_Forall.
  - split; [exact A|]. split; [exact B|]. split; [exact C|]. destruct D as [D1 D2]. split; [split|].
    + rewrite drop_nth_map. now apply drop_nth_nodup.
    + now apply drop_nth_Forall.
    + intros a Ha. apply drop_nth_In in Ha. auto.
Qed.
Lemma at_path_loose p f x : (forall y, loose y -> loose (f y)) -> loose x -> loose (at_path p f x).
Proof.
  revert x. induction p as [|i p IH]; intros x Hf L; cbn; [auto|]. destruct x as [n t attrs kids].
  apply loose_iff in L. destruct L as [A K]. apply loose_iff. split; [exact A|]. apply at_nth_Forall; auto.
Qed.
Lemma do_call_loose e c : call_ok c -> loose_extra e -> loose_extra (do_call e c).
Proof.
  intros K (HD & ND & TO). unfold loose_extra. destruct c; cbn [do_call call_ok] in *; try contradiction.
  - split; [|split]; [apply add_then_hd; auto | apply add_then_nodup; auto | apply add_then_Forall; auto].
    split; [exact K|]. split; constructor.
  - destruct i as [|i]; [contradiction|]. split; [|split]; [|rewrite drop_nth_map; apply drop_nth_nodup, ND | apply drop_nth_Forall, TO].
    destruct e; [discriminate|exact HD].
  - rewrite (at_nth_keys _ _ fst) by reflexivity. split; [exact HD|split; [exact ND|]].
    apply at_nth_Forall; [|exact TO]. intros [n ts] (P & N & F). split; [exact P|]. cbn [fst snd] in *. split.
    + apply add_then_nodup; auto.
    + apply add_then_Forall; auto. split; [exact K|]. exists []. split; [reflexivity|constructor].
  - rewrite (at_nth_keys _ _ fst) by reflexivity. split; [exact HD|split; [exact ND|]].
    apply at_nth_Forall; [|exact TO]. intros [n ts] (P & N & F). split; [exact P|]. cbn [fst snd] in *. split.
    + rewrite drop_nth_map. apply drop_nth_nodup, N.
    + apply drop_nth_Forall, F.
  - rewrite (at_nth_keys _ _ fst) by reflexivity. split; [exact HD|split; [exact ND|]].
    apply at_nth_Forall; [|exact TO]. intros [n ts] (P & N & F). split; [exact P|]. cbn [fst snd] in *. split.
    + rewrite (at_nth_keys _ _ fst) by reflexivity. exact N.
    + apply at_nth_Forall; [|exact F]. intros [p x] [Pp (kids & E & L)]. cbn [fst snd] in *. subst x. split; [exact Pp|]. cbn [snd].
      destruct path as [|q path]; cbn [at_path].
      * destruct c; cbn [root_call_ok do_node] in *; try contradiction; eexists; (split; [reflexivity|]).
        -- apply Forall_app. split; [exact L|]. constructor; [|constructor]. apply loose_leaf; [exact K|apply plain_nil].
        -- apply Forall_app. split; [exact L|]. constructor; [|constructor]. now apply loose_leaf.
        -- now apply drop_nth_Forall.
      * eexists. split; [reflexivity|]. apply at_nth_Forall; [|exact L]. intros y Ly. apply at_path_loose; [|exact Ly]. intros z. now apply do_node_loose.
Qed.
Lemma do_calls_loose cs : Forall call_ok cs -> loose_extra (do_calls cs).
Proof.
  intro F. unfold do_calls. assert (O : loose_extra new_extra).
  { split; [reflexivity|]. split; [cbn; constructor; [intros []|constructor]|]. constructor; [|constructor]. split; [apply plain_nil|]. split; constructor. }
  revert O. generalize new_extra. induction F as [|c cs K F IH]; intros e O; cbn; [exact O|]. apply IH, do_call_loose; assumption.
Qed.
(** Any sequence of calls on a new extra tree that uses no percent sign and no empty name, renames no type, profile or attribute, keeps
    the default type, puts only children on techniques and no content and children on one node: written and loaded unchanged. *)
Theorem C103_built_partial : forall cs k a before after,
  Forall call_ok cs -> unmixed (do_calls cs) -> has_data (do_calls cs) ->
  (forall n, In n before \/ In n after -> named n "extra" = false) ->
  LoadExtras (children_of (Elem k a (before ++ WriteExtra (do_calls cs) ++ after))) new_extra = Some (do_calls cs).
Proof.
  intros cs k a before after C U D F. apply C103_round_trip_partial; auto. destruct (do_calls_loose cs C) as (HD & ND & TO).
  split; [exact HD|]. split; [exact ND|]. intros [n ts] Ht. rewrite Forall_forall in TO. destruct (TO _ Ht) as (P & N & TF). split; [exact P|]. split; [exact N|].
  intros [p x] Hx. rewrite Forall_forall in TF. destruct (TF _ Hx) as (Pp & kids & E & L). cbn [snd] in *. subst x. split; [exact Pp|]. exists kids. split; [reflexivity|].
  intros y Hy. rewrite Forall_forall in L. apply loose_sound; [auto|]. intros m t attrs ks Hi. eapply (U n ts p); eauto. eapply in_tree_child; eauto.
Qed.
Print Assumptions C103_built_partial.

(** C103 is false: a content set before a child is added is lost; a percent sign changes contents, types and profiles; attributes on the
    technique are lost; types and techniques without any child are lost when no technique has one, and kept otherwise. *)
Definition saved (cs : list call) : option extra := LoadExtras (WriteExtra (do_calls cs)) new_extra.
Theorem C103_mixed_refuted : exists cs,
  do_calls cs = [([], [(tx "MAX", ENode [] [] [] [ENode (tx "a") (tx "5") [] [ENode (tx "b") [] [] []]])])] /\
  saved cs = Some [([], [(tx "MAX", ENode [] [] [] [ENode (tx "a") [] [] [ENode (tx "b") [] [] []]])])].
Proof. exists [AddTechniqueCall 0 (tx "MAX"); OnNode 0 0 [] (NAddParameter (tx "a") (tx "5")); OnNode 0 0 [0%nat] (NAddChildNode (tx "b"))]. split; vm_compute; reflexivity. Qed.
Print Assumptions C103_mixed_refuted.
Theorem C103_percent_refuted : exists cs,
  do_calls cs = [([], [(tx "5%41", ENode [] [] [] [ENode (tx "a") (tx "50%") [] []])]); (tx "a%41b", [])] /\
  saved cs = Some [([], [(tx "5A", ENode [] [] [] [ENode (tx "a") (tx "50") [] []])]); (tx "aAb", [])].
Proof. exists [AddTechniqueCall 0 (tx "5%41"); OnNode 0 0 [] (NAddParameter (tx "a") (tx "50%")); AddTypeCall (tx "a%41b")]. split; vm_compute; reflexivity. Qed.
Print Assumptions C103_percent_refuted.
Theorem C103_technique_refuted : exists cs,
  do_calls cs = [([], [(tx "MAX", ENode [] [] [(tx "version", tx "2")] [ENode (tx "a") (tx "5") [] []])])] /\
  saved cs = Some [([], [(tx "MAX", ENode [] [] [] [ENode (tx "a") (tx "5") [] []])])].
Proof. exists [AddTechniqueCall 0 (tx "MAX"); OnNode 0 0 [] (NAddAttribute (tx "version") (tx "2")); OnNode 0 0 [] (NAddParameter (tx "a") (tx "5"))]. split; vm_compute; reflexivity. Qed.
Print Assumptions C103_technique_refuted.
Theorem C103_empty_refuted : exists cs,
  do_calls cs = [([], [(tx "MAX", ENode [] [] [] [])]); (tx "import", [])] /\ saved cs = Some new_extra.
Proof. exists [AddTechniqueCall 0 (tx "MAX"); AddTypeCall (tx "import")]. split; vm_compute; reflexivity. Qed.
Print Assumptions C103_empty_refuted.
(** Two techniques given one profile are written into one element. *)
Theorem C103_profiles_refuted : exists cs,
  do_calls cs = [([], [(tx "MAX", ENode [] [] [] [ENode (tx "a") (tx "1") [] []]); (tx "MAX", ENode [] [] [] [ENode (tx "b") (tx "2") [] []])])] /\
  saved cs = Some [([], [(tx "MAX", ENode [] [] [] [ENode (tx "a") (tx "1") [] []; ENode (tx "b") (tx "2") [] []])])].
Proof.
  exists [AddTechniqueCall 0 (tx "MAX"); OnNode 0 0 [] (NAddParameter (tx "a") (tx "1")); AddTechniqueCall 0 (tx "MAYA");
     OnNode 0 1 [] (NAddParameter (tx "b") (tx "2")); SetProfile 0 1 (tx "MAX")]. split; vm_compute; reflexivity.
Qed.
Print Assumptions C103_profiles_refuted.

Ltac plain_of := split; [apply Forall_forall; let H := fresh in intros ? H; vm_compute in H; repeat (destruct H as [<-|H]; [lia|]); destruct H
                        | let H := fresh in intro H; vm_compute in H; repeat (destruct H as [H|H]; [discriminate H|]); exact H].
Definition user_data : list call :=
  [AddTechniqueCall 0 (tx "MAX"); OnNode 0 0 [] (NAddChildNode (tx "my-object")); OnNode 0 0 [0%nat] (NAddAttribute (tx "version") (tx "5%"));
   OnNode 0 0 [0%nat] (NAddParameter (tx "mass") (tx "a < b & ""c""")); OnNode 0 0 [0%nat] (NAddParameter (tx "note") []);
   AddTypeCall (tx "import"); AddTechniqueCall 1 (tx "NV_import"); OnNode 1 0 [] (NAddParameter (tx "file") (tx "c:\x.dds"))].
Example C103_demo :
  Forall call_ok user_data /\ unmixed (do_calls user_data) /\ has_data (do_calls user_data) /\
  LoadExtras (WriteExtra (do_calls user_data)) new_extra = Some (do_calls user_data) /\
  WriteExtra (do_calls user_data) =
    [Elem (tx "extra") [] [Elem (tx "technique") [(tx "profile", tx "MAX")]
       [Elem (tx "my_object") [(tx "version", tx "5%")] [Elem (tx "mass") [] [Text (tx "a %3C b & %22c%22")]; Elem (tx "note") [] []]]];
     Elem (tx "extra") [(tx "type", tx "import")] [Elem (tx "technique") [(tx "profile", tx "NV_import")]
       [Elem (tx "file") [] [Text (tx "c:%5Cx.dds")]]]].
Proof.
  assert (E : do_calls user_data =
    [([], [(tx "MAX", ENode [] [] [] [ENode (tx "my_object") [] [(tx "version", tx "5%")] [ENode (tx "mass") (tx "a < b & ""c""") [] []; ENode (tx "note") [] [] []]])]);
     (tx "import", [(tx "NV_import", ENode [] [] [] [ENode (tx "file") (tx "c:\x.dds") [] []])])]) by (vm_compute; reflexivity).
  split; [|split; [|split; [|split]]].
  - unfold user_data. repeat (apply Forall_cons; [cbn [call_ok root_call_ok node_call_ok]|]); [..|apply Forall_nil];
      try (split; [discriminate|]); try discriminate; plain_of.
  - rewrite E. intros n ts p x m t attrs kids H1 H2 H3.
    repeat (destruct H1 as [H1|H1]; [injection H1 as <- <-|]); [..|destruct H1];
      repeat (destruct H2 as [H2|H2]; [injection H2 as <- <-|]); try (destruct H2; fail);
      repeat (inversion H3; subst; clear H3; auto;
              match goal with I : In _ _, T : in_tree _ _ |- _ => repeat (destruct I as [<-|I]; [rename T into H3|]); try (destruct I; fail) end; auto).
    all: try (inversion H3; subst; auto).
    all: repeat match goal with I : In _ _ |- _ => destruct I as [<-|I] end; try contradiction.
    all: repeat match goal with T : in_tree _ (ENode _ _ _ _) |- _ => inversion T; subst; clear T; auto end; try contradiction.
  - rewrite E. exists [], [(tx "MAX", ENode [] [] [] [ENode (tx "my_object") [] [(tx "version", tx "5%")] [ENode (tx "mass") (tx "a < b & ""c""") [] []; ENode (tx "note") [] [] []]])].
    do 6 eexists. split; [left; reflexivity|left; reflexivity].
  - vm_compute. reflexivity.
  - vm_compute. reflexivity.
Qed.

(** *** C104 *)
(** Without any hypothesis: loading any <extra> elements is defined and gives exactly what they say. *)
Theorem C104_import : forall k a nodes, exists e,
  LoadExtras (children_of (Elem k a nodes)) new_extra = Some e /\ extra_of nodes e.
Proof.
  intros k a nodes. cbn [children_of]. destruct (types_fold nodes [] new_extra types_new) as (e & E & T). exists e. split; [exact E|]. now apply types_extra_of.
Qed.
Print Assumptions C104_import.
(** Adding further <extra> elements leaves the types that are there in front, and in each type its techniques. *)
Lemma add_then_prefix {A} (key : A -> str) mk k f (l : list A) : (forall x, key (f x) = key x) -> key (mk k) = k ->
  exists r, map key (add_then key mk k f l) = map key l ++ r.
Proof.
  intros Hf Hm. rewrite add_then_keys by auto. destruct (in_dec str_eq_dec k (map key l)); [exists []; now rewrite app_nil_r|eauto].
Qed.
Theorem C104_order : forall nodes more e e',
  LoadExtras nodes new_extra = Some e -> LoadExtras (nodes ++ more) new_extra = Some e' ->
  exists r, map fst e' = map fst e ++ r.
Proof.
  intros nodes more e e' H. unfold LoadExtras in *. rewrite filter_app, fold_left_app, H. clear H. revert e e'.
  induction more as [|n more IH]; cbn [filter fold_left]; intros e e' H; [injection H as <-; exists []; now rewrite app_nil_r|].
  destruct (named n "extra") eqn:N; [|apply IH, H]. cbn [fold_left] in H. unfold LoadExtra at 2 in H. rewrite N in H.
  destruct (IH _ _ H) as (r & ->). unfold AddType_then. destruct (add_then_prefix fst new_type (ReadNodeProperty n "type") (LoadExtraType n) e) as (r' & ->); auto.
  exists (r' ++ r). now rewrite <- app_assoc.
Qed.
Print Assumptions C104_order.
(** Names are not kept: two attributes become one, and the names of elements change. *)
Theorem C104_names_refuted :
  LoadExtras [Elem (tx "extra") [] [Elem (tx "technique") [(tx "profile", tx "X")] [Elem (tx "my-node") [(tx "a-b", tx "1"); (tx "a.b", tx "2")] []]]] new_extra
  = Some [([], [(tx "X", ENode [] [] [] [ENode (tx "my_node") [] [(tx "a_b", tx "2")] []])])].
Proof. vm_compute. reflexivity. Qed.
Print Assumptions C104_names_refuted.
Definition two_extras : list xml :=
  [Elem (tx "asset") [] []; Text (tx " ");
   Elem (tx "extra") [] [Elem (tx "technique") [(tx "profile", tx "X")] [Text [10]; Elem (tx "a") [] [Text (tx "1")]]];
   Elem (tx "extra") [(tx "type", tx "t")] [];
   Elem (tx "extra") [] [Elem (tx "technique") [(tx "profile", tx "Y")] []; Elem (tx "technique") [(tx "profile", tx "X")] [Elem (tx "b") [] [Text (tx "2"); Elem (tx "c") [] []]]]].
Example C104_demo :
  LoadExtras two_extras new_extra =
    Some [([], [(tx "X", ENode [] [] [] [ENode (tx "a") (tx "1") [] []; ENode (tx "b") [] [] [ENode (tx "c") [] [] []]]); (tx "Y", ENode [] [] [] [])]); (tx "t", [])] /\
  elements_of [] (tx "X") two_extras = [Elem (tx "a") [] [Text (tx "1")]; Elem (tx "b") [] [Text (tx "2"); Elem (tx "c") [] []]].
Proof. split; vm_compute; reflexivity. Qed.

(** *** C105 *)
Definition empty_technique (p : str) (e : extra) : Prop := exists ts n t a, In ([], ts) e /\ In (p, ENode n t a []) ts.
Lemma clean_of e ts r p : e = ([], ts) :: r -> no_notes e -> (p = tx "MAYA" \/ p = tx "MAX3D" \/ p = tx "FCOLLADA") -> clean_in p ts.
Proof.
  intros -> N P n t attrs kids k H1 H2. destruct (is_note k) eqn:E; [|reflexivity]. apply is_note_iff in E. exfalso.
  exact (N ts p n t attrs kids k (or_introl eq_refl) H1 P H2 E).
Qed.
Lemma target_not_note v : is_note (ENode (CleanENodeName (tx "target")) v [] []) = false.
Proof. reflexivity. Qed.
Lemma note_not_target : CleanENodeName (tx "user_properties") <> tx "target".
Proof. intro X. vm_compute in X. discriminate X. Qed.
Lemma plain_target : plain_name (tx "target") /\ tx "target" <> [].
Proof. split; [|discriminate]. rewrite <- (eq_refl : CleanENodeName (tx "target") = tx "target"). apply clean_plain. Qed.
Lemma plain_user : plain_name (tx "user_properties") /\ tx "user_properties" <> [].
Proof. split; [|discriminate]. rewrite <- (eq_refl : CleanENodeName (tx "user_properties") = tx "user_properties"). apply clean_plain. Qed.
Lemma written_not name e n : In n (WriteExtra e) -> name <> "extra"%string -> tx name <> tx "extra" -> named n name = false.
Proof.
  intros H _ N. unfold WriteExtra in H. destruct (HasContent e); [|destruct H]. apply in_flat_map in H. destruct H as ([m ts] & _ & H).
  assert (E : exists a c, n = Elem (tx "extra") a c).
  { unfold WriteExtraType in H. cbn [fst snd] in H. destruct m as [|z m]; [destruct ts; [destruct H|]|]; destruct H as [<-|[]]; eauto. }
  destruct E as (a & c & ->). unfold named. destruct (text_eq (tx "extra") (tx name)) eqn:T; [|reflexivity]. apply eq_text in T. congruence.
Qed.
(** The full statement: the note, the target and the extra tree of an entity are written and loaded unchanged, and writing leaves the
    entity as it is.  False: see below.  Proved for trees without nodes that look like a note or target. *)
Theorem C105_entity_partial : forall e note target k a before after,
  sound_extra e -> has_data e \/ e = new_extra \/ note <> [] \/ target <> None ->
  plain note -> (forall id, target = Some id -> plain id) -> no_notes e -> no_targets e ->
  (forall n, In n before \/ In n after -> named n "extra" = false /\ named n "technique" = false) ->
  exists l after_e loaded,
    WriteTargetedEntityExtra e note target = Some (l, after_e) /\
    (~ empty_technique (tx "FCOLLADA") e -> after_e = e) /\
    LoadTargetedEntity (Elem k a (before ++ l ++ after)) =
      Some (loaded, note, match target with Some id => 35 :: id | None => [] end) /\
    (note = [] -> target = None -> loaded = e) /\
    (note <> [] \/ target <> None -> with_technique (tx "FCOLLADA") e loaded).
Proof.
  intros e note target k a before after Se D Pn Pt NN NT F. destruct (first_type e) as (ts & r & Ee); [apply Se|]. subst e.
  assert (CM : clean_in (tx "MAYA") ts) by (eapply clean_of; eauto). assert (CX : clean_in (tx "MAX3D") ts) by (eapply clean_of; eauto).
  assert (CF : clean_in (tx "FCOLLADA") ts) by (eapply clean_of; eauto).
  assert (UT : untargeted ts) by (intros p n t attrs kids m t' attrs' kids' H1 H2; exact (NT ts p n t attrs kids m t' attrs' kids' (or_introl eq_refl) H1 H2)).
  assert (S0 : sound_type ([], ts)) by (apply Se; left; reflexivity).
  set (tn := fun v us => AddTechnique_then (tx "FCOLLADA") (fun y : technique => (fst y, AddParameter "target" v (snd y))) us).
  set (un := fun v us => AddTechnique_then (tx "FCOLLADA") (fun y : technique => (fst y, AddParameter "user_properties" v (snd y))) us).
  assert (FE : forall n, In n before \/ In n after -> named n "extra" = false) by (intros n Hn; apply F, Hn).
  (* what loading gives for a sound tree in which only the note, if any, is to be taken out *)
  assert (Load : forall us us' v w us'', sound_extra (([], us) :: r) -> HasContent (([], us) :: r) = true -> strip us [] = (us', v) ->
            clean_in (tx "MAYA") us' -> clean_in (tx "MAX3D") us' -> clean_in (tx "FCOLLADA") us' ->
            (take_root (tx "target") us' = Some (w, us'') \/ take_root (tx "target") us' = None /\ w = [] /\ us'' = us') ->
            LoadTargetedEntity (Elem k a (before ++ WriteExtra (([], us) :: r) ++ after)) = Some (([], us'') :: r, v, w)).
  { intros us us' v w us'' S1 HC Es A B C T. unfold LoadTargetedEntity. cbn [children_of].
    rewrite entity_back; try rewrite Es; auto. cbn [fst snd].
    rewrite default_type_same; [|intros n Hn|discriminate|reflexivity].
    - rewrite find_default. destruct T as [T|[T [-> ->]]]; rewrite T; [|reflexivity]. rewrite default_first. reflexivity.
    - apply in_app_iff in Hn. destruct Hn as [Hn|Hn]; [apply F; auto|]. apply in_app_iff in Hn. destruct Hn as [Hn|Hn]; [|apply F; auto].
      eapply written_not; eauto; intro X; vm_compute in X; discriminate X. }
  assert (NE : ~ empty_technique (tx "FCOLLADA") (([], ts) :: r) -> forall n t b, ~ In (tx "FCOLLADA", ENode n t b []) ts).
  { intros H n t b Hin. apply H. exists ts, n, t, b. split; [left; reflexivity|exact Hin]. }
  destruct target as [id|]; cbn [WriteTargetedEntityExtra].
  - rewrite has_parameter. fold (tn (35 :: id) ts). assert (Pid : plain (35 :: id)).
    { destruct (Pt id eq_refl) as [B N]. split; [constructor; [lia|exact B]|]. intros [X|X]; [discriminate|auto]. }
    assert (S1 : sound_type ([], tn (35 :: id) ts)) by (apply sound_added; auto; apply plain_target).
    assert (Hw : with_technique (tx "FCOLLADA") (([], ts) :: r) (([], AddTechnique_then (tx "FCOLLADA") (fun y => y) ts) :: r)) by apply add_technique_with.
    assert (C1 : clean_in (tx "MAYA") (tn (35 :: id) ts)) by (apply clean_other; [exact maya_fc|exact CM]).
    assert (C2 : clean_in (tx "MAX3D") (tn (35 :: id) ts)) by (apply clean_other; [exact max_fc|exact CX]).
    assert (C3 : clean_in (tx "FCOLLADA") (tn (35 :: id) ts)) by (apply clean_same; [apply target_not_note|exact CF]).
    destruct note as [|c note].
    + cbn [WriteEntityExtra]. rewrite lost_parameter. cbn [option_map]. do 3 eexists. split; [reflexivity|]. split; [|split; [|split; [discriminate|]]].
      * intro X. unfold tn. rewrite released; auto.
      * apply (Load _ (tn (35 :: id) ts)); auto.
        -- eapply sound_first; eauto.
        -- apply content_added.
        -- apply strip_none; assumption.
        -- left. unfold tn. apply take_root_one, UT.
      * intros _. exact Hw.
    + cbn [WriteEntityExtra]. rewrite has_parameter. fold (un (c :: note) (tn (35 :: id) ts)). rewrite lost_parameter. cbn [option_map]. rewrite lost_parameter. cbn [option_map].
      do 3 eexists. split; [reflexivity|]. split; [|split; [|split; [discriminate|]]].
      * intro X. unfold un, tn. rewrite released_twice; auto.
      * apply (Load _ (tn (35 :: id) ts)); auto.
        -- eapply sound_first; eauto. apply sound_added; auto; apply plain_user.
        -- apply content_added.
        -- unfold un. rewrite strip_one by assumption. unfold tn. now rewrite (add_technique_idem (AddParameter "target" (35 :: id))).
        -- left. unfold tn. apply take_root_one, UT.
      * intros _. exact Hw.
  - destruct note as [|c note].
    + cbn [WriteEntityExtra]. do 3 eexists. split; [reflexivity|]. split; [auto|]. split; [|split; [reflexivity|intros [X|X]; contradiction]].
      destruct D as [D|[D|[D|D]]]; try contradiction.
      * apply (Load ts ts); auto; [now apply has_data_content|now apply strip_none|]. right. split; [now apply take_root_none|]. auto.
      * injection D as -> ->. unfold LoadTargetedEntity. cbn [children_of WriteExtra].
        unfold LoadEntityExtra. rewrite filter_extra_app by exact FE. change (filter (fun n => named n "extra") (WriteExtra [([], [])])) with (@nil xml). cbn [fold_left]. rewrite default_type_same; [|intros n Hn|discriminate|reflexivity].
        -- reflexivity.
        -- apply in_app_iff in Hn. cbn [app In] in Hn. apply F. exact Hn.
    + cbn [WriteEntityExtra]. rewrite has_parameter. fold (un (c :: note) ts). rewrite lost_parameter. cbn [option_map].
      do 3 eexists. split; [reflexivity|]. split; [|split; [|split; [discriminate|]]].
      * intro X. unfold un. rewrite released; auto.
      * assert (SA : strip (un (c :: note) ts) [] = (AddTechnique_then (tx "FCOLLADA") (fun y => y) ts, c :: note)) by (unfold un; now rewrite strip_one by assumption).
        assert (KEEP : forall p n t attrs kids, In (p, ENode n t attrs kids) (AddTechnique_then (tx "FCOLLADA") (fun y => y) ts) ->
                         In (p, ENode n t attrs kids) ts \/ kids = []).
        { intros p n t attrs kids Hin. assert (E : AddTechnique_then (tx "FCOLLADA") (fun y => y) ts = AddTechnique_then (tx "FCOLLADA") (fun y : technique => (fst y, (fun z => z) (snd y))) ts).
          { clear. unfold AddTechnique_then. induction ts as [|[q y] l IH]; [reflexivity|]. rewrite !add_then_cons. cbn [fst snd]. now rewrite IH. }
          rewrite E in Hin. destruct (in_add_kid _ _ (fun z => z) _ _ Hin) as [G|[-> [(y & G & <-)|G]]]; auto. injection G as _ _ _ ->. auto. }
        apply (Load _ (AddTechnique_then (tx "FCOLLADA") (fun y => y) ts)); auto.
        -- eapply sound_first; eauto. apply sound_added; auto; apply plain_user.
        -- apply content_added.
        -- intros n t attrs kids x H1 H2. destruct (KEEP _ _ _ _ _ H1) as [G| ->]; [exact (CM _ _ _ _ _ G H2)|destruct H2].
        -- intros n t attrs kids x H1 H2. destruct (KEEP _ _ _ _ _ H1) as [G| ->]; [exact (CX _ _ _ _ _ G H2)|destruct H2].
        -- intros n t attrs kids x H1 H2. destruct (KEEP _ _ _ _ _ H1) as [G| ->]; [exact (CF _ _ _ _ _ G H2)|destruct H2].
        -- right. split; [|auto]. apply take_root_none. intros p n t attrs kids m t' attrs' kids' H1 H2.
           destruct (KEEP _ _ _ _ _ H1) as [G| ->]; [exact (UT _ _ _ _ _ _ _ _ _ G H2)|destruct H2].
      * intros _. apply add_technique_with.
Qed.
Print Assumptions C105_entity_partial.
(** A user's own parameter named "note" in a MAYA technique becomes the note of an entity that has none, and leaves the tree; with a note,
    the parameter is lost. *)
Definition maya_note : extra := [([], [(tx "MAYA", ENode [] [] [] [ENode (tx "note") (tx "C sharp") [] []; ENode (tx "a") (tx "1") [] []])])].
Definition saved_entity (e : extra) (note : str) (target : option str) : option (extra * str * str) :=
  match WriteTargetedEntityExtra e note target with Some (l, _) => LoadTargetedEntity (Elem (tx "light") [] l) | None => None end.
Theorem C105_note_refuted :
  saved_entity maya_note [] None = Some ([([], [(tx "MAYA", ENode [] [] [] [ENode (tx "a") (tx "1") [] []])])], tx "C sharp", []) /\
  saved_entity maya_note (tx "mine") None =
    Some ([([], [(tx "MAYA", ENode [] [] [] [ENode (tx "a") (tx "1") [] []]); (tx "FCOLLADA", ENode [] [] [] [])])], tx "mine", []).
Proof. split; vm_compute; reflexivity. Qed.
Print Assumptions C105_note_refuted.
(** A user's own node named "target" in any technique becomes the target; with a target, it takes its place. *)
Definition user_target : extra := [([], [(tx "MY_TOOL", ENode [] [] [] [ENode (tx "target") (tx "10 kg") [] []])])].
Theorem C105_target_refuted :
  saved_entity user_target [] None = Some ([([], [(tx "MY_TOOL", ENode [] [] [] [])])], [], tx "10 kg") /\
  saved_entity user_target [] (Some (tx "node")) =
    Some ([([], [(tx "MY_TOOL", ENode [] [] [] []); (tx "FCOLLADA", ENode [] [] [] [ENode (tx "target") (tx "#node") [] []])])], [], tx "10 kg").
Proof. split; vm_compute; reflexivity. Qed.
Print Assumptions C105_target_refuted.
(** Writing an entity with a note releases a technique of the user that has no children. *)
Theorem C105_export_refuted :
  exists e note l e', WriteTargetedEntityExtra e note None = Some (l, e') /\
    e = [([], [(tx "FCOLLADA", ENode [] [] [(tx "a", tx "1")] [])])] /\ e' = [([], [])].
Proof. exists [([], [(tx "FCOLLADA", ENode [] [] [(tx "a", tx "1")] [])])], (tx "x"). do 2 eexists. split; [vm_compute; reflexivity|]. split; reflexivity. Qed.
Print Assumptions C105_export_refuted.
(** Without the default type (renamed by SetName) writing a note uses a NULL pointer. *)
Theorem C105_default_type_refuted :
  do_calls [SetTypeName 0 (tx "mine")] = [(tx "mine", [])] /\ WriteTargetedEntityExtra (do_calls [SetTypeName 0 (tx "mine")]) (tx "x") None = None.
Proof. split; vm_compute; reflexivity. Qed.
Print Assumptions C105_default_type_refuted.
Definition lamp_data : extra := [([], [(tx "MY_TOOL", ENode [] [] [] [ENode (tx "a") (tx "1") [] []])]); (tx "x", [])].
Example C105_demo : exists l,
  WriteTargetedEntityExtra lamp_data (tx "a lamp") (Some (tx "node-1")) = Some (l, lamp_data) /\
  LoadTargetedEntity (Elem (tx "light") [] ([Elem (tx "technique_common") [] []] ++ l ++ [])) =
    Some ([([], [(tx "MY_TOOL", ENode [] [] [] [ENode (tx "a") (tx "1") [] []]); (tx "FCOLLADA", ENode [] [] [] [])]); (tx "x", [])], tx "a lamp", tx "#node-1") /\
  sound_extra lamp_data /\ has_data lamp_data /\ no_notes lamp_data /\ no_targets lamp_data /\ ~ empty_technique (tx "FCOLLADA") lamp_data.
Proof.
  eexists. split; [vm_compute; reflexivity|]. split; [vm_compute; reflexivity|].
  split; [|split; [|split; [|split]]].
  - split; [reflexivity|]. split; [cbn; repeat (apply NoDup_cons; [cbn; intuition discriminate|]); apply NoDup_nil|].
    intros t [<-|[<-|[]]]; (split; [try apply plain_nil; plain_of|]); cbn [snd]; (split; [cbn; repeat (apply NoDup_cons; [cbn; intuition discriminate|]); apply NoDup_nil|]); intros x Hx;
      [|destruct Hx]. destruct Hx as [<-|[]]. split; [plain_of|]. eexists. split; [reflexivity|]. intros y [<-|[]].
    constructor; [discriminate| | |apply attributes_nil|intros ? []|auto|intros ? []].
    + change (plain_name (CleanENodeName (tx "a"))). apply clean_plain.
    + plain_of.
  - unfold has_data, lamp_data. do 8 eexists. split; [left; reflexivity|]. left. reflexivity.
  - intros ts p n t attrs kids x H1 H2 H3 _ _. destruct H1 as [H1|[H1|[]]]; [|discriminate]. injection H1 as <-. destruct H2 as [H2|[]]. injection H2 as <- _ _ _ _.
    destruct H3 as [H3|[H3|H3]]; vm_compute in H3; discriminate H3.
  - intros ts p n t attrs kids m t' a' k' H1 H2 H3. destruct H1 as [H1|[H1|[]]]; [|discriminate]. injection H1 as <-. destruct H2 as [H2|[]]. injection H2 as <- <- <- <- <-.
    destruct H3 as [H3|[]]. injection H3 as <- _ _ _. intro X. vm_compute in X. discriminate X.
  - intros (ts & n & t & b & H1 & H2). destruct H1 as [H1|[H1|[]]]; [|discriminate]. injection H1 as <-. destruct H2 as [H2|[]]. discriminate.
Qed.
