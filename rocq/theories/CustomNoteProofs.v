(** Notes and targets in extra trees. *)
From Coq Require Import String List ZArith Bool Lia.
From Verif Require Import TextModel StringModel StringProofs XmlModel XmlProofs UniqueSpec IdModel IdProps DaeModel DaeSpec DaeProofs ExtraModel ExtraProps CustomModel CustomSpec CustomProofs.
Import ListNotations.
Local Open Scope Z_scope.
Local Open Scope list_scope.
Local Notation FC := (tx "FCOLLADA").

Lemma add_then_cons {A} (key : A -> str) mk k f a l :
  add_then key mk k f (a :: l) = if str_eq_dec (key a) k then f a :: l else a :: add_then key mk k f l.
Proof. reflexivity. Qed.
Lemma find_default ts r : find (fun t : etype => if str_eq_dec (fst t) [] then true else false) (([], ts) :: r) = Some ([], ts).
Proof. cbn. reflexivity. Qed.
Lemma default_first f ts r : default_then f (([], ts) :: r) = Some (f ([], ts) :: r).
Proof. cbn. reflexivity. Qed.

(** *** Extraction of notes *)
Definition strip (ts : list technique) (note : str) : list technique * str :=
  let '(ts1, note1) := take_notes_of (tx "MAYA") ts note in
  let '(ts2, note2) := take_notes_of (tx "MAX3D") ts1 note1 in
  take_notes_of FC ts2 note2.
Lemma extract_first ts r note : ExtractNote (([], ts) :: r) note = Some (([], fst (strip ts note)) :: r, snd (strip ts note)).
Proof.
  unfold ExtractNote, strip. rewrite default_first, find_default. destruct (take_notes_of (tx "MAYA") ts note) as [ts1 n1].
  destruct (take_notes_of (tx "MAX3D") ts1 n1) as [ts2 n2]. destruct (take_notes_of FC ts2 n2) as [ts3 n3]. reflexivity.
Qed.
Lemma is_note_iff x : is_note x = true <-> note_like x.
Proof.
  destruct x as [n t attrs kids]. unfold is_note, note_like. destruct kids as [|k kids].
  - rewrite orb_true_iff, !eq_text. split; [intros H; exists n, t, attrs; auto|]. intros (n' & t' & a' & E & H). injection E as -> -> ->. exact H.
  - split; [discriminate|]. intros (n' & t' & a' & E & H). discriminate.
Qed.
Definition clean_in (p : str) (ts : list technique) : Prop :=
  forall n t attrs kids k, In (p, ENode n t attrs kids) ts -> In k kids -> is_note k = false.
Lemma filter_all {A} f (l : list A) : (forall k, In k l -> f k = false) -> filter f l = [] /\ filter (fun k => negb (f k)) l = l.
Proof.
  induction l as [|k l IH]; cbn [filter]; intro H; [auto|]. rewrite H by (left; reflexivity). cbn [negb].
  destruct IH as [E1 E2]; [intros; apply H; right; assumption|]. rewrite E1, E2. auto.
Qed.
Lemma take_none p ts note : clean_in p ts -> take_notes_of p ts note = (ts, note).
Proof.
  induction ts as [|[q x] r IH]; cbn [take_notes_of]; intro C; [reflexivity|]. cbn [fst snd]. destruct (str_eq_dec q p) as [->|N].
  - destruct x as [n t attrs kids]. cbn [take_notes]. destruct (filter_all is_note kids) as [E1 E2]; [intros k Hk; apply (C n t attrs kids); [left; reflexivity|exact Hk]|].
    rewrite E1, E2. reflexivity.
  - rewrite IH; [reflexivity|]. intros n t attrs kids k Hin Hk. apply (C n t attrs kids k); [right; exact Hin|exact Hk].
Qed.
Lemma strip_none ts note : clean_in (tx "MAYA") ts -> clean_in (tx "MAX3D") ts -> clean_in FC ts -> strip ts note = (ts, note).
Proof. intros A B C. unfold strip. rewrite take_none by exact A. rewrite take_none by exact B. now rewrite take_none by exact C. Qed.
Lemma in_add_kid p q f ts x : In (p, x) (AddTechnique_then q (fun y : technique => (fst y, f (snd y))) ts) ->
  In (p, x) ts \/ p = q /\ ((exists y, In (q, y) ts /\ x = f y) \/ x = f new_node).
Proof.
  unfold AddTechnique_then. induction ts as [|[r y] l IH]; cbn [add_then].
  - intros [E|[]]. cbn in E. injection E as <- <-. right. auto.
  - destruct (str_eq_dec _ q) as [K|K]; cbn [fst] in K.
    + subst r. intros [E|H]; [|left; right; exact H]. cbn in E. injection E as <- <-. right. split; [reflexivity|]. left. exists y. cbn. auto.
    + intros [E|H]; [left; left; exact E|]. destruct (IH H) as [G|[-> [(z & G & ->)|G]]]; [left; right; exact G| |]; right; split; auto.
      left. exists z. split; [right; exact G|reflexivity].
Qed.
Lemma clean_other p q name v ts : p <> q -> clean_in p ts ->
  clean_in p (AddTechnique_then q (fun y : technique => (fst y, AddParameter name v (snd y))) ts).
Proof.
  intros N C n t attrs kids k H Hk. destruct (in_add_kid p q _ ts _ H) as [G|[E _]]; [exact (C _ _ _ _ _ G Hk)|contradiction].
Qed.
Lemma clean_same q name v ts : is_note (ENode (CleanENodeName (tx name)) v [] []) = false -> clean_in q ts ->
  clean_in q (AddTechnique_then q (fun y : technique => (fst y, AddParameter name v (snd y))) ts).
Proof.
  intros N C n t attrs kids k H Hk. destruct (in_add_kid q q _ ts _ H) as [G|[_ [([n0 t0 a0 k0] & G & E)|E]]]; [exact (C _ _ _ _ _ G Hk)| |].
  - cbn [AddParameter] in E. injection E as -> -> -> ->. apply in_app_iff in Hk. destruct Hk as [Hk|[<-|[]]]; [exact (C _ _ _ _ _ G Hk)|exact N].
  - cbn in E. injection E as -> -> -> ->. destruct Hk as [<-|[]]. exact N.
Qed.
Lemma take_one v ts note : clean_in FC ts ->
  take_notes_of FC (AddTechnique_then FC (fun y : technique => (fst y, AddParameter "user_properties" v (snd y))) ts) note
  = (AddTechnique_then FC (fun y => y) ts, v).
Proof.
  unfold AddTechnique_then. intro C. induction ts as [|[q x] r IH]; [reflexivity|]. rewrite ?add_then_cons. cbn [fst snd].
  destruct (str_eq_dec q FC) as [->|N].
  - cbn [take_notes_of fst]. destruct (str_eq_dec FC FC) as [_|N]; [|contradiction]. destruct x as [n t attrs kids]. cbn [AddParameter take_notes snd].
    destruct (filter_all is_note kids) as [E1 E2]; [intros k Hk; apply (C n t attrs kids); [left; reflexivity|exact Hk]|].
    rewrite !filter_app, E1, E2. cbn. now rewrite app_nil_r.
  - cbn [take_notes_of fst]. destruct (str_eq_dec q FC) as [E|_]; [contradiction|]. rewrite IH; [reflexivity|].
    intros n t attrs kids k Hin Hk. apply (C n t attrs kids k); [right; exact Hin|exact Hk].
Qed.
Lemma maya_fc : tx "MAYA" <> FC. Proof. intro X. vm_compute in X. discriminate X. Qed.
Lemma max_fc : tx "MAX3D" <> FC. Proof. intro X. vm_compute in X. discriminate X. Qed.
Lemma strip_one v ts note : clean_in (tx "MAYA") ts -> clean_in (tx "MAX3D") ts -> clean_in FC ts ->
  strip (AddTechnique_then FC (fun y : technique => (fst y, AddParameter "user_properties" v (snd y))) ts) note
  = (AddTechnique_then FC (fun y => y) ts, v).
Proof.
  intros A B C. unfold strip. rewrite take_none by (apply clean_other; [exact maya_fc|exact A]).
  rewrite take_none by (apply clean_other; [exact max_fc|exact B]). now apply take_one.
Qed.

(** *** Loading what was written *)
Lemma load_rest l : forall ts r0 note,
  clean_in (tx "MAYA") ts -> clean_in (tx "MAX3D") ts -> clean_in FC ts ->
  NoDup (map fst l) -> ~ In [] (map fst l) -> (forall t, In t l -> sound_type t) -> (forall t, In t l -> ~ In (fst t) (map fst r0)) ->
  LoadEntityExtra (map type_xml l) (([], ts) :: r0) note = Some (([], ts) :: r0 ++ l, note).
Proof.
  unfold LoadEntityExtra. induction l as [|t l IH]; intros ts r0 note A B C ND N0 S H; cbn [map filter]; [cbn; now rewrite app_nil_r|].
  rewrite type_named. cbn [fold_left]. inversion ND as [|? ? Nx NDr]; subst.
  assert (P := S t (or_introl eq_refl)).
  assert (E : LoadExtra (type_xml t) (([], ts) :: r0) = Some (([], ts) :: r0 ++ [t])).
  { unfold LoadExtra. rewrite type_named, type_name by apply P. unfold AddType_then. f_equal. rewrite add_then_new.
    - unfold new_type. rewrite load_type; [|exact P|intros x _ []]. cbn [app]. do 3 f_equal. now destruct t.
    - cbn [map fst]. intros [E|E]; [apply N0; cbn [map]; left; symmetry; exact E|]. apply (H t); [left; reflexivity|exact E]. }
  rewrite E, extract_first, strip_none by assumption. cbn [fst snd].
  replace (r0 ++ t :: l) with ((r0 ++ [t]) ++ l) by now rewrite <- app_assoc. apply IH; auto with datatypes.
  - intro I. apply N0. right. exact I.
  - intros y Hy Hin. rewrite map_app in Hin. apply in_app_iff in Hin. destruct Hin as [Hin|[Hin|[]]].
    + apply (H y); auto with datatypes.
    + apply Nx. rewrite Hin. now apply in_map.
Qed.
Lemma first_back ts : sound_type ([], ts) -> LoadExtra (type_xml ([], ts)) new_extra = Some [([], ts)].
Proof.
  intro S. unfold LoadExtra. rewrite type_named, type_name by apply S. cbn [fst]. unfold AddType_then, new_extra, new_type. cbn [add_then fst].
  destruct (str_eq_dec [] []) as [_|N]; [|contradiction].
  change (([], []) : etype) with ((fst ([] : str, ts), []) : etype). rewrite load_type; [reflexivity|exact S|intros y _ []].
Qed.
(** Loading a sound tree whose notes leave clean techniques. *)
Lemma entity_back before after ts r note0 :
  (forall n, In n before \/ In n after -> named n "extra" = false) ->
  sound_extra (([], ts) :: r) -> HasContent (([], ts) :: r) = true ->
  clean_in (tx "MAYA") (fst (strip ts note0)) -> clean_in (tx "MAX3D") (fst (strip ts note0)) -> clean_in FC (fst (strip ts note0)) ->
  LoadEntityExtra (before ++ WriteExtra (([], ts) :: r) ++ after) new_extra note0 = Some (([], fst (strip ts note0)) :: r, snd (strip ts note0)).
Proof.
  intros F Se HC A B C. unfold LoadEntityExtra. rewrite filter_extra_app by exact F. rewrite written_form by assumption.
  destruct Se as (_ & ND & S). inversion ND as [|? ? N NDr]; subst. cbn [fst] in N.
  destruct ts as [|x ts].
  - cbn [app]. apply (load_rest r [] [] note0); auto with datatypes; intros ? ? ? ? ? [].
  - cbn [app filter]. rewrite type_named. cbn [fold_left]. rewrite first_back by (apply S; left; reflexivity). rewrite extract_first.
    apply (load_rest r _ [] (snd (strip (x :: ts) note0))); auto with datatypes.
Qed.

(** *** The parameters that are added for the export *)
Lemma sound_parameter name v : plain_name (tx name) -> tx name <> [] -> plain v -> sound_node (ENode (CleanENodeName (tx name)) v [] []).
Proof.
  intros P N V. rewrite plain_clean by exact P. constructor; auto; try (intros ? []; fail). split; constructor.
Qed.
Lemma fc_plain : plain FC.
Proof. split; [apply Forall_forall; intros c Hc; vm_compute in Hc; repeat (destruct Hc as [<-|Hc]; [lia|]); destruct Hc|]. intro X. vm_compute in X. intuition discriminate. Qed.
Lemma sound_added name v ts : plain_name (tx name) -> tx name <> [] -> plain v -> sound_type ([], ts) ->
  sound_type ([], AddTechnique_then FC (fun y : technique => (fst y, AddParameter name v (snd y))) ts).
Proof.
  intros P N V (Pl & ND & S). split; [exact Pl|]. cbn [fst snd] in *. split; [apply add_then_nodup; auto|].
  intros [p x] H. destruct (in_add_kid p FC _ ts x H) as [G|[-> [(y & G & ->)| ->]]]; [exact (S _ G)| |].
  - destruct (S _ G) as [_ (kids & E & K)]. cbn [snd] in E. subst y. split; [exact fc_plain|]. eexists. split; [reflexivity|].
    intros k Hk. apply in_app_iff in Hk. destruct Hk as [Hk|[<-|[]]]; [auto|now apply sound_parameter].
  - split; [exact fc_plain|]. eexists. split; [reflexivity|]. intros k [<-|[]]. now apply sound_parameter.
Qed.
Lemma sound_first ts ts' r : sound_extra (([], ts) :: r) -> sound_type ([], ts') -> sound_extra (([], ts') :: r).
Proof.
  intros (_ & ND & S) T. split; [reflexivity|]. split; [exact ND|]. intros t [<-|H]; [exact T|apply S; right; exact H].
Qed.
Lemma content_added name v ts r : HasContent (([], AddTechnique_then FC (fun y : technique => (fst y, AddParameter name v (snd y))) ts) :: r) = true.
Proof.
  unfold HasContent. cbn [existsb]. apply orb_true_iff. left. cbn [snd]. unfold AddTechnique_then.
  induction ts as [|[q [n t a k]] l IH]; [reflexivity|]. rewrite ?add_then_cons. destruct (str_eq_dec (fst (q, ENode n t a k)) FC); cbn [existsb fst snd AddParameter].
  - destruct (k ++ _) eqn:E; [destruct k; discriminate|reflexivity].
  - rewrite IH. apply orb_true_r.
Qed.
Lemma has_parameter name v ts r : with_parameter name v (([], ts) :: r) =
  Some (([], AddTechnique_then FC (fun y : technique => (fst y, AddParameter name v (snd y))) ts) :: r).
Proof. unfold with_parameter. now rewrite default_first. Qed.
Lemma lost_parameter ts r : without_parameter (([], ts) :: r) = Some (([], release_parameter ts) :: r).
Proof. unfold without_parameter. now rewrite default_first. Qed.
(** After the export the technique is as before, unless it was there without children. *)
Lemma released name v ts : (forall n t a, ~ In (FC, ENode n t a []) ts) ->
  release_parameter (AddTechnique_then FC (fun y : technique => (fst y, AddParameter name v (snd y))) ts) = ts.
Proof.
  unfold AddTechnique_then. induction ts as [|[q [n t a k]] l IH]; intro H; [reflexivity|]. rewrite ?add_then_cons. cbn [fst snd].
  destruct (str_eq_dec q FC) as [->|N].
  - cbn [release_parameter fst]. destruct (str_eq_dec FC FC) as [_|N]; [|contradiction]. cbn [snd AddParameter drop_parameter].
    rewrite removelast_last. destruct k as [|x k]; [exfalso; apply (H n t a); left; reflexivity|reflexivity].
  - cbn [release_parameter fst]. destruct (str_eq_dec q FC) as [E|_]; [contradiction|]. rewrite IH; [reflexivity|]. intros n' t' a' Hin.
    apply (H n' t' a'). right. exact Hin.
Qed.
Lemma released_twice name v name' v' ts : (forall n t a, ~ In (FC, ENode n t a []) ts) ->
  release_parameter (release_parameter (AddTechnique_then FC (fun y : technique => (fst y, AddParameter name' v' (snd y)))
    (AddTechnique_then FC (fun y : technique => (fst y, AddParameter name v (snd y))) ts))) = ts.
Proof.
  intro H. rewrite released; [now apply released|]. intros n t a Hin. destruct (in_add_kid _ _ _ _ _ Hin) as [G|[_ [([n0 t0 a0 k0] & _ & E)|E]]].
  - exact (H _ _ _ G).
  - cbn in E. destruct k0; discriminate.
  - cbn in E. discriminate.
Qed.

(** *** The target *)
Lemma take_child_none l : (forall m t a k, In (ENode m t a k) l -> m <> tx "target") -> take_child (tx "target") l = None.
Proof.
  induction l as [|[m t a k] l IH]; cbn [take_child]; intro H; [reflexivity|].
  destruct (str_eq_dec m (tx "target")) as [E|_]; [exfalso; apply (H m t a k); [left; reflexivity|exact E]|].
  rewrite IH; [reflexivity|]. intros; eapply H; right; eassumption.
Qed.
Lemma take_child_last v l : (forall m t a k, In (ENode m t a k) l -> m <> tx "target") ->
  take_child (tx "target") (l ++ [ENode (CleanENodeName (tx "target")) v [] []]) = Some (v, l).
Proof.
  induction l as [|[m t a k] l IH]; intro H; [reflexivity|]. cbn [take_child app].
  destruct (str_eq_dec m (tx "target")) as [E|_]; [exfalso; apply (H m t a k); [left; reflexivity|exact E]|].
  rewrite IH; [reflexivity|]. intros; eapply H; right; eassumption.
Qed.
Definition untargeted (ts : list technique) : Prop :=
  forall p n t attrs kids m t' attrs' kids', In (p, ENode n t attrs kids) ts -> In (ENode m t' attrs' kids') kids -> m <> tx "target".
Lemma untargeted_tail x ts : untargeted (x :: ts) -> untargeted ts.
Proof. intros H p n t attrs kids m t' attrs' kids' H1 H2. exact (H p n t attrs kids m t' attrs' kids' (or_intror H1) H2). Qed.
Lemma take_root_none ts : untargeted ts -> take_root (tx "target") ts = None.
Proof.
  induction ts as [|[p [n t a kids]] r IH]; intro H; [reflexivity|]. cbn [take_root]. rewrite take_child_none.
  - rewrite IH; [reflexivity|]. eapply untargeted_tail; eauto.
  - intros m t' a' k' Hin. exact (H p n t a kids m t' a' k' (or_introl eq_refl) Hin).
Qed.
Lemma take_root_one v ts : untargeted ts ->
  take_root (tx "target") (AddTechnique_then FC (fun y : technique => (fst y, AddParameter "target" v (snd y))) ts)
  = Some (v, AddTechnique_then FC (fun y => y) ts).
Proof.
  unfold AddTechnique_then. induction ts as [|[p [n t a kids]] r IH]; intro H; [reflexivity|]. rewrite ?add_then_cons. cbn [fst snd].
  destruct (str_eq_dec p FC) as [->|N].
  - cbn [AddParameter take_root]. rewrite take_child_last; [reflexivity|]. intros m t' a' k' Hin. exact (H FC n t a kids m t' a' k' (or_introl eq_refl) Hin).
  - cbn [take_root]. rewrite take_child_none.
    + rewrite IH; [reflexivity|]. eapply untargeted_tail; eauto.
    + intros m t' a' k' Hin. exact (H p n t a kids m t' a' k' (or_introl eq_refl) Hin).
Qed.
Lemma untargeted_added name v ts : CleanENodeName (tx name) <> tx "target" -> untargeted ts ->
  untargeted (AddTechnique_then FC (fun y : technique => (fst y, AddParameter name v (snd y))) ts).
Proof.
  intros N H p n t attrs kids m t' attrs' kids' H1 H2. destruct (in_add_kid _ _ _ _ _ H1) as [G|[-> [([n0 t0 a0 k0] & G & E)|E]]].
  - exact (H _ _ _ _ _ _ _ _ _ G H2).
  - cbn [AddParameter] in E. injection E as -> -> -> ->. apply in_app_iff in H2. destruct H2 as [H2|[H2|[]]]; [exact (H _ _ _ _ _ _ _ _ _ G H2)|].
    injection H2 as <- _ _ _. exact N.
  - cbn in E. injection E as -> -> -> ->. destruct H2 as [H2|[]]. injection H2 as <- _ _ _. exact N.
Qed.
(** AddTechnique without more: an empty technique, or nothing. *)
Lemma add_technique_with ts r : with_technique FC (([], ts) :: r) (([], AddTechnique_then FC (fun y => y) ts) :: r).
Proof.
  destruct (in_dec str_eq_dec FC (map fst ts)) as [I|N].
  - replace (AddTechnique_then FC (fun y => y) ts) with ts; [now constructor|]. unfold AddTechnique_then. clear -I.
    induction ts as [|[p x] l IH]; [destruct I|]. rewrite ?add_then_cons. cbn [fst map In] in *.
    destruct (str_eq_dec p FC) as [_|N]; [reflexivity|]. destruct I as [I|I]; [contradiction|]. now rewrite <- IH.
  - unfold AddTechnique_then. rewrite add_then_new by exact N. now constructor.
Qed.
Lemma add_technique_idem f ts : AddTechnique_then FC (fun y => y) (AddTechnique_then FC (fun y : technique => (fst y, f (snd y))) ts)
  = AddTechnique_then FC (fun y : technique => (fst y, f (snd y))) ts.
Proof.
  unfold AddTechnique_then. induction ts as [|[p x] l IH]; [reflexivity|]. rewrite ?add_then_cons. cbn [fst snd].
  destruct (str_eq_dec p FC) as [->|N].
  - rewrite ?add_then_cons. cbn [fst]. destruct (str_eq_dec FC FC) as [_|N]; [reflexivity|contradiction].
  - rewrite ?add_then_cons. cbn [fst]. destruct (str_eq_dec p FC) as [E|_]; [contradiction|]. now rewrite IH.
Qed.
Lemma default_type_same k a l e : (forall n, In n l -> named n "technique" = false) -> e <> [] -> hd_error (map fst e) = Some [] ->
  default_then (LoadExtraType (Elem k a l)) e = Some e.
Proof.
  intros H N HD. destruct (first_type e HD) as (ts & r & ->). rewrite default_first. do 2 f_equal. unfold LoadExtraType. cbn [children_of fst snd].
  f_equal. replace (filter (fun m => named m "technique") l) with (@nil xml); [reflexivity|]. clear -H.
  induction l as [|n l IH]; cbn [filter]; [reflexivity|]. rewrite H by (left; reflexivity). apply IH. intros; apply H; right; assumption.
Qed.
