(** Writing and loading extra trees. *)
From Coq Require Import String List ZArith Bool Lia.
From Verif Require Import TextModel StringModel StringProofs XmlModel XmlProofs UniqueSpec IdModel IdProps DaeModel DaeSpec DaeProofs ExtraModel ExtraProps CustomModel CustomSpec.
Import ListNotations.
Local Open Scope Z_scope.
Local Open Scope list_scope.

Lemma eq_text a b : text_eq a b = true <-> a = b.
Proof. apply text_eq_spec. Qed.
Lemma eq_text_refl a : text_eq a a = true.
Proof. now apply eq_text. Qed.

(** *** Nodes *)
Lemma content_back t : plain t -> XmlToString (flat_map all_text (content (AddContent t))) = t.
Proof.
  intros [B N]. assert (E : XmlToString (AddContent t) = t) by (apply round_trip_text; [exact B|intros c Hc _ ->; auto]).
  destruct (AddContent t) as [|c r] eqn:A; [exact E|]. cbn [content flat_map all_text]. rewrite app_nil_r. exact E.
Qed.
Lemma content_no_elements t : flat_map (fun m => if is_element m then [LoadExtraNode m] else []) (content t) = [].
Proof. destruct t; reflexivity. Qed.
Lemma attributes_back attrs : attributes_ok attrs -> fold_left (fun l p => AddAttribute (fst p) (snd p) l) attrs [] = attrs.
Proof.
  intros [ND PN]. rewrite fold_attributes by exact PN.
  rewrite (fold_add_then _ fst new_attribute (fun (a b : attribute) => (fst b, snd a))); auto.
  cbn. transitivity (map (fun a : attribute => a) attrs); [|apply map_id]. apply map_ext. intros [u v]; reflexivity.
Qed.
Lemma written_is_element x : is_element (WriteExtraNode x) = true.
Proof. destruct x. reflexivity. Qed.
Lemma nodes_back kids : (forall k, In k kids -> LoadExtraNode (WriteExtraNode k) = k) ->
  flat_map (fun m => if is_element m then [LoadExtraNode m] else []) (map WriteExtraNode kids) = kids.
Proof.
  induction kids as [|k r IH]; cbn [map flat_map]; intro H; [reflexivity|].
  rewrite written_is_element, H by (left; reflexivity). cbn [app]. f_equal. apply IH. intros; apply H; right; assumption.
Qed.
Lemma node_back x : sound_node x -> LoadExtraNode (WriteExtraNode x) = x.
Proof.
  induction x as [n t attrs kids IH] using enode_ind'. intro S. inversion S as [? ? ? ? N P PT A _ M K]; subst.
  cbn [WriteExtraNode LoadExtraNode].
  assert (E : flat_map (fun m => if is_element m then [LoadExtraNode m] else []) (content (AddContent t) ++ map WriteExtraNode kids) = kids).
  { rewrite flat_map_app, content_no_elements. cbn [app]. apply nodes_back. intros k Hk. rewrite Forall_forall in IH. auto. }
  rewrite E, attributes_back by exact A. rewrite plain_clean by exact P. f_equal.
  destruct kids as [|k r]; [|destruct M as [M|M]; [discriminate|now rewrite M]].
  unfold ReadNodeContentFull. cbn [all_text map]. rewrite app_nil_r. apply content_back, PT.
Qed.

(** *** Techniques *)
Definition technique_xml (x : technique) : xml :=
  match snd x with ENode _ _ _ kids => Elem (tx "technique") [(tx "profile", fst x)] (map WriteExtraNode kids) end.
Lemma technique_profile x : plain (fst x) -> ReadNodeProperty (technique_xml x) "profile" = fst x.
Proof.
  destruct x as [p [n t a kids]]. cbn [technique_xml fst snd ReadNodeProperty]. intro P. cbn [find_attr]. rewrite eq_text_refl.
  now apply plain_same.
Qed.
Lemma technique_named x : named (technique_xml x) "technique" = true.
Proof. destruct x as [p [n t a kids]]. unfold technique_xml, named, snd. apply eq_text_refl. Qed.
Lemma write_technique_new l x :
  (forall m, In m l -> ReadNodeProperty m "profile" <> fst x) -> WriteExtraTechnique l x = l ++ [technique_xml x].
Proof.
  destruct x as [p [n t a kids]]. cbn [fst]. unfold WriteExtraTechnique, technique_xml. cbn [fst snd].
  induction l as [|m r IH]; intro H; cbn [AddTechniqueChild_then app]; [reflexivity|].
  destruct (text_eq (ReadNodeProperty m "profile") p) eqn:E.
  - apply eq_text in E. exfalso. apply (H m); [left; reflexivity|exact E].
  - rewrite andb_false_r, IH; [reflexivity|]. intros; apply H; right; assumption.
Qed.
Lemma write_techniques ts : forall l, NoDup (map fst ts) -> (forall x, In x ts -> plain (fst x)) ->
  (forall m x, In m l -> In x ts -> ReadNodeProperty m "profile" <> fst x) ->
  fold_left WriteExtraTechnique ts l = l ++ map technique_xml ts.
Proof.
  induction ts as [|x r IH]; intros l ND P H; cbn [fold_left map]; [now rewrite app_nil_r|].
  inversion ND as [|? ? Nx NDr]; subst. rewrite write_technique_new.
  - rewrite IH; auto with datatypes.
    + now rewrite <- app_assoc.
    + intros m y Hm Hy. apply in_app_iff in Hm. destruct Hm as [Hm|[<-|[]]]; [apply H; auto with datatypes|].
      rewrite technique_profile by (apply P; left; reflexivity). intro E. apply Nx. rewrite E. now apply in_map.
  - intros m Hm. apply H; auto with datatypes.
Qed.
Lemma load_techniques ts : forall l, NoDup (map fst ts) -> (forall x, In x ts -> sound_technique x) ->
  (forall x, In x ts -> ~ In (fst x) (map fst l)) ->
  fold_left (fun ts m => AddTechnique_then (ReadNodeProperty m "profile") (fun x => (fst x, LoadExtraNodeChildren m (snd x))) ts)
            (map technique_xml ts) l = l ++ ts.
Proof.
  induction ts as [|x r IH]; intros l ND S H; cbn [fold_left map]; [now rewrite app_nil_r|].
  inversion ND as [|? ? Nx NDr]; subst. destruct (S x (or_introl eq_refl)) as [P (kids & Ek & Sk)].
  assert (E : AddTechnique_then (ReadNodeProperty (technique_xml x) "profile")
                (fun y => (fst y, LoadExtraNodeChildren (technique_xml x) (snd y))) l = l ++ [x]).
  { rewrite technique_profile by exact P. unfold AddTechnique_then. rewrite add_then_new by (apply H; left; reflexivity).
    do 2 f_equal. destruct x as [p y]. cbn [fst snd] in *. subst y.
    cbn [new_technique fst snd new_node LoadExtraNodeChildren technique_xml children_of app].
    do 2 f_equal. apply nodes_back. intros k Hk. apply node_back. auto. }
  rewrite E, IH; auto with datatypes.
  - now rewrite <- app_assoc.
  - intros y Hy Hin. rewrite map_app in Hin. apply in_app_iff in Hin. destruct Hin as [Hin|[Hin|[]]].
    + apply (H y); auto with datatypes.
    + apply Nx. rewrite Hin. now apply in_map.
Qed.

(** *** Types *)
Definition type_xml (t : etype) : xml :=
  Elem (tx "extra") (match fst t with [] => [] | _ => [(tx "type", fst t)] end) (map technique_xml (snd t)).
Lemma type_name t : plain (fst t) -> ReadNodeProperty (type_xml t) "type" = fst t.
Proof.
  destruct t as [n ts]. unfold type_xml. cbn [fst snd]. intro P. destruct n as [|c n]; [reflexivity|].
  cbn [ReadNodeProperty find_attr]. rewrite eq_text_refl. now apply plain_same.
Qed.
Lemma write_type t : sound_type t -> WriteExtraType t = match fst t, snd t with [], [] => [] | _, _ => [type_xml t] end.
Proof.
  intros (P & ND & S). destruct t as [n ts]. unfold WriteExtraType, type_xml. cbn [fst snd] in *.
  assert (E : fold_left WriteExtraTechnique ts [] = map technique_xml ts).
  { rewrite write_techniques; auto. intros x Hx. apply S, Hx. }
  destruct n; [destruct ts; [reflexivity|]|]; rewrite E; reflexivity.
Qed.
Lemma load_type t l : sound_type t -> (forall x, In x (snd t) -> ~ In (fst x) (map fst l)) ->
  LoadExtraType (type_xml t) (fst t, l) = (fst t, l ++ snd t).
Proof.
  intros (P & ND & S) H. unfold LoadExtraType. cbn [fst snd]. f_equal.
  replace (filter (fun m => named m "technique") (children_of (type_xml t))) with (map technique_xml (snd t)).
  - apply load_techniques; assumption.
  - unfold type_xml. cbn [children_of]. induction (snd t) as [|x r IH]; cbn [map filter]; [reflexivity|].
    rewrite technique_named. f_equal. apply IH; auto with datatypes. inversion ND; assumption.
Qed.
Lemma type_named t : named (type_xml t) "extra" = true.
Proof. unfold type_xml, named. apply eq_text_refl. Qed.
Lemma load_types ts : forall l, NoDup (map fst ts) -> (forall t, In t ts -> sound_type t) ->
  (forall t, In t ts -> ~ In (fst t) (map fst l)) -> LoadExtras (map type_xml ts) l = Some (l ++ ts).
Proof.
  unfold LoadExtras. induction ts as [|t r IH]; intros l ND S H; cbn [map filter]; [cbn; now rewrite app_nil_r|].
  rewrite type_named. cbn [fold_left]. inversion ND as [|? ? Nx NDr]; subst.
  assert (P := S t (or_introl eq_refl)). unfold LoadExtra at 2. rewrite type_named, type_name by apply P. unfold AddType_then.
  rewrite add_then_new by (apply H; left; reflexivity). unfold new_type. rewrite load_type; [|exact P|intros x _ []].
  cbn [app]. rewrite IH; auto with datatypes.
  - rewrite <- app_assoc. now destruct t.
  - intros y Hy Hin. rewrite map_app in Hin. apply in_app_iff in Hin. destruct Hin as [Hin|[Hin|[]]].
    + apply (H y); auto with datatypes.
    + apply Nx. cbn [fst] in Hin. rewrite Hin. now apply in_map.
Qed.
Lemma has_data_content e : has_data e -> HasContent e = true.
Proof.
  intros (n & ts & p & m & t & attrs & k & kids & H1 & H2). unfold HasContent. apply existsb_exists. exists (n, ts). split; [exact H1|].
  apply existsb_exists. exists (p, ENode m t attrs (k :: kids)). split; [exact H2|reflexivity].
Qed.
Lemma write_types r : ~ In [] (map fst r) -> (forall t, In t r -> sound_type t) -> flat_map WriteExtraType r = map type_xml r.
Proof.
  induction r as [|t r IH]; cbn [flat_map map]; intros N S; [reflexivity|]. rewrite write_type by auto with datatypes.
  rewrite IH; [|intro; apply N; right; assumption|auto with datatypes].
  destruct t as [n ts]. cbn [fst snd] in *. destruct n; [exfalso; apply N; left; reflexivity|reflexivity].
Qed.
Lemma filter_extra_app before l after :
  (forall n, In n before \/ In n after -> named n "extra" = false) ->
  filter (fun n => named n "extra") (before ++ l ++ after) = filter (fun n => named n "extra") l.
Proof.
  intro H. rewrite !filter_app.
  assert (Z : forall k, (forall n, In n k -> named n "extra" = false) -> filter (fun n => named n "extra") k = []).
  { induction k as [|a k IH]; intro F; cbn [filter]; [reflexivity|]. rewrite F by (left; reflexivity). apply IH. intros; apply F; right; assumption. }
  rewrite (Z before), (Z after) by auto. now rewrite app_nil_r.
Qed.
(** The tree that is written is the tree that is loaded. *)
Lemma first_type (e : extra) : hd_error (map fst e) = Some [] -> exists ts r, e = ([], ts) :: r.
Proof. destruct e as [|[n ts] r]; cbn; intro H; [discriminate|]. injection H as ->. eauto. Qed.
Lemma written_form ts r : sound_extra (([], ts) :: r) -> HasContent (([], ts) :: r) = true ->
  WriteExtra (([], ts) :: r) = match ts with [] => [] | _ => [type_xml ([], ts)] end ++ map type_xml r.
Proof.
  intros (_ & ND & S) C. unfold WriteExtra. rewrite C. cbn [flat_map]. inversion ND as [|? ? N NDr]; subst.
  rewrite write_type by auto with datatypes. rewrite write_types; [|exact N|auto with datatypes]. cbn [fst snd]. destruct ts; reflexivity.
Qed.
Lemma tree_back e : sound_extra e -> HasContent e = true -> LoadExtras (WriteExtra e) new_extra = Some e.
Proof.
  intros Se C. destruct (first_type e) as (ts & r & ->); [apply Se|]. rewrite written_form by assumption.
  destruct Se as (_ & ND & S). inversion ND as [|? ? N NDr]; subst. cbn [fst] in N.
  assert (L : forall us, LoadExtras (map type_xml r) (([], us) :: []) = Some (([], us) :: r)).
  { intro us. rewrite load_types; auto with datatypes. intros t Ht [E|[]]. apply N. cbn [fst] in E. rewrite E. now apply in_map. }
  destruct ts as [|x ts]; [apply L|]. cbn [app]. unfold LoadExtras. cbn [filter]. rewrite type_named. cbn [fold_left].
  unfold LoadExtra at 2. rewrite type_named, type_name by (apply (S _ (or_introl eq_refl))). cbn [fst]. unfold AddType_then, new_extra, new_type.
  cbn [add_then]. destruct (str_eq_dec _ _) as [_|N0]; [|exfalso; apply N0; reflexivity].
  change (([], []) : etype) with ((fst ([] : str, x :: ts), []) : etype). rewrite load_type; [|apply S; left; reflexivity|intros y _ []].
  apply L.
Qed.
