(** The parameters that WriteLight adds to the extra tree. *)
From Coq Require Import String List ZArith QArith Bool Lia.
From Verif Require Import TextModel TextSpec StringModel StringProofs XmlModel UniqueSpec IdModel IdProps FloatModel FloatSpec FloatProps DaeModel DaeSpec DaeProofs ExtraModel ExtraProps RigSpec RigWriteProofs CustomModel CustomSpec CustomProofs CustomNoteProofs CustomProps LampModel LampSpec LampProofs.
Import ListNotations.
Local Open Scope list_scope.
Local Notation FC := (tx "FCOLLADA").

Definition made (p : string * str) : enode := ENode (CleanENodeName (tx (fst p))) (snd p) [] [].
Definition append_kids (l : list enode) (x : enode) : enode := match x with ENode n t attrs kids => ENode n t attrs (kids ++ l) end.
Definition with_all (l : list enode) (ts : list technique) : list technique :=
  AddTechnique_then FC (fun y : technique => (fst y, append_kids l (snd y))) ts.
Lemma add_add f g ts : AddTechnique_then FC (fun y : technique => (fst y, g (snd y))) (AddTechnique_then FC (fun y : technique => (fst y, f (snd y))) ts)
  = AddTechnique_then FC (fun y : technique => (fst y, g (f (snd y)))) ts.
Proof.
  unfold AddTechnique_then. induction ts as [|[p x] l IH]; [reflexivity|]. rewrite ?add_then_cons. cbn [fst snd].
  destruct (str_eq_dec p FC) as [->|N].
  - rewrite ?add_then_cons. cbn [fst snd]. destruct (str_eq_dec FC FC) as [_|N]; [reflexivity|contradiction].
  - rewrite ?add_then_cons. cbn [fst]. destruct (str_eq_dec p FC) as [E|_]; [contradiction|]. now rewrite IH.
Qed.
Lemma add_ext f g ts : (forall y, f y = g y) -> AddTechnique_then FC f ts = AddTechnique_then FC g ts.
Proof.
  intro H. unfold AddTechnique_then. induction ts as [|x l IH]; [cbn; now rewrite H|]. rewrite ?add_then_cons. destruct (str_eq_dec (fst x) FC); [now rewrite H|now rewrite IH].
Qed.
Lemma append_two l m x : append_kids m (append_kids l x) = append_kids (l ++ m) x.
Proof. destruct x as [n t a kids]. cbn. now rewrite <- app_assoc. Qed.
Lemma add_parameters_form ps ts r : add_parameters ps (([], ts) :: r) = Some (([], with_all (map made ps) ts) :: r).
Proof.
  unfold add_parameters. rewrite default_first. cbn [fst snd].
  assert (G : forall ps l, fold_left (fun r0 p => match r0 with Some e => with_parameter (fst p) (snd p) e | None => None end) ps (Some (([], with_all l ts) :: r))
              = Some (([], with_all (l ++ map made ps) ts) :: r)).
  { clear ps. induction ps as [|p ps IH]; intro l; cbn [fold_left map]; [now rewrite app_nil_r|]. rewrite has_parameter.
    replace (AddTechnique_then FC (fun y : technique => (fst y, AddParameter (fst p) (snd p) (snd y))) (with_all l ts)) with (with_all (l ++ [made p]) ts).
    - rewrite IH, <- app_assoc. reflexivity.
    - unfold with_all. symmetry. etransitivity; [|etransitivity; [apply (add_add (append_kids l) (append_kids [made p]))|]].
      + apply add_ext. intros [q [n t a k]]. reflexivity.
      + apply add_ext. intros [q x]. cbn [fst snd]. now rewrite append_two. }
  replace (AddTechnique_then FC (fun x => x) ts) with (with_all [] ts); [exact (G ps [])|].
  unfold with_all. apply add_ext. intros [q [n t a k]]. cbn. now rewrite app_nil_r.
Qed.
Lemma in_with_all l ts p x : In (p, x) (with_all l ts) -> In (p, x) ts \/ p = FC /\ ((exists y, In (FC, y) ts /\ x = append_kids l y) \/ x = append_kids l new_node).
Proof. intro H. apply (in_add_kid p FC (append_kids l) ts x H). Qed.
Lemma with_all_has l ts : In FC (map fst (with_all l ts)).
Proof.
  unfold with_all, AddTechnique_then. induction ts as [|[p x] r IH]; [left; reflexivity|]. rewrite ?add_then_cons. cbn [fst].
  destruct (str_eq_dec p FC) as [->|N]; [left; reflexivity|right; exact IH].
Qed.
Lemma sound_with_all l ts : (forall k, In k l -> sound_node k) -> sound_type ([], ts) -> sound_type ([], with_all l ts).
Proof.
  intros Hl (Pl & ND & S). split; [exact Pl|]. cbn [fst snd] in *. split; [apply add_then_nodup; auto|].
  intros [p x] H. destruct (in_with_all l ts p x H) as [G|[-> [(y & G & ->)| ->]]]; [exact (S _ G)| |].
  - destruct (S _ G) as [_ (kids & E & K)]. cbn [snd] in E. subst y. split; [exact fc_plain|]. eexists. split; [reflexivity|].
    intros k Hk. apply in_app_iff in Hk. destruct Hk as [Hk|Hk]; auto.
  - split; [exact fc_plain|]. eexists. split; [reflexivity|]. intros k Hk. auto.
Qed.
Lemma kids_with_all l ts p n t attrs kids k : In (p, ENode n t attrs kids) (with_all l ts) -> In k kids ->
  In k l /\ p = FC \/ exists n' t' attrs' kids', In (p, ENode n' t' attrs' kids') ts /\ In k kids'.
Proof.
  intros H Hk. destruct (in_with_all l ts _ _ H) as [G|[-> [([n' t' a' k'] & G & E)|E]]].
  - right. exists n, t, attrs, kids. auto.
  - cbn in E. injection E as -> -> -> ->. apply in_app_iff in Hk. destruct Hk as [Hk|Hk]; [|auto]. right. exists n', t', a', k'. auto.
  - cbn in E. injection E as -> -> -> ->. auto.
Qed.
Lemma data_with_all k l ts r : has_data (([], with_all (k :: l) ts) :: r).
Proof.
  assert (H : exists m t attrs kids, In (FC, ENode m t attrs (kids ++ k :: l)) (with_all (k :: l) ts)).
  { unfold with_all, AddTechnique_then. induction ts as [|[p [n t a kids]] q IH]; [exists [], [], [], []; left; reflexivity|]. rewrite ?add_then_cons. cbn [fst snd].
    destruct (str_eq_dec p FC) as [->|N]; [exists n, t, a, kids; left; reflexivity|]. destruct IH as (m & t' & a' & k' & IH). exists m, t', a', k'. right. exact IH. }
  destruct H as (m & t & attrs & kids & H). destruct kids as [|k0 kids]; [exists [], (with_all (k :: l) ts), FC, m, t, attrs, k, l; split; [left; reflexivity|exact H]|].
  exists [], (with_all (k :: l) ts), FC, m, t, attrs, k0, (kids ++ k :: l). split; [left; reflexivity|exact H].
Qed.
Lemma filled_with_all k l ts r : ~ empty_technique FC (([], ts) :: r) -> ~ In [] (map fst r) -> ~ empty_technique FC (([], with_all (k :: l) ts) :: r).
Proof.
  intros H N (us & n & t & a & Hin & Ht). destruct Hin as [E|Hin].
  - injection E as <-. destruct (in_with_all _ ts _ _ Ht) as [G|[_ [([n' t' a' k'] & G & E)|E]]].
    + apply H. exists ts, n, t, a. split; [left; reflexivity|exact G].
    + cbn in E. destruct k'; discriminate E.
    + cbn in E. discriminate E.
  - apply N. apply in_map_iff. exists ([], us). auto.
Qed.
Lemma removelast_app_one {A} (l : list A) x : removelast (l ++ [x]) = l.
Proof. apply removelast_last. Qed.
Lemma drop_all l : forall n t a kids, drop_parameters (List.length l) (ENode n t a (kids ++ l)) = ENode n t a kids.
Proof.
  induction l as [|x l IH] using rev_ind; intros n t a kids; cbn [List.length drop_parameters]; [now rewrite app_nil_r|].
  rewrite app_length, Nat.add_1_r. cbn [drop_parameters drop_parameter]. rewrite app_assoc, removelast_last. apply IH.
Qed.
Lemma released_all l ts : (forall n t a, ~ In (FC, ENode n t a []) ts) -> release_parameters (List.length l) (with_all l ts) = ts.
Proof.
  unfold with_all, AddTechnique_then. induction ts as [|[q [n t a k]] m IH]; intro H.
  - change (release_parameters (List.length l) [(FC, ENode [] [] [] l)] = []). cbn [release_parameters fst snd]. destruct (str_eq_dec FC FC) as [_|N]; [|contradiction].
    pose proof (drop_all l [] [] [] []) as D. cbn [app] in D. rewrite D. reflexivity.
  - rewrite ?add_then_cons. cbn [fst snd]. destruct (str_eq_dec q FC) as [->|N].
    + cbn [release_parameters fst]. destruct (str_eq_dec FC FC) as [_|N]; [|contradiction]. cbn [snd append_kids]. rewrite drop_all.
      destruct k as [|x k]; [exfalso; apply (H n t a); left; reflexivity|reflexivity].
    + cbn [release_parameters fst]. destruct (str_eq_dec q FC) as [E|_]; [contradiction|]. rewrite IH; [reflexivity|]. intros n' t' a' Hin. apply (H n' t' a'). right. exact Hin.
Qed.
(** Loading takes the parameters out again. *)
Lemma parameters_with_all l ts p : In p (tree_parameters (with_all l ts)) <-> In p (tree_parameters ts) \/ In p (flat_map leaf l).
Proof.
  unfold with_all, AddTechnique_then, tree_parameters. induction ts as [|[q [n t a k]] m IH].
  - cbn. rewrite app_nil_r. tauto.
  - rewrite ?add_then_cons. cbn [fst snd]. destruct (str_eq_dec q FC) as [->|N].
    + cbn [flat_map snd append_kids children_of_node]. rewrite flat_map_app, !in_app_iff. tauto.
    + cbn [flat_map snd children_of_node]. rewrite !in_app_iff, IH. tauto.
Qed.
Lemma filter_true {A} (f : A -> bool) l : (forall x, In x l -> f x = true) -> filter f l = l.
Proof. induction l as [|x l IH]; intro H; cbn; [reflexivity|]. rewrite H by (left; reflexivity). f_equal. apply IH. intros; apply H; right; assumption. Qed.
Lemma filter_false {A} (f : A -> bool) l : (forall x, In x l -> f x = false) -> filter f l = [].
Proof. induction l as [|x l IH]; intro H; cbn; [reflexivity|]. rewrite H by (left; reflexivity). apply IH. intros; apply H; right; assumption. Qed.
Definition valueless (ts : list technique) : Prop := forall f, ~ In (word f) (map fst (tree_parameters ts)).
Lemma valueless_cons x ts : valueless (x :: ts) -> valueless ts.
Proof. intros H f Hin. apply (H f). unfold tree_parameters. cbn [flat_map]. rewrite map_app. apply in_app_iff. right. exact Hin. Qed.
Lemma not_values p n t a kids ts : valueless ((p, ENode n t a kids) :: ts) -> forall x, In x kids -> is_value x = false.
Proof.
  intros H x Hx. unfold is_value. destruct (leaf x) as [|y l] eqn:E; [reflexivity|]. destruct (field_of (fst y)) as [f|] eqn:Ef; [|reflexivity]. apply field_of_iff in Ef.
  exfalso. apply (H f). unfold tree_parameters. cbn [flat_map snd children_of_node]. rewrite map_app. apply in_app_iff. left. rewrite <- Ef. apply in_map. apply in_flat_map.
  exists x. split; [exact Hx|]. rewrite E. left. reflexivity.
Qed.
Lemma drop_values_none ts : valueless ts -> map drop_values ts = ts.
Proof.
  induction ts as [|[p [n t a kids]] r IH]; intro H; [reflexivity|]. cbn [map]. rewrite IH by (eapply valueless_cons; eauto). unfold drop_values. cbn [snd fst].
  rewrite filter_true; [reflexivity|]. intros x Hx. now rewrite (not_values p n t a kids r H x Hx).
Qed.
Lemma drop_with_all l ts : (forall x, In x l -> is_value x = true) -> valueless ts -> map drop_values (with_all l ts) = AddTechnique_then FC (fun y => y) ts.
Proof.
  intro Hl. assert (FL : filter (fun x => negb (is_value x)) l = []) by (apply filter_false; intros x Hx; now rewrite Hl).
  unfold with_all, AddTechnique_then. induction ts as [|[q [n t a k]] m IH]; intro H.
  - cbn [add_then map new_technique fst snd append_kids new_node app]. unfold drop_values. cbn [snd fst]. rewrite FL. reflexivity.
  - rewrite ?add_then_cons. cbn [fst snd]. destruct (str_eq_dec q FC) as [->|N].
    + cbn [map]. rewrite drop_values_none by (eapply valueless_cons; eauto). unfold drop_values. cbn [snd fst append_kids]. rewrite filter_app, FL, app_nil_r.
      rewrite filter_true; [reflexivity|]. intros x Hx. now rewrite (not_values FC n t a k m H x Hx).
    + cbn [map]. rewrite IH by (eapply valueless_cons; eauto). f_equal. unfold drop_values. cbn [snd fst]. rewrite filter_true; [reflexivity|].
      intros x Hx. now rewrite (not_values q n t a k m H x Hx).
Qed.

(** *** Texts *)
Lemma printed_text eps q t : machine_eps eps -> finite q -> appends eps (Fin q) t -> t <> [] /\ plain t /\ forall a, exists r, ToFloat a t = Some (r, []) /\ remains eps q r.
Proof.
  intros He Hq Ht. destruct (appends_text eps q t He Hq Ht) as (r & Hr & _). destruct (float_head t r Hr) as (_ & Hn). split; [exact Hn|]. split.
  - assert (C := float_ok t r Hr). split.
    + revert C. apply Forall_impl. intros c [H|H]; [lia|]. cbn in H. lia.
    + intro Hin. rewrite Forall_forall in C. destruct (C _ Hin) as [H|H]; [lia|]. cbn in H. lia.
  - intro a. destruct (C78_round_trip_partial a eps q t [] [] [] He Hq Ht) as (r' & E & K).
    + constructor.
    + split; [constructor|]. split; [left; reflexivity|exact I].
    + rewrite app_nil_r in E. exists r'. split; [exact E|exact K].
Qed.
Lemma clean_field f : CleanENodeName (tx (field_name f)) = word f.
Proof. destruct f; vm_compute; reflexivity. Qed.
Lemma plain_field f : plain_name (tx (field_name f)) /\ tx (field_name f) <> [].
Proof.
  assert (P : forall n, CleanENodeName (tx n) = tx n -> tx n <> [] -> plain_name (tx n)).
  { intros n E N. rewrite <- E. apply clean_plain. }
  split; [apply P; destruct f; (vm_compute; reflexivity) || discriminate|destruct f; discriminate].
Qed.
Lemma remains_eq eps q r r' : remains eps q r -> (r' == r)%Q -> remains eps q r'.
Proof.
  intros (H1 & H2) E. split; intro H; [rewrite E; auto|]. destruct (H2 H) as (C1 & C2). split; [rewrite E; exact C1|]. intro H6. rewrite E. auto.
Qed.
Lemma printed_number eps q t : machine_eps eps -> finite q -> appends eps (Fin q) t -> exists r, one_number t r /\ remains eps q r.
Proof.
  intros He Hq Ht. destruct (appends_text eps q t He Hq Ht) as (r & Hr & K). exists r. split; [|exact K]. unfold one_number.
  replace t with ([] ++ t ++ [] ++ []) by now rewrite app_nil_r. apply N_cons; [constructor|exact Hr| |constructor]. split; [constructor|]. split; [auto|exact I].
Qed.
Lemma printed_color eps x y z t : machine_eps eps -> finite x -> finite y -> finite z -> ToString_vector eps (map Fin [x; y; z]) t ->
  t <> [] /\ AddContent t = t /\ exists x' y' z', three_numbers t x' y' z' /\ remains eps x x' /\ remains eps y y' /\ remains eps z z'.
Proof.
  intros He Hx Hy Hz Ht. destruct (floats_written eps [x; y; z] He) with (t := t) as (rs & Hn & Hr & Hok); [repeat (apply Forall_cons; [assumption|]); apply Forall_nil|exact Ht|].
  inversion Hr as [|? x' ? l1 A1 B1]; subst. inversion B1 as [|? y' ? l2 A2 B2]; subst. inversion B2 as [|? z' ? l3 A3 B3]; subst. inversion B3; subst.
  split; [|split; [now apply content_same|exists x', y', z'; auto]]. intros ->. inversion Hn as [|lead u v sep rest vs L F G N E].
  destruct lead; [|discriminate]. destruct u as [|c u]; [|discriminate]. destruct (float_head [] _ F) as (_ & X). now apply X.
Qed.
Lemma last_unique (s : list (str * str)) k t : In (k, t) s -> (forall t', In (k, t') s -> t' = t) -> last_setting s k t.
Proof.
  induction s as [|[n u] s IH]; intros H U; [destruct H|]. destruct (in_dec str_eq_dec k (map fst s)) as [I|I].
  - apply in_map_iff in I. destruct I as ([n' t'] & E & I). cbn in E. subst n'. assert (t' = t) by (apply U; right; exact I). subst t'.
    destruct IH as (b & c & -> & N); [exact I|intros; apply U; right; assumption|]. exists ((n, u) :: b), c. auto.
  - destruct H as [H|H]; [|exfalso; apply I; apply in_map_iff; exists (k, t); auto]. injection H as -> ->. exists [], s. auto.
Qed.
Lemma matters_fields k f : matters k f <-> In f (common_fields k) \/ In f (extra_fields k).
Proof.
  destruct k, f; cbn; split; intro H; try (intuition (discriminate || auto 20); fail).
Qed.
Lemma common_standard k f : In f (common_fields k) -> standard f.
Proof. destruct k, f; cbn; intuition discriminate. Qed.
Lemma fields_apart k f : In f (common_fields k) -> ~ In f (extra_fields k).
Proof. destruct k, f; cbn; intuition discriminate. Qed.
Lemma words_of_fields k f (text : field -> str) t : In (word f, t) (map (fun f => (word f, text f)) k) <-> In f k /\ t = text f.
Proof.
  rewrite in_map_iff. split.
  - intros (g & E & H). injection E as E1 E2. apply word_inj in E1. subst. auto.
  - intros (H & ->). exists f. auto.
Qed.
Lemma leaves k (text : field -> str) : flat_map leaf (map made (map (fun f => (field_name f, text f)) k)) = map (fun f => (word f, text f)) k.
Proof. induction k as [|f k IH]; [reflexivity|]. cbn [map flat_map]. rewrite IH. unfold made. cbn [fst snd leaf app]. now rewrite clean_field. Qed.
