(** C40: cloning an extra tree. *)
From Coq Require Import List ZArith Bool Lia String.
From Verif Require Import TextModel UniqueSpec UniqueModel UniqueProofs IdModel IdProofs IdProps ExtraModel.
Import ListNotations.
Local Open Scope Z_scope.

(** ** Specification *)
(** A node of a tree, at any depth. *)
Inductive in_tree (x : enode) : enode -> Prop :=
| in_tree_self : in_tree x x
| in_tree_child : forall n c attrs kids k, In k kids -> in_tree x k -> in_tree x (ENode n c attrs kids).
(** An attribute name that is an XML-ish name already: a letter or '_' and then letters, digits and '_'. *)
Definition plain_name (s : str) : Prop :=
  match s with
  | [] => True
  | c :: s' => (is_letter c \/ c = 95) /\ Forall enode_char s'
  end.
(** The attributes of a node can be told apart by their names. *)
Definition attributes_ok (attrs : list attribute) : Prop :=
  NoDup (map fst attrs) /\ Forall (fun a => plain_name (fst a)) attrs.
Definition node_ok (x : enode) : Prop := match x with ENode _ _ attrs _ => attributes_ok attrs end.
Definition tree_ok (x : enode) : Prop := forall y, in_tree y x -> node_ok y.
Definition type_ok (t : etype) : Prop := NoDup (map fst (snd t)) /\ Forall (fun x => tree_ok (snd x)) (snd t).
(** Names are used once, and the default type (empty name) comes first. *)
Definition extra_ok (e : extra) : Prop :=
  NoDup (map fst e) /\ hd_error (map fst e) = Some [] /\ Forall type_ok e.

(** ** Lemmas *)
Fixpoint enode_ind' (P : enode -> Prop)
  (H : forall n c attrs kids, Forall P kids -> P (ENode n c attrs kids)) (x : enode) {struct x} : P x :=
  match x with
  | ENode n c attrs kids =>
      H n c attrs kids ((fix go l : Forall P l :=
        match l with [] => Forall_nil P | k :: l' => Forall_cons k (enode_ind' P H k) (go l') end) kids)
  end.

Lemma tree_ok_iff : forall n c attrs kids,
  tree_ok (ENode n c attrs kids) <-> attributes_ok attrs /\ Forall tree_ok kids.
Proof.
  intros n c attrs kids. split.
  - intro H. split; [exact (H _ (in_tree_self _))|]. apply Forall_forall. intros k Hk y Hy. apply H.
    eapply in_tree_child; eauto.
  - intros [A F] y Hy. inversion Hy; subst; [exact A|]. rewrite Forall_forall in F. eapply F; eauto.
Qed.

Lemma clean_plain : forall s, plain_name (CleanENodeName s).
Proof.
  intros [|c s]; cbn; [exact I|]. destruct enode_char_facts as (H1 & _ & _). split.
  - unfold clean_first. destruct (alpha c) eqn:A; cbn; [left; apply alpha_iff; exact A|].
    destruct (c =? 95) eqn:E; right; [apply Z.eqb_eq; exact E | reflexivity].
  - apply Forall_forall. intros x Hx. apply in_map_iff in Hx. destruct Hx as (y & <- & _). apply H1.
Qed.
Lemma plain_clean : forall s, plain_name s -> CleanENodeName s = s.
Proof.
  intros [|c s]; cbn; [reflexivity|]. intros [A F]. destruct enode_char_facts as (_ & H2 & _). f_equal.
  - unfold clean_first. destruct A as [A| ->]; [apply alpha_iff in A; rewrite A; reflexivity|].
    reflexivity.
  - induction F; cbn; [reflexivity|]. rewrite H2 by assumption. f_equal. exact IHF.
Qed.
Lemma clean_idem : forall s, CleanENodeName (CleanENodeName s) = CleanENodeName s.
Proof. intro s. apply plain_clean, clean_plain. Qed.

Lemma add_then_keys : forall A (key : A -> str) mk k f (l : list A),
  (forall a, key (f a) = key a) -> key (mk k) = k ->
  map key (add_then key mk k f l) = if in_dec str_eq_dec k (map key l) then map key l else map key l ++ [k].
Proof.
  intros A key mk k f l Hf Hm. induction l as [|a l IH]; cbn [add_then map].
  - destruct (in_dec str_eq_dec k []) as [[]|_]. cbn. rewrite Hf, Hm. reflexivity.
  - destruct (str_eq_dec (key a) k) as [E|E]; cbn [map].
    + rewrite Hf. destruct (in_dec str_eq_dec k (key a :: map key l)) as [_|N]; [reflexivity|].
      exfalso. apply N. left. exact E.
    + rewrite IH. destruct (in_dec str_eq_dec k (map key l)) as [I|N];
      destruct (in_dec str_eq_dec k (key a :: map key l)) as [J|M]; try reflexivity.
      * exfalso. apply M. right. exact I.
      * exfalso. destruct J; contradiction.
Qed.
Lemma add_then_new : forall A (key : A -> str) mk k f (l : list A),
  ~ In k (map key l) -> add_then key mk k f l = l ++ [f (mk k)].
Proof.
  induction l as [|a l IH]; cbn; intro N; [reflexivity|].
  destruct (str_eq_dec (key a) k) as [E|E]; [exfalso; auto|]. rewrite IH by auto. reflexivity.
Qed.
Lemma NoDup_snoc : forall A (l : list A) x, NoDup l -> ~ In x l -> NoDup (l ++ [x]).
Proof.
  induction l as [|a l IH]; cbn; intros x H N; [constructor; [exact N|constructor]|].
  inversion H; subst. constructor.
  - intro I. apply in_app_iff in I. destruct I as [I|[I|[]]]; [contradiction|]. subst. apply N. left. reflexivity.
  - apply IH; [assumption|]. intro I. apply N. right. exact I.
Qed.
Lemma add_then_nodup : forall A (key : A -> str) mk k f (l : list A),
  (forall a, key (f a) = key a) -> key (mk k) = k -> NoDup (map key l) -> NoDup (map key (add_then key mk k f l)).
Proof.
  intros. rewrite add_then_keys by assumption. destruct (in_dec str_eq_dec k (map key l)); [assumption|].
  apply NoDup_snoc; assumption.
Qed.
Lemma add_then_hd : forall A (key : A -> str) mk k f (l : list A) h,
  (forall a, key (f a) = key a) -> key (mk k) = k ->
  hd_error (map key l) = Some h -> hd_error (map key (add_then key mk k f l)) = Some h.
Proof.
  intros. rewrite add_then_keys by assumption. destruct (in_dec str_eq_dec k (map key l)); [assumption|].
  destruct (map key l); [discriminate|exact H1].
Qed.
Lemma add_then_Forall : forall A (key : A -> str) mk k f (P : A -> Prop) (l : list A),
  (forall a, P a -> P (f a)) -> P (mk k) -> Forall P l -> Forall P (add_then key mk k f l).
Proof.
  intros A key mk k f P l Hf Hm F. induction F; cbn; [repeat constructor; auto|].
  destruct (str_eq_dec (key x) k); constructor; auto.
Qed.
(** The same when [f] only behaves on entries with the key asked for. *)
Lemma add_then_keys' : forall A (key : A -> str) mk k f (l : list A),
  (forall a, key a = k -> key (f a) = k) -> key (mk k) = k ->
  map key (add_then key mk k f l) = map key (add_then key mk k (fun a => a) l).
Proof.
  intros A key mk k f l Hf Hm. induction l as [|a l IH]; cbn [add_then map].
  - rewrite Hf, Hm; auto.
  - destruct (str_eq_dec (key a) k) as [E|E]; cbn [map]; [rewrite Hf; congruence|]. rewrite IH. reflexivity.
Qed.

(** A fold of de-duplicating additions of distinct new keys is an append. *)
Lemma fold_add_then : forall A (key : A -> str) mk (f : A -> A -> A) (src l : list A),
  (forall a b, key b = key a -> key (f a b) = key a) -> (forall k, key (mk k) = k) ->
  NoDup (map key src) -> (forall a, In a src -> ~ In (key a) (map key l)) ->
  fold_left (fun acc a => add_then key mk (key a) (f a) acc) src l = l ++ map (fun a => f a (mk (key a))) src.
Proof.
  intros A key mk f src. induction src as [|a src IH]; cbn [fold_left map]; intros l Hf Hm ND N.
  - now rewrite app_nil_r.
  - inversion ND as [|? ? Na NDs]; subst. rewrite add_then_new by (apply N; left; reflexivity).
    rewrite IH; auto.
    + rewrite <- app_assoc. reflexivity.
    + intros b Hb I. rewrite map_app in I. apply in_app_iff in I. destruct I as [I|[I|[]]].
      * apply (N b); [right; exact Hb|exact I].
      * rewrite Hf in I by apply Hm. apply Na. rewrite I. apply in_map. exact Hb.
Qed.

Lemma fold_attributes : forall src l,
  Forall (fun a => plain_name (fst a)) src ->
  fold_left (fun acc (a : attribute) => AddAttribute (fst a) (snd a) acc) src l =
  fold_left (fun acc a => add_then fst new_attribute (fst a) (fun b => (fst b, snd a)) acc) src l.
Proof.
  intros src l F. revert l. induction F as [|a src P F IH]; intro l; cbn [fold_left]; [reflexivity|].
  rewrite IH. unfold AddAttribute. rewrite plain_clean by exact P. reflexivity.
Qed.

Lemma clone_node_same : forall x, tree_ok x -> CloneNode x new_node = x.
Proof.
  induction x as [n c attrs kids IH] using enode_ind'. intro T. apply tree_ok_iff in T. destruct T as [[ND PN] TK].
  cbn [CloneNode new_node]. f_equal.
  - rewrite fold_attributes by exact PN.
    rewrite (fold_add_then _ fst new_attribute (fun (a b : attribute) => (fst b, snd a))); auto.
    cbn. transitivity (map (fun a : attribute => a) attrs); [|apply map_id]. apply map_ext. intros [u v]; reflexivity.
  - cbn. clear -IH TK. induction IH; cbn; [reflexivity|]. inversion TK; subst. f_equal; auto.
Qed.

Lemma clone_type_same : forall t, type_ok t -> CloneType t (new_type (fst t)) = t.
Proof.
  intros [n ts] [ND TO]. unfold CloneType, AddTechnique_then. cbn [fst snd new_type] in *. f_equal.
  rewrite (fold_add_then _ fst new_technique CloneTechnique); auto.
  cbn. transitivity (map (fun a : technique => a) ts); [|apply map_id]. apply map_ext_in. intros [p x] I.
  unfold CloneTechnique. cbn. f_equal. apply clone_node_same. rewrite Forall_forall in TO. exact (TO _ I).
Qed.

Lemma clone_same : forall e, extra_ok e -> CloneFresh e = e.
Proof.
  intros [|t0 e] (ND & HD & TO); [discriminate|]. cbn in HD. injection HD as HD.
  unfold CloneFresh, CloneExtra, AddType_then, new_extra. cbn [fold_left add_then].
  destruct (str_eq_dec (fst (new_type [])) (fst t0)) as [_|N]; [|exfalso; apply N; symmetry; exact HD].
  inversion TO as [|? ? T0 TE]; subst. inversion ND as [|? ? N0 NDe]; subst.
  replace (CloneType t0 (new_type [])) with t0 by (rewrite <- HD; symmetry; apply clone_type_same; exact T0).
  rewrite (fold_add_then _ fst new_type CloneType); auto.
  - cbn. f_equal. transitivity (map (fun a : etype => a) e); [|apply map_id]. apply map_ext_in. intros t I.
    apply clone_type_same. rewrite Forall_forall in TE. exact (TE _ I).
  - intros a Ha [E|[]]. apply N0. cbn in E. rewrite E. apply in_map. exact Ha.
Qed.

Lemma AddAttribute_ok : forall n v l, attributes_ok l -> attributes_ok (AddAttribute n v l).
Proof.
  intros n v l [ND P]. split.
  - apply add_then_nodup; auto.
  - apply add_then_Forall; auto. cbn. apply clean_plain.
Qed.
Lemma fold_attributes_ok : forall src l, attributes_ok l ->
  attributes_ok (fold_left (fun acc (a : attribute) => AddAttribute (fst a) (snd a) acc) src l).
Proof. induction src; cbn; intros; auto. apply IHsrc, AddAttribute_ok, H. Qed.
Lemma new_node_ok : tree_ok new_node.
Proof. apply tree_ok_iff. repeat constructor. Qed.
Lemma clone_node_ok : forall x y, tree_ok y -> tree_ok (CloneNode x y).
Proof.
  induction x as [n c attrs kids IH] using enode_ind'. intros [n' c' attrs' kids'] T.
  apply tree_ok_iff in T. destruct T as [A K]. cbn [CloneNode]. apply tree_ok_iff. split.
  - apply fold_attributes_ok, A.
  - apply Forall_app. split; [exact K|]. clear -IH. induction IH; cbn; constructor; auto. apply H, new_node_ok.
Qed.
Lemma fold_add_inv : forall A (key : A -> str) mk (f : A -> A -> A) (P : A -> Prop) (src l : list A),
  (forall a b, key b = key a -> key (f a b) = key a) -> (forall k, key (mk k) = k) ->
  (forall a b, P b -> P (f a b)) -> (forall k, P (mk k)) ->
  NoDup (map key l) /\ Forall P l ->
  let r := fold_left (fun acc a => add_then key mk (key a) (f a) acc) src l in
  (NoDup (map key r) /\ Forall P r) /\ (forall h, hd_error (map key l) = Some h -> hd_error (map key r) = Some h).
Proof.
  intros A key mk f P src. induction src as [|a src IH]; cbn [fold_left]; intros l Hf Hm Pf Pm [ND F]; [auto|].
  assert (K : map key (add_then key mk (key a) (f a) l) = map key (add_then key mk (key a) (fun x => x) l))
    by (apply add_then_keys'; auto).
  destruct (IH (add_then key mk (key a) (f a) l)) as [G1 G2]; auto.
  - split; [rewrite K; apply add_then_nodup; auto | apply add_then_Forall; auto].
  - split; [exact G1|]. intros h Hh. apply G2. rewrite K. apply add_then_hd; auto.
Qed.
Lemma clone_type_ok : forall s t, type_ok t -> type_ok (CloneType s t).
Proof.
  intros s [n ts] T. unfold type_ok, CloneType. cbn [fst snd].
  apply (fold_add_inv _ fst new_technique CloneTechnique (fun x => tree_ok (snd x)) (snd s) ts); auto.
  - intros a b. apply clone_node_ok.
  - intro k. apply new_node_ok.
Qed.
Lemma new_type_ok : forall n, type_ok (new_type n).
Proof. intro n. split; constructor. Qed.
Lemma new_extra_ok : extra_ok new_extra.
Proof. repeat constructor. intros []. Qed.
Lemma clone_extra_ok : forall s e, extra_ok e -> extra_ok (CloneExtra s e).
Proof.
  intros s e (ND & HD & TO). unfold extra_ok, CloneExtra.
  destruct (fold_add_inv _ fst new_type CloneType type_ok s e) as [[A B] C]; auto.
  - intros a b. apply clone_type_ok.
  - exact new_type_ok.
Qed.

(** ** Theorems *)

(** C40 (partial).  The clone into a new extra is the same tree - the same types, techniques, nodes, attributes,
    contents and order, at every depth - exactly when names are used once, attribute names are plain and the
    default type comes first.  Missing for the full claim: trees outside [extra_ok], for which the code really
    gives a different tree (C40_clone_refuted). *)
Theorem C40_clone_partial : forall e, CloneFresh e = e <-> extra_ok e.
Proof.
  intro e. split; [|apply clone_same]. intros <-. apply clone_extra_ok, new_extra_ok.
Qed.
Print Assumptions C40_clone_partial.

(** Whatever the source, cloning a clone changes nothing any more. *)
Theorem C40_clone_of_clone_partial : forall e, CloneFresh (CloneFresh e) = CloneFresh e.
Proof. intro e. apply clone_same, clone_extra_ok, new_extra_ok. Qed.
Print Assumptions C40_clone_of_clone_partial.

(** The calls that keep names apart: everything but renaming a type, a profile or an attribute behind the
    back of its container, and releasing the default type. *)
Definition name_keeping (c : call) : Prop :=
  match c with
  | SetTypeName _ _ | SetProfile _ _ _ | OnNode _ _ _ (NSetAttributeName _ _) | ReleaseType O => False
  | _ => True
  end.

Lemma at_nth_keys : forall A B (key : A -> B) f i (l : list A),
  (forall a, key (f a) = key a) -> map key (at_nth i f l) = map key l.
Proof.
  intros A B key f i l Hf. revert i. induction l as [|a l IH]; intros [|i]; cbn; try reflexivity; rewrite ?Hf, ?IH; reflexivity.
Qed.
Lemma at_nth_Forall : forall A (P : A -> Prop) f i (l : list A),
  (forall a, P a -> P (f a)) -> Forall P l -> Forall P (at_nth i f l).
Proof.
  intros A P f i l Hf F. revert i. induction F; intros [|i]; cbn; constructor; auto.
Qed.
Lemma drop_nth_Forall : forall A (P : A -> Prop) i (l : list A), Forall P l -> Forall P (drop_nth i l).
Proof. intros A P i l F. revert i. induction F; intros [|i]; cbn; auto. Qed.
Lemma drop_nth_map : forall A B (key : A -> B) i (l : list A), map key (drop_nth i l) = drop_nth i (map key l).
Proof. intros A B key i l. revert i. induction l; intros [|i]; cbn; f_equal; auto. Qed.
Lemma drop_nth_In : forall A i (l : list A) x, In x (drop_nth i l) -> In x l.
Proof.
  intros A i l. revert i. induction l as [|a l IH]; intros [|i] x; cbn; auto. intros [E|H]; eauto.
Qed.
Lemma drop_nth_nodup : forall A i (l : list A), NoDup l -> NoDup (drop_nth i l).
Proof.
  intros A i l N. revert i. induction N; intros [|i]; cbn; auto; constructor; auto.
  intro I. apply drop_nth_In in I. contradiction.
Qed.

Lemma do_node_ok : forall c x, match c with NSetAttributeName _ _ => False | _ => True end -> tree_ok x -> tree_ok (do_node c x).
Proof.
  intros c [n t attrs kids] NK T. apply tree_ok_iff in T. destruct T as [A K].
  assert (L : forall m v, tree_ok (ENode m v [] [])) by (intros; apply tree_ok_iff; repeat constructor).
  destruct c; cbn [do_node]; try contradiction; apply tree_ok_iff; split; auto; try (apply AddAttribute_ok; exact A);
    try (apply Forall_app; split; [exact K|]; constructor; [apply L|constructor]).
  - destruct A as [ND P]. split; [rewrite (at_nth_keys _ _ fst); auto | apply at_nth_Forall; auto].
  - apply drop_nth_Forall, K.
  - destruct A as [ND P]. split; [rewrite drop_nth_map; apply drop_nth_nodup, ND | apply drop_nth_Forall, P].
Qed.
Lemma at_path_ok : forall p f x, (forall y, tree_ok y -> tree_ok (f y)) -> tree_ok x -> tree_ok (at_path p f x).
Proof.
  induction p as [|i p IH]; intros f x Hf T; cbn; [auto|]. destruct x as [n t attrs kids].
  apply tree_ok_iff in T. destruct T as [A K]. apply tree_ok_iff. split; [exact A|].
  apply at_nth_Forall; auto.
Qed.
Lemma do_call_ok : forall e c, name_keeping c -> extra_ok e -> extra_ok (do_call e c).
Proof.
  intros e c NK (ND & HD & TO). unfold extra_ok.
  destruct c; cbn [do_call]; cbn in NK; try contradiction.
  - split; [|split]; [apply add_then_nodup; auto | apply add_then_hd; auto | apply add_then_Forall; auto; apply new_type_ok].
  - destruct i as [|i]; [contradiction|].
    split; [|split]; [rewrite drop_nth_map; apply drop_nth_nodup, ND | | apply drop_nth_Forall, TO].
    destruct e; [discriminate|exact HD].
  - rewrite (at_nth_keys _ _ fst) by reflexivity. split; [exact ND|split; [exact HD|]].
    apply at_nth_Forall; [|exact TO]. intros [n ts] [N F]. split; cbn [fst snd] in *.
    + apply add_then_nodup; auto.
    + apply add_then_Forall; auto. apply new_node_ok.
  - rewrite (at_nth_keys _ _ fst) by reflexivity. split; [exact ND|split; [exact HD|]].
    apply at_nth_Forall; [|exact TO]. intros [n ts] [N F]. split; cbn [fst snd] in *.
    + rewrite drop_nth_map. apply drop_nth_nodup, N.
    + apply drop_nth_Forall, F.
  - rewrite (at_nth_keys _ _ fst) by reflexivity. split; [exact ND|split; [exact HD|]].
    apply at_nth_Forall; [|exact TO]. intros [n ts] [N F]. split; cbn [fst snd] in *.
    + rewrite (at_nth_keys _ _ fst) by reflexivity. exact N.
    + apply at_nth_Forall; [|exact F]. intros [p x] T. cbn [snd] in *. apply at_path_ok; [|exact T].
      intros y Hy. apply do_node_ok; [|exact Hy]. destruct c; auto.
Qed.

(** C40 (partial): for every tree that any sequence of the name-keeping calls builds. *)
Theorem C40_clone_built_partial : forall cs, Forall name_keeping cs -> CloneFresh (do_calls cs) = do_calls cs.
Proof.
  intros cs F. apply clone_same. unfold do_calls. assert (O := new_extra_ok). revert O. generalize new_extra.
  induction F as [|c cs K F IH]; intros e O; cbn; [exact O|]. apply IH, do_call_ok; assumption.
Qed.
Print Assumptions C40_clone_built_partial.

(** C40 is false for what the other public calls build: an attribute renamed to a name that is not plain is
    renamed by the clone; two attributes given one name, two techniques given one profile, or two types given one name
    become one; and a renamed or released default type comes back, in front. *)
Definition a_node : list call :=
  [AddTechniqueCall 0 (tx "MAX"); OnNode 0 0 [] (NAddAttribute (tx "a") (tx "1")); OnNode 0 0 [] (NAddAttribute (tx "b") (tx "2"))].
Theorem C40_clone_refuted :
  (exists cs, do_calls cs = [([], [(tx "MAX", ENode [] [] [(tx "x:y", tx "1"); (tx "b", tx "2")] [])])] /\
     CloneFresh (do_calls cs) = [([], [(tx "MAX", ENode [] [] [(tx "x_y", tx "1"); (tx "b", tx "2")] [])])]) /\
  (exists cs, do_calls cs = [([], [(tx "MAX", ENode [] [] [(tx "b", tx "1"); (tx "b", tx "2")] [])])] /\
     CloneFresh (do_calls cs) = [([], [(tx "MAX", ENode [] [] [(tx "b", tx "2")] [])])]) /\
  (exists cs, do_calls cs = [([], [(tx "P", new_node); (tx "P", new_node)])] /\
     CloneFresh (do_calls cs) = [([], [(tx "P", new_node)])]) /\
  (exists cs, do_calls cs = [([], []); (tx "T", [(tx "P", new_node)]); (tx "T", [(tx "Q", new_node)])] /\
     CloneFresh (do_calls cs) = [([], []); (tx "T", [(tx "P", new_node); (tx "Q", new_node)])]) /\
  (exists cs, do_calls cs = [(tx "T", [])] /\ CloneFresh (do_calls cs) = [([], []); (tx "T", [])]) /\
  (exists cs, do_calls cs = [(tx "T", []); ([], [])] /\ CloneFresh (do_calls cs) = [([], []); (tx "T", [])]) /\
  (exists cs, do_calls cs = [] /\ CloneFresh (do_calls cs) = [([], [])]).
Proof.
  split; [|split; [|split; [|split; [|split; [|split]]]]].
  - exists (a_node ++ [OnNode 0 0 [] (NSetAttributeName 0 (tx "x:y"))]). split; reflexivity.
  - exists (a_node ++ [OnNode 0 0 [] (NSetAttributeName 0 (tx "b"))]). split; reflexivity.
  - exists [AddTechniqueCall 0 (tx "P"); AddTechniqueCall 0 (tx "Q"); SetProfile 0 1 (tx "P")]. split; reflexivity.
  - exists [AddTypeCall (tx "T"); AddTechniqueCall 1 (tx "P"); AddTypeCall (tx "U"); AddTechniqueCall 2 (tx "Q"); SetTypeName 2 (tx "T")].
    split; reflexivity.
  - exists [AddTypeCall (tx "T"); ReleaseType 0]. split; reflexivity.
  - exists [SetTypeName 0 (tx "T"); AddTypeCall []]. split; reflexivity.
  - exists [ReleaseType 0]. split; reflexivity.
Qed.
Print Assumptions C40_clone_refuted.

(** A tree of some depth, built by name-keeping calls; the name with a blank is cleaned on the way in. *)
Example C40_demo :
  let cs := [AddTypeCall (tx "physics"); AddTechniqueCall 1 (tx "FCOLLADA"); AddTechniqueCall 0 (tx "MAX3D");
             OnNode 1 0 [] (NAddChildNode (tx "3 body")); OnNode 1 0 [0%nat] (NAddChildNode (tx "shape"));
             OnNode 1 0 [0%nat; 0%nat] (NAddAttribute (tx "si ze") (tx "4")); OnNode 1 0 [0%nat; 0%nat] (NAddParameter (tx "r") (tx "2"));
             OnNode 1 0 [0%nat; 0%nat] (NAddAttribute (tx "si_ze") (tx "5")); OnNode 1 0 [] (NAddParameter (tx "r") (tx "2"))] in
  Forall name_keeping cs /\
  do_calls cs = [([], [(tx "MAX3D", new_node)]);
                 (tx "physics", [(tx "FCOLLADA", ENode [] [] []
                    [ENode (tx "__body") [] [] [ENode (tx "shape") [] [(tx "si_ze", tx "5")] [ENode (tx "r") (tx "2") [] []]];
                     ENode (tx "r") (tx "2") [] []])])] /\
  CloneFresh (do_calls cs) = do_calls cs.
Proof. split; [repeat constructor|split; reflexivity]. Qed.

(** ** C69: reading back what was added to a node *)
Local Arguments str_eq_dec : simpl never.
Lemma find_add_then_same : forall k f (l : list attribute),
  (forall a, fst (f a) = fst a) ->
  exists a, find (fun a : attribute => if str_eq_dec (fst a) k then true else false) (add_then fst new_attribute k f l) = Some (f a).
Proof.
  intros k f l Hf. induction l as [|a l IH]; cbn.
  - rewrite Hf. cbn. destruct (str_eq_dec k k); [|contradiction]. eexists; reflexivity.
  - destruct (str_eq_dec (fst a) k) as [E|E]; cbn.
    + rewrite Hf. destruct (str_eq_dec (fst a) k); [|contradiction]. eexists; reflexivity.
    + destruct (str_eq_dec (fst a) k); [contradiction|]. exact IH.
Qed.
Lemma find_add_then_other : forall k m f (l : list attribute),
  (forall a, fst (f a) = fst a) -> m <> k ->
  find (fun a : attribute => if str_eq_dec (fst a) m then true else false) (add_then fst new_attribute k f l) =
  find (fun a : attribute => if str_eq_dec (fst a) m then true else false) l.
Proof.
  intros k m f l Hf N. induction l as [|a l IH]; cbn.
  - rewrite Hf. cbn. destruct (str_eq_dec k m); [congruence|reflexivity].
  - destruct (str_eq_dec (fst a) k) as [E|E]; cbn.
    + rewrite Hf. destruct (str_eq_dec (fst a) m); [congruence|reflexivity].
    + rewrite IH. reflexivity.
Qed.

(** C69 (partial): after AddAttribute(n, v) on any node, reading the cleaned form of n gives v, every other
    name reads as before, no attribute is lost, moved or renamed and at most one is new; name, content and children
    stay.  Missing: reading n itself when n is not plain, see C69_read_back_refuted. *)
Theorem C69_read_back_partial : forall x n v,
  let y := do_node (NAddAttribute n v) x in
  ReadAttribute (CleanENodeName n) y = v /\
  (plain_name n -> ReadAttribute n y = v) /\
  (forall m, m <> CleanENodeName n -> ReadAttribute m y = ReadAttribute m x) /\
  (match x, y with
   | ENode nm ct attrs kids, ENode nm' ct' attrs' kids' =>
       nm' = nm /\ ct' = ct /\ kids' = kids /\
       (map fst attrs' = map fst attrs \/
        map fst attrs' = map fst attrs ++ [CleanENodeName n] /\ ~ In (CleanENodeName n) (map fst attrs))
   end).
Proof.
  intros [nm ct attrs kids] n v. cbn zeta. cbn [do_node].
  assert (R : ReadAttribute (CleanENodeName n) (ENode nm ct (AddAttribute n v attrs) kids) = v).
  { cbn [ReadAttribute]. unfold AddAttribute.
    destruct (find_add_then_same (CleanENodeName n) (fun a : attribute => (fst a, v)) attrs) as (a & E); auto.
    unfold attribute in *. rewrite E. reflexivity. }
  split; [exact R|split; [|split; [|split; [reflexivity|split; [reflexivity|split; [reflexivity|]]]]]].
  - intro P. rewrite plain_clean in R by exact P. exact R.
  - intros m N. cbn [ReadAttribute]. unfold AddAttribute, attribute. pose proof (find_add_then_other (CleanENodeName n) m (fun a => (fst a, v)) attrs) as F.
    unfold attribute in F. rewrite F; auto.
  - unfold AddAttribute. rewrite (add_then_keys _ (@fst str str)); auto.
    destruct (in_dec str_eq_dec (CleanENodeName n) (map fst attrs)); [left|right]; auto.
Qed.
Print Assumptions C69_read_back_partial.

(** SetContent leaves no child, so a node set to a text is not of mixed content; adding a child afterwards
    keeps the text, which gives a node with both. *)
Theorem C69_set_content_partial : forall x c,
  (match do_node (NSetContent c) x with ENode _ ct _ kids => ct = c /\ kids = [] end) /\
  (forall m, ReadAttribute m (do_node (NSetContent c) x) = ReadAttribute m x) /\
  (forall n, exists k, match do_node (NAddChildNode n) (do_node (NSetContent c) x) with ENode _ ct _ kids => ct = c /\ kids = [k] end).
Proof.
  intros [nm ct attrs kids] c. split; [split; reflexivity|split; [reflexivity|]]. intro n.
  exists (ENode (CleanENodeName n) [] [] []). split; reflexivity.
Qed.
Print Assumptions C69_set_content_partial.

(** C69 is false for a name that the cleaner changes: the attribute just added cannot be read by its name, and
    adding another one with a name that cleans to the same overwrites it. *)
Theorem C69_read_back_refuted :
  exists n v m w, n <> m /\ v <> w /\
    ReadAttribute n (do_node (NAddAttribute n v) new_node) = [] /\ v <> [] /\
    do_node (NAddAttribute m w) (do_node (NAddAttribute n v) new_node) = do_node (NAddAttribute n w) new_node.
Proof.
  exists (tx "x:y"), (tx "1"), (tx "x-y"), (tx "2"). repeat split; try discriminate.
Qed.
Print Assumptions C69_read_back_refuted.

Example C69_demo :
  let x := do_node (NAddAttribute (tx "sid") (tx "a")) (do_node (NAddAttribute (tx "type") (tx "float")) new_node) in
  plain_name (tx "type") /\ ReadAttribute (tx "type") (do_node (NAddAttribute (tx "type") (tx "int")) x) = tx "int" /\
  ReadAttribute (tx "sid") (do_node (NAddAttribute (tx "type") (tx "int")) x) = tx "a".
Proof. split; [|split; reflexivity]. cbn. unfold is_letter. split; [left; lia|].
  repeat (apply Forall_cons; [unfold enode_char, is_letter; left; lia|]). apply Forall_nil. Qed.
