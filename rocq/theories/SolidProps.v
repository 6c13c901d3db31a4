(** C122 (analytical shapes in documents). *)
From Coq Require Import String List ZArith QArith Bool Lia.
From Verif Require Import TextModel TextSpec StringModel StringProofs XmlModel FloatModel FloatSpec FloatProofs FloatWrite FloatProps DaeModel DaeSpec DaeProofs DaeProps RigSpec RigTextProofs RigProofs RigWriteProofs NodeSpec NodeSafeProofs LampModel LampSpec LampProofs LampSafeProofs LampWriteProofs LampProps WireProps ShadeSpec ShadeProofs SolidModel SolidSpec.
Import ListNotations.
Local Open Scope list_scope.

Lemma floats_length a n : forall t l r, ToFloats a n t = Some (l, r) -> List.length l = n.
Proof.
  induction n as [|n IH]; intros t l r E; cbn [ToFloats] in E; [now injection E as <- _|]. destruct (ToFloat a t) as [[q u]|]; [|discriminate]. destruct (ToFloats a n u) as [[l1 r1]|] eqn:E1; [|discriminate].
  injection E as <- _. cbn. f_equal. eapply IH; eassumption.
Qed.
(** One child, seen from one part. *)
Definition hit (s s' : shape Q) (a : arith) (c : xml) (name : string) : Prop :=
  forall l, part_of s name = Some l -> exists l' r, ToFloats a (List.length l) (ReadNodeContentDirect c) = Some (l', r) /\ part_of s' name = Some l'.
Lemma step_part a s c s' : LoadField a s c = Some s' -> same_kind s s' /\
  forall name, (is_elem name c -> hit s s' a c name) /\ (~ is_elem name c -> part_of s' name = part_of s name).
Proof.
  assert (W : forall n m, n <> m -> is_elem n c -> named c m = false).
  { intros n m H X. apply named_not. intro Y. apply H. destruct X as (u & v & ->), Y as (u' & v' & E). injection E as E _ _. clear H. revert m E. clear. induction n as [|b n IH]; intros [|b' m] E; try discriminate; [reflexivity|].
    cbn in E. injection E as E1 E2. f_equal; [|apply IH; exact E2]. apply Nat2Z.inj in E1. rewrite <- (Ascii.ascii_nat_embedding b), E1. apply Ascii.ascii_nat_embedding. }
  intro E. assert (K : same_kind s s').
  { destruct s; cbn [LoadField] in E; repeat match type of E with (if ?b then _ else _) = _ => destruct b end;
    repeat match type of E with match ToFloats ?a ?n ?t with _ => _ end = _ => destruct (ToFloats a n t) as [[[|? [|? [|? [|? [|]]]]] ?]|]; try discriminate E end; injection E as <-; constructor. }
  split; [exact K|]. intro name. split; intro H.
  - apply named_iff in H as N. intros l P. destruct s; cbn [LoadField part_of] in *;
    repeat match type of P with (if string_dec ?x ?y then _ else _) = _ => destruct (string_dec x y) as [->|?]; [|rewrite (W name y) in E by assumption] end; try discriminate P; injection P as <-; rewrite N in E || idtac; cbn [List.length];
    repeat match type of E with (if ?b then _ else _) = _ => replace b with false in E by (symmetry; eapply W; [|exact H]; discriminate) end;
    match type of E with match ToFloats ?a ?n ?t with _ => _ end = _ => destruct (ToFloats a n t) as [[l' rr]|] eqn:F; [|discriminate E]; exists l', rr; split; [reflexivity|] end;
    destruct l' as [|? [|? [|? [|? [|]]]]]; try discriminate E; injection E as <-; reflexivity.
  - apply named_not in H as N. destruct s; cbn [LoadField part_of] in *;
    repeat match goal with |- context [string_dec ?x ?y] => destruct (string_dec x y) as [->|?] end; rewrite ?N in E;
    repeat match type of E with (if ?b then _ else _) = _ => destruct b end;
    repeat match type of E with match ToFloats ?a ?n ?t with _ => _ end = _ => destruct (ToFloats a n t) as [[[|? [|? [|? [|? [|]]]]] ?]|]; try discriminate E end; injection E as <-; cbn [part_of];
    repeat match goal with |- context [string_dec ?x ?y] => destruct (string_dec x y); [congruence|] end; try congruence; reflexivity.
Qed.
Lemma kind_trans {A B C} (s : shape A) (t : shape B) (u : shape C) : same_kind s t -> same_kind t u -> same_kind s u.
Proof. intros H1 H2. destruct H1; inversion H2; constructor. Qed.
Lemma kind_refl {A} (s : shape A) : same_kind s s. Proof. destruct s; constructor. Qed.
Lemma kind_tag {A B} (s : shape A) (t : shape B) : same_kind s t -> tag s = tag t. Proof. now destruct 1. Qed.
Lemma kind_parts {A B} (s : shape A) (t : shape B) name l : same_kind s t -> part_of s name = Some l -> exists l', part_of t name = Some l' /\ List.length l' = List.length l.
Proof.
  intros H P. destruct H; cbn [part_of] in *; repeat match type of P with (if string_dec ?x ?y then _ else _) = _ => destruct (string_dec x y) end; try discriminate P; injection P as <-; eexists; split; reflexivity.
Qed.
Lemma fold_kind a l : forall s s', fold_option (LoadField a) l (Some s) = Some s' -> same_kind s s'.
Proof.
  induction l as [|c l IH]; intros s s' E; [cbn in E; injection E as <-; apply kind_refl|]. rewrite fold_cons in E. destruct (LoadField a s c) as [z|] eqn:Ez; [|rewrite fold_none in E; discriminate].
  eapply kind_trans; [apply (step_part _ _ _ _ Ez)|eauto].
Qed.
Lemma fold_part a l : forall s s' name k, fold_option (LoadField a) l (Some s) = Some s' -> (exists p, part_of s name = Some p /\ List.length p = k) ->
  (none_of l name -> part_of s' name = part_of s name) /\
  (forall c, last_of l name c -> exists p' r, ToFloats a k (ReadNodeContentDirect c) = Some (p', r) /\ part_of s' name = Some p').
Proof.
  induction l as [|c l IH]; intros s s' name k E (p & P & L).
  - cbn in E. injection E as <-. split; [reflexivity|]. intros c (b & r & X & _). destruct b; discriminate X.
  - rewrite fold_cons in E. destruct (LoadField a s c) as [z|] eqn:Ez; [|rewrite fold_none in E; discriminate]. destruct (step_part _ _ _ _ Ez) as (K & St). destruct (St name) as (S1 & S2).
    destruct (kind_parts _ _ _ _ K P) as (pz & Pz & Lz). destruct (IH z s' name k E) as (I1 & I2); [exists pz; split; [exact Pz|congruence]|]. split.
    + intro H. inversion H as [|? ? H1 H2]; subst. rewrite (I1 H2). now apply S2.
    + intros d (b & r & X & Hd & Hr). destruct b as [|b0 b]; cbn in X; injection X as -> ->.
      * destruct (S1 Hd p P) as (p' & u & F & G). rewrite L in F. exists p', u. split; [exact F|]. rewrite (I1 Hr). exact G.
      * apply I2. exists b, r. auto.
Qed.
(** Loading an element into a shape of its type: every part is what the last element of its name says, or what it was if there is none. *)
Lemma tag_name {A} (s : shape A) : tag s = collada_name s. Proof. now destruct s. Qed.
Theorem C122_import : forall a s n s', is_elem (collada_name s) n -> LoadPAS a s n = Some s' ->
  same_kind s s' /\
  forall name l, part_of s name = Some l ->
    (none_of (children_of n) name -> part_of s' name = Some l) /\
    (forall c vs, last_of (children_of n) name c -> numbers_of float_text (ReadNodeContentDirect c) vs -> List.length vs = List.length l ->
       exists l', part_of s' name = Some l' /\ Forall2 (fun v q => q == v)%Q vs l').
Proof.
  intros a s n s' T E. unfold LoadPAS in E. rewrite tag_name in E. apply named_iff in T. rewrite T in E. split; [eapply fold_kind; exact E|]. intros name l P.
  destruct (fold_part _ _ _ _ name _ E (ex_intro _ l (conj P eq_refl))) as (F1 & F2). split; [intro H; rewrite (F1 H); exact P|].
  intros c vs Hc Hv Hl. destruct (F2 c Hc) as (p' & r & F & G). destruct (floats_of_parse a _ _ Hv) as (rs & Hp & Hk). exists rs. split; [|exact Hk].
  rewrite G. assert (Lr : List.length rs = List.length l) by (rewrite <- Hl; clear -Hk; induction Hk; cbn; congruence). rewrite <- Lr, (to_floats_parse _ _ _ Hp) in F. congruence.
Qed.
Print Assumptions C122_import.
(** Loading does not fail on documents without the letter I in their texts, whatever they contain. *)
Theorem C122_safe : forall s n, calm n -> exists s', LoadPAS Wrapping s n = Some s'.
Proof.
  intros s n H. unfold LoadPAS. destruct (named n (tag s)); [|eauto]. assert (C : forall c, In c (children_of n) -> calm c) by (intros c; now apply calm_children). revert s C. clear H.
  induction (children_of n) as [|c l IH]; intros s C; [exists s; reflexivity|]. rewrite fold_cons.
  assert (X : exists z, LoadField Wrapping s c = Some z).
  { assert (G := calm_content c (C c (or_introl eq_refl))). assert (FS : forall k, exists q r, ToFloats Wrapping k (ReadNodeContentDirect c) = Some (q, r) /\ List.length q = k).
    { intro k. destruct (floats_safe k _ G) as (q & r & E). exists q, r. split; [exact E|]. eapply floats_length. exact E. }
    destruct (FS 1%nat) as (q1 & r1 & E1 & L1), (FS 2%nat) as (q2 & r2 & E2 & L2), (FS 3%nat) as (q3 & r3 & E3 & L3), (FS 4%nat) as (q4 & r4 & E4 & L4).
    destruct q1 as [|? [|]]; try discriminate L1. destruct q2 as [|? [|? [|]]]; try discriminate L2. destruct q3 as [|? [|? [|? [|]]]]; try discriminate L3. destruct q4 as [|? [|? [|? [|? [|]]]]]; try discriminate L4.
    destruct s; cbn [LoadField]; rewrite ?E1, ?E2, ?E3, ?E4; repeat match goal with |- context [named c ?k] => destruct (named c k) end; eauto. }
  destruct X as (z & ->). apply IH. intros d Hd. apply C. right. exact Hd.
Qed.
Print Assumptions C122_safe.

(** *** Written and loaded *)
(** The numbers as they are written: for a plane they start with the second. *)
Definition turned (s : shape Q) : shape Q := match s with Plane x y z d => Plane y z d x | _ => s end.
Lemma field_read a eps f t : machine_eps eps -> Forall finite (snd (fst f)) -> ToString_vector eps (map Fin (snd (fst f))) t ->
  exists rs, ToFloats a (List.length (snd (fst f))) (ReadNodeContentDirect (field_element f t)) = Some (rs, []) /\ Forall2 (remains eps) (snd (fst f)) rs.
Proof.
  intros He Hf Ht. destruct (floats_written eps _ He Hf t Ht) as (vs & Hv & Hr & Hok). destruct (floats_of_parse a _ _ Hv) as (rs & Hp & Hk).
  assert (X : ReadNodeContentDirect (field_element f t) = t).
  { destruct f as [[name l] b]. unfold field_element. rewrite (content_same t Hok). destruct b, t; reflexivity. }
  exists rs. rewrite X. split.
  - replace (List.length (snd (fst f))) with (List.length rs); [now apply to_floats_parse|]. transitivity (List.length vs); [clear -Hk; induction Hk; cbn; congruence|clear -Hr; induction Hr; cbn; congruence].
  - revert rs Hk Hp. clear -Hr. intros rs Hk _. revert rs Hk. induction Hr as [|x v l l' R _ IH]; intros rs Hk; inversion Hk; subst; constructor; [eapply remains_eq; eassumption|auto].
Qed.
Lemma list2 {A B} (R : A -> B -> Prop) x l : Forall2 R [x] l -> exists y, l = [y] /\ R x y. Proof. intro H. inversion H as [|? y ? ? ? H1]; subst. inversion H1; subst. eauto. Qed.
Theorem C122_written : forall a eps s x n, machine_eps eps -> finite_shape s -> same_kind s x -> WritePAS eps s n ->
  exists s', LoadPAS a x n = Some s' /\ parts_related (remains eps) (turned s) s'.
Proof.
  intros a eps s x n He Hf K (ts & Hts & ->). unfold LoadPAS. rewrite <- (kind_tag _ _ K). assert (N : forall m l, named (Elem (tx m) [] l) m = true) by (intros m l; apply named_iff; do 2 eexists; reflexivity). rewrite N. cbn [children_of].
  assert (FF : Forall (fun f => Forall finite (snd (fst f))) (fields s)).
  { destruct K; cbn [fields]; repeat (match goal with |- Forall (fun _ => _) _ => idtac end; apply Forall_cons); try apply Forall_nil; cbn [fst snd];
    try (eapply (Hf "half_extents"%string); reflexivity); try (eapply (Hf "radius"%string); reflexivity); try (eapply (Hf "height"%string); reflexivity); try (eapply (Hf "radius1"%string); reflexivity); try (eapply (Hf "radius2"%string); reflexivity).
    assert (X := Hf "equation"%string _ eq_refl). inversion X as [|? ? X1 Y1]; subst. inversion Y1 as [|? ? X2 Y2]; subst. inversion Y2 as [|? ? X3 Y3]; subst. inversion Y3; subst. repeat (constructor; [assumption|]). constructor. }
  assert (RD : Forall2 (fun f t => exists rs, ToFloats a (List.length (snd (fst f))) (ReadNodeContentDirect (field_element f t)) = Some (rs, []) /\ Forall2 (remains eps) (snd (fst f)) rs) (fields s) ts).
  { clear -He Hts FF. induction Hts as [|f t l l' Ht _ IH]; [constructor|]. inversion FF; subst. constructor; [now apply field_read|auto]. }
  clear Hts FF Hf. revert RD.
  destruct K; cbn [fields]; intro RD;
  repeat match goal with H : Forall2 _ (_ :: _) _ |- _ => let t := fresh "t" in let l := fresh "l" in let H1 := fresh "R" in let H2 := fresh "RD" in inversion H as [|? t ? l H1 H2]; subst; clear H end;
  repeat match goal with H : Forall2 _ [] _ |- _ => inversion H; subst; clear H end; cbn [combine map fst snd] in *;
  repeat match goal with H : exists rs, _ /\ Forall2 _ _ _ |- _ => let rs := fresh "rs" in let E := fresh "E" in let F := fresh "F" in destruct H as (rs & E & F); cbn [List.length] in E end;
  repeat match goal with H : Forall2 _ (_ :: _) _ |- _ => let H1 := fresh "Q" in let H2 := fresh "RD" in inversion H as [|? ? ? ? H1 H2]; subst; clear H end;
  repeat match goal with H : Forall2 _ [] _ |- _ => inversion H; subst; clear H end;
  rewrite ?fold_cons; cbn [LoadField field_element]; unfold field_element in *; rewrite ?fold_cons; cbn [LoadField];
  repeat (match goal with |- context [named (Elem ?u ?v ?w) ?k] => let b := eval vm_compute in (text_eq u (tx k)) in change (named (Elem u v w) k) with b end; cbn match; repeat match goal with E : ToFloats _ _ _ = _ |- _ => rewrite E end; rewrite ?fold_cons; cbn [LoadField]);
  (eexists; split; [reflexivity|]; cbn [turned]; split; [first [apply K_box|apply K_plane|apply K_sphere|apply K_cylinder|apply K_capsule|apply K_tcylinder|apply K_tcapsule]|]);
  intros name l P; cbn [turned part_of] in *; repeat match type of P with (if string_dec ?x ?y then _ else _) = _ => destruct (string_dec x y) end; try discriminate P; injection P as <-; eexists; (split; [reflexivity|]); repeat (apply Forall2_cons; [assumption|]); apply Forall2_nil.
Qed.
Print Assumptions C122_written.

(** The full claim, false of planes: for every shape with finite numbers, parts_related (remains eps) s s'. *)
Theorem C122_saved_partial : forall a eps s x n, machine_eps eps -> finite_shape s -> collada_name s <> "plane"%string -> same_kind s x -> WritePAS eps s n ->
  exists s', LoadPAS a x n = Some s' /\ parts_related (remains eps) s s'.
Proof.
  intros a eps s x n He Hf Hn K Hw. destruct (C122_written a eps s x n He Hf K Hw) as (s' & E & R). exists s'. split; [exact E|]. destruct s; try exact R. now contradiction Hn.
Qed.
Print Assumptions C122_saved_partial.
(** A plane comes back with the equation turned by one place: a, b, c, d as b, c, d, a. *)
Theorem C122_plane : forall a eps x y z d p n, machine_eps eps -> finite_shape (Plane x y z d) -> same_kind (Plane x y z d) p -> WritePAS eps (Plane x y z d) n ->
  exists x' y' z' d', LoadPAS a p n = Some (Plane x' y' z' d') /\ remains eps y x' /\ remains eps z y' /\ remains eps d z' /\ remains eps x d'.
Proof.
  intros a eps x y z d p n He Hf K Hw. destruct (C122_written a eps _ p n He Hf K Hw) as (s' & E & (K' & R)). cbn [turned] in *. inversion K' as [|? ? ? ? x' y' z' d' A1 A2| | | | |]; subst.
  exists x', y', z', d'. split; [exact E|]. destruct (R "equation"%string _ eq_refl) as (l' & P & F). cbn in P. injection P as <-.
  inversion F as [|? ? ? ? F1 G1]; subst. inversion G1 as [|? ? ? ? F2 G2]; subst. inversion G2 as [|? ? ? ? F3 G3]; subst. inversion G3; subst. auto.
Qed.
Print Assumptions C122_plane.
(** A shape is written as the element of its name, other elements leave it alone, and shapes of different kinds have different names. *)
Theorem C122_names : forall s : shape Q, (forall eps n, WritePAS eps s n -> is_elem (collada_name s) n) /\
  (forall a n, ~ is_elem (collada_name s) n -> LoadPAS a s n = Some s) /\ (forall t : shape Q, collada_name s = collada_name t -> same_kind s t).
Proof.
  intro s. split; [intros eps n (ts & _ & ->); destruct s; do 2 eexists; reflexivity|]. split.
  - intros a n H. unfold LoadPAS. rewrite tag_name. assert (X : named n (collada_name s) = false) by now apply named_not. now rewrite X.
  - intros t H. destruct s, t; try discriminate H; constructor.
Qed.
Print Assumptions C122_names.
(** Every shape can be written. *)
Theorem C122_writable : forall eps s, machine_eps eps -> exists n, WritePAS eps s n.
Proof.
  intros eps s He. assert (X : exists ts, Forall2 (fun f t => ToString_vector eps (map Fin (snd (fst f))) t) (fields s) ts).
  { induction (fields s) as [|f l (ts & IH)]; [exists []; constructor|]. destruct (floats_writable eps (snd (fst f)) He) as (t & Ht). exists (t :: ts). constructor; assumption. }
  destruct X as (ts & H). eexists. exists ts. split; [exact H|reflexivity].
Qed.
Print Assumptions C122_writable.
(** The plane x + 5 = 0: whatever is written for it, it is read back as another plane. *)
Theorem C122_plane_refuted : exists s : shape Q, finite_shape s /\ (exists n, WritePAS eps_float s n) /\
  forall a x n s', same_kind s x -> WritePAS eps_float s n -> LoadPAS a x n = Some s' -> ~ parts_related (remains eps_float) s s'.
Proof.
  assert (He : machine_eps eps_float) by now left.
  assert (Hf : finite_shape (Plane 1 0 0 5)).
  { intros name l P. cbn [part_of] in P. destruct (string_dec name "equation"); [|discriminate P]. injection P as <-. repeat (apply Forall_cons; [apply small_finite; vm_compute; discriminate|]). apply Forall_nil. }
  exists (Plane 1 0 0 5). split; [exact Hf|]. split; [now apply C122_writable|].
  intros a x n s' K Hw E (_ & R). destruct (C122_plane a eps_float 1 0 0 5 x n He Hf K Hw) as (x' & y' & z' & d' & E' & (Hx & _) & _). rewrite E' in E. injection E as <-.
  destruct (R "equation"%string _ eq_refl) as (l' & P & F). cbn in P. injection P as <-. inversion F as [|? ? ? ? (_ & F1) _]; subst.
  assert (X : (x' == 0)%Q) by (apply Hx; vm_compute; reflexivity). destruct F1 as (F1 & _); [vm_compute; discriminate|]. rewrite X in F1. vm_compute in F1. now apply F1.
Qed.
Print Assumptions C122_plane_refuted.

(** A tapered capsule, written and loaded into one with other numbers; a sphere element with an element that is not its own, and elements
    that occur twice. *)
Definition pill : shape Q := TaperedCapsule 1 (1 # 2) 5 0 45.
Definition pill_element : xml := Elem (tx "tapered_capsule") [] [Elem (tx "height") [] [Text (tx "5")]; Elem (tx "radius1") [] [Text (tx "1 0.5")]; Elem (tx "radius2") [] [Text (tx "0 45")]].
Example C122_demo :
  WritePAS eps_float pill pill_element /\ finite_shape pill /\ collada_name pill <> "plane"%string /\
  LoadPAS Strict (TaperedCapsule 9 9 9 9 9) pill_element = Some (TaperedCapsule 1 (5 # 10) 5 0 45) /\
  (let n := Elem (tx "sphere") [] [Elem (tx "radius") [] [Text (tx "1")]; Elem (tx "height") [] [Text (tx "x")]; Elem (tx "radius") [] [Text (tx " 5 ")]] in
   calm n /\ LoadPAS Wrapping (Sphere 0) n = Some (Sphere 5) /\ last_of (children_of n) "radius" (Elem (tx "radius") [] [Text (tx " 5 ")])).
Proof.
  split; [|split; [|split; [discriminate|split; [vm_compute; reflexivity|split; [|split; [vm_compute; reflexivity|]]]]]].
  - exists [tx "5"; tx "1 0.5"; tx "0 45"]. split; [|vm_compute; reflexivity]. cbn [fields pill]. repeat apply Forall2_cons; cbn [fst snd map].
    + change (tx "5") with ([] ++ tx "5" ++ []). apply (TS_cons eps_float []); [apply print_5|apply AR_nil].
    + change (tx "1 0.5") with ([] ++ tx "1" ++ 32%Z :: tx "0.5" ++ []). apply (TS_cons eps_float []); [apply print_1|]. apply AR_cons; [apply print_half|apply AR_nil].
    + change (tx "0 45") with ([] ++ tx "0" ++ 32%Z :: tx "45" ++ []). apply (TS_cons eps_float []); [apply print_0|]. apply AR_cons; [apply print_45|apply AR_nil].
    + apply Forall2_nil.
  - intros name l P. cbn [part_of pill] in P. repeat match type of P with (if string_dec ?x ?y then _ else _) = _ => destruct (string_dec x y) end; try discriminate P; injection P as <-;
    repeat (apply Forall_cons; [apply small_finite; vm_compute; discriminate|]); apply Forall_nil.
  - repeat (constructor; try (cbn; intuition discriminate)).
  - exists [Elem (tx "radius") [] [Text (tx "1")]; Elem (tx "height") [] [Text (tx "x")]], []. split; [reflexivity|]. split; [do 2 eexists; reflexivity|constructor].
Qed.
