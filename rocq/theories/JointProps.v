(** C125 (rigid constraints in documents) and C126 (physics materials in documents). *)
From Coq Require Import String List ZArith QArith Bool Lia.
From Verif Require Import TextModel TextSpec StringModel StringProofs XmlModel FloatModel FloatSpec FloatProofs FloatWrite FloatProps DaeModel DaeSpec DaeProofs DaeProps RigModel RigSpec RigTextProofs RigProofs RigWriteProofs NodeSpec NodeSafeProofs LampModel LampSpec LampProofs LampSafeProofs LampWriteProofs LampProps WireProps ShadeSpec ShadeProofs JointModel JointSpec.
Import ListNotations.
Local Open Scope list_scope.

(** *** Paths *)
Definition walk (l : list string) (n : option xml) : option xml := fold_left child_of l n.
Lemma walk_none l : walk l None = None. Proof. induction l; auto. Qed.
Lemma at_walk l n m : at_path l n m -> walk l (Some n) = Some m.
Proof. induction 1 as [|k l n c m H _ IH]; [reflexivity|]. unfold walk in *. cbn [fold_left child_of]. unfold FindChildByType. now rewrite (find_elem _ _ _ H). Qed.
Lemma off_walk l n : off_path l n -> walk l (Some n) = None.
Proof.
  induction 1 as [k l n H|k l n c H _ IH]; unfold walk in *; cbn [fold_left child_of]; unfold FindChildByType; [rewrite (find_no_elem _ _ H); apply walk_none|now rewrite (find_elem _ _ _ H)].
Qed.
Lemma limit_walk t f : limit_node t f = walk (limit_path f) (Some t). Proof. destruct f; reflexivity. Qed.
Lemma spring_walk n f : spring_node n f = match walk (spring_path f) (Some n) with Some p => Some p | None => walk (old_path f) (Some n) end.
Proof. destruct f; unfold spring_node, old_path, spring_path, walk; cbn [fold_left]; change (child_of (Some n) "spring") with (FindChildByType n "spring"); match goal with |- context [match ?x with Some p => Some p | None => _ end] => destruct x end; reflexivity. Qed.
Lemma friction_walk n f : child_of (FindChildByType n "technique_common") (friction_name f) = walk (friction_path f) (Some n). Proof. destruct f; reflexivity. Qed.

(** *** One field at a time *)
Lemma limit_same f : limit_beq f f = true. Proof. now destruct f. Qed.
Lemma limit_other f g : f <> g -> limit_beq f g = false. Proof. destruct f, g; congruence || reflexivity. Qed.
Lemma spring_same f : spring_beq f f = true. Proof. now destruct f. Qed.
Lemma spring_other f g : f <> g -> spring_beq f g = false. Proof. destruct f, g; congruence || reflexivity. Qed.
Lemma friction_same f : friction_beq f f = true. Proof. now destruct f. Qed.
Lemma friction_other f g : f <> g -> friction_beq f g = false. Proof. destruct f, g; congruence || reflexivity. Qed.
Lemma limits_fold a t l : forall c c', fold_option (load_limit a t) l (Some c) = Some c' -> springs c' = springs c /\
  (forall f, ~ In f l \/ limit_node t f = None -> limits c' f = limits c f) /\
  (forall f n, In f l -> limit_node t f = Some n -> exists r, ToVector3 a (ReadNodeContentDirect n) = Some (limits c' f, r)).
Proof.
  induction l as [|g l IH]; intros c c' E; [cbn in E; injection E as <-; split; [reflexivity|split; [reflexivity|intros f n []]]|].
  rewrite fold_cons in E. destruct (load_limit a t c g) as [d|] eqn:Ed; [|rewrite fold_none in E; discriminate]. destruct (IH d c' E) as (I1 & I2 & I3). unfold load_limit in Ed. split; [|split].
  - rewrite I1. destruct (limit_node t g) as [p|]; [|now injection Ed as <-]. destruct (ToVector3 _ _) as [[v r]|]; [|discriminate]. now injection Ed as <-.
  - intros f H. rewrite I2 by (destruct H as [H|H]; [left; intro; apply H; now right|now right]). destruct (limit_node t g) as [p|] eqn:Eg; [|now injection Ed as <-]. destruct (ToVector3 _ _) as [[v r]|]; [|discriminate].
    injection Ed as <-. cbn. rewrite limit_other; [reflexivity|]. intros ->. destruct H as [H|H]; [apply H; now left|congruence].
  - intros f n H Hn. destruct (in_dec limit_eq_dec f l) as [X|X]; [now apply I3|]. destruct H as [->|H]; [|contradiction]. rewrite Hn in Ed. rewrite (I2 f (or_introl X)). destruct (ToVector3 _ _) as [[v r]|]; [|discriminate].
    injection Ed as <-. cbn. rewrite limit_same. eauto.
Qed.
Lemma springs_fold a t l : forall c c', fold_option (load_spring a t) l (Some c) = Some c' -> limits c' = limits c /\
  (forall f, ~ In f l \/ spring_node t f = None -> springs c' f = springs c f) /\
  (forall f n, In f l -> spring_node t f = Some n -> exists r, ToFloat a (ReadNodeContentDirect n) = Some (springs c' f, r)).
Proof.
  induction l as [|g l IH]; intros c c' E; [cbn in E; injection E as <-; split; [reflexivity|split; [reflexivity|intros f n []]]|].
  rewrite fold_cons in E. destruct (load_spring a t c g) as [d|] eqn:Ed; [|rewrite fold_none in E; discriminate]. destruct (IH d c' E) as (I1 & I2 & I3). unfold load_spring in Ed. split; [|split].
  - rewrite I1. destruct (spring_node t g) as [p|]; [|now injection Ed as <-]. destruct (ToFloat _ _) as [[v r]|]; [|discriminate]. now injection Ed as <-.
  - intros f H. rewrite I2 by (destruct H as [H|H]; [left; intro; apply H; now right|now right]). destruct (spring_node t g) as [p|] eqn:Eg; [|now injection Ed as <-]. destruct (ToFloat _ _) as [[v r]|]; [|discriminate].
    injection Ed as <-. cbn. rewrite spring_other; [reflexivity|]. intros ->. destruct H as [H|H]; [apply H; now left|congruence].
  - intros f n H Hn. destruct (in_dec spring_eq_dec f l) as [X|X]; [now apply I3|]. destruct H as [->|H]; [|contradiction]. rewrite Hn in Ed. rewrite (I2 f (or_introl X)). destruct (ToFloat _ _) as [[v r]|]; [|discriminate].
    injection Ed as <-. cbn. rewrite spring_same. eauto.
Qed.
Lemma frictions_fold a t l : forall c c', fold_option (load_friction a t) l (Some c) = Some c' ->
  (forall f, ~ In f l \/ child_of t (friction_name f) = None -> c' f = c f) /\
  (forall f n, In f l -> child_of t (friction_name f) = Some n -> exists r, ToFloat a (ReadNodeContentDirect n) = Some (c' f, r)).
Proof.
  induction l as [|g l IH]; intros c c' E; [cbn in E; injection E as <-; split; [reflexivity|intros f n []]|].
  rewrite fold_cons in E. destruct (load_friction a t c g) as [d|] eqn:Ed; [|rewrite fold_none in E; discriminate]. destruct (IH d c' E) as (I2 & I3). unfold load_friction in Ed. split.
  - intros f H. rewrite I2 by (destruct H as [H|H]; [left; intro; apply H; now right|now right]). destruct (child_of t (friction_name g)) as [p|] eqn:Eg; [|now injection Ed as <-]. destruct (ToFloat _ _) as [[v r]|]; [|discriminate].
    injection Ed as <-. rewrite friction_other; [reflexivity|]. intros ->. destruct H as [H|H]; [apply H; now left|congruence].
  - intros f n H Hn. destruct (in_dec friction_eq_dec f l) as [X|X]; [now apply I3|]. destruct H as [->|H]; [|contradiction]. rewrite Hn in Ed. rewrite (I2 f (or_introl X)). destruct (ToFloat _ _) as [[v r]|]; [|discriminate].
    injection Ed as <-. rewrite friction_same. eauto.
Qed.
Lemma loaded a c n c' : is_elem "rigid_constraint" n -> LoadPhysicsRigidConstraint a c n = Some c' -> forall t, FindChildByType n "technique_common" = Some t ->
  (forall f, limit_node t f = None -> limits c' f = limits c f) /\ (forall f p, limit_node t f = Some p -> exists r, ToVector3 a (ReadNodeContentDirect p) = Some (limits c' f, r)) /\
  (forall f, spring_node n f = None -> springs c' f = springs c f) /\ (forall f p, spring_node n f = Some p -> exists r, ToFloat a (ReadNodeContentDirect p) = Some (springs c' f, r)).
Proof.
  intros Hn E t Ht. unfold LoadPhysicsRigidConstraint in E. apply named_iff in Hn. rewrite Hn, Ht in E. destruct (fold_option (load_limit a t) _ _) as [d|] eqn:Ed; [|discriminate].
  destruct (limits_fold _ _ _ _ _ Ed) as (A1 & A2 & A3), (springs_fold _ _ _ _ _ E) as (B1 & B2 & B3). rewrite B1, <- A1. repeat split.
  - intros f H. apply A2. now right.
  - intros f p H. apply A3; [destruct f; cbn; tauto|exact H].
  - intros f H. apply B2. now right.
  - intros f p H. apply B3; [destruct f; cbn; tauto|exact H].
Qed.

(** *** C125 *)
(** What is read from an element.  Limits are below <technique_common>; the springs are looked for below the element itself. *)
Theorem C125_import : forall a c n t c', is_elem "rigid_constraint" n -> first_child (children_of n) (is_elem "technique_common") t ->
  LoadPhysicsRigidConstraint a c n = Some c' ->
  (forall f m x y z, at_path (limit_path f) t m -> three_numbers (ReadNodeContentDirect m) x y z ->
     exists x' y' z', limits c' f = Some (x', y', z') /\ x' == x /\ y' == y /\ z' == z)%Q /\
  (forall f, off_path (limit_path f) t -> limits c' f = limits c f) /\
  (forall f m q, at_path (spring_path f) n m \/ off_path (spring_path f) n /\ at_path (old_path f) n m -> one_number (ReadNodeContentDirect m) q -> springs c' f == q)%Q /\
  (forall f, off_path (spring_path f) n -> off_path (old_path f) n -> springs c' f = springs c f).
Proof.
  intros a c n t c' Hn Ht E. destruct (loaded a c n c' Hn E t (find_elem _ _ _ Ht)) as (L1 & L2 & S1 & S2). repeat split.
  - intros f m x y z Hm Hv. destruct (L2 f m) as (r & Er); [rewrite limit_walk; now apply at_walk|]. destruct (read_three a _ _ _ _ Hv) as (x' & y' & z' & r' & Ev & Q1 & Q2 & Q3). rewrite Ev in Er. injection Er as Er _. eauto 10.
  - intros f H. apply L1. rewrite limit_walk. now apply off_walk.
  - intros f m q Hm Hq. destruct (S2 f m) as (r & Er).
    { rewrite spring_walk. destruct Hm as [H|[H1 H2]]; [now rewrite (at_walk _ _ _ H)|]. rewrite (off_walk _ _ H1). now apply at_walk. }
    destruct (read_one a _ _ Hq) as (q' & r' & Eq & Hk). rewrite Eq in Er. injection Er as Er _. now rewrite <- Er.
  - intros f H1 H2. apply S1. rewrite spring_walk, (off_walk _ _ H1). now apply off_walk.
Qed.
Print Assumptions C125_import.
(** Without <technique_common>, or from an element of another name, nothing is read. *)
Theorem C125_nothing : forall a c n, ~ is_elem "rigid_constraint" n \/ Forall (fun d => ~ is_elem "technique_common" d) (children_of n) -> LoadPhysicsRigidConstraint a c n = Some c.
Proof.
  intros a c n H. unfold LoadPhysicsRigidConstraint. destruct H as [H|H]; [apply named_not in H; now rewrite H|]. destruct (named n _); [|reflexivity]. unfold FindChildByType. now rewrite (find_no_elem _ _ H).
Qed.
Print Assumptions C125_nothing.
Lemma walk_calm l : forall n m, calm n -> walk l (Some n) = Some m -> calm m.
Proof.
  induction l as [|k l IH]; intros n m H E; [cbn in E; now injection E as <-|]. unfold walk in *. cbn [fold_left child_of] in E. destruct (FindChildByType n k) as [c|] eqn:Ec; [|pose proof (walk_none l) as W; unfold walk in W; rewrite W in E; discriminate].
  apply (IH c m); [|exact E]. apply (calm_children n); [exact H|]. apply find_some in Ec. tauto.
Qed.
Theorem C125_safe : forall c n, calm n -> exists c', LoadPhysicsRigidConstraint Wrapping c n = Some c'.
Proof.
  intros c n H. unfold LoadPhysicsRigidConstraint. destruct (named n _); [|eauto]. destruct (FindChildByType n "technique_common") as [t|] eqn:Et; [|eauto].
  assert (Ct : calm t) by (apply (calm_children n); [exact H|]; apply find_some in Et; tauto).
  assert (L : forall l x, exists y, fold_option (load_limit Wrapping t) l (Some x) = Some y).
  { induction l as [|f l IH]; intro x; [exists x; reflexivity|]. rewrite fold_cons. unfold load_limit at 2. rewrite limit_walk. destruct (walk _ _) as [m|] eqn:Em; [|apply IH].
    destruct (vector_safe (ReadNodeContentDirect m)) as (v & s & ->); [apply calm_content; eapply (walk_calm _ t); eassumption|apply IH]. }
  assert (S : forall l x, exists y, fold_option (load_spring Wrapping n) l (Some x) = Some y).
  { induction l as [|f l IH]; intro x; [exists x; reflexivity|]. rewrite fold_cons. unfold load_spring at 2. destruct (spring_node n f) as [m|] eqn:Em; [|apply IH].
    destruct (float_safe (ReadNodeContentDirect m)) as (v & s & ->); [|apply IH]. apply calm_content. rewrite spring_walk in Em. destruct (walk (spring_path f) (Some n)) as [p|] eqn:Ep; [injection Em as <-|]; eapply (walk_calm _ n); eassumption. }
  destruct (L [LinearMin; LinearMax; SCTMin; SCTMax] c) as (d & ->). apply S.
Qed.
Print Assumptions C125_safe.
Lemma extra_not k l : tx k <> tx "extra" -> only_extra l -> Forall (fun d => ~ is_elem k d) l.
Proof. intro K. apply Forall_impl. intros d (u & v & ->) (u' & v' & E). apply K. symmetry. exact (f_equal (fun x => match x with Elem n _ _ => n | Text _ => [] end) E). Qed.
(** Written and loaded: the limits come back, and the springs are those that the constraint had before it was loaded. *)
Theorem C125_saved_partial : forall a eps c x attrs r t e i extra n, machine_eps eps -> finite_constraint c -> only_extra extra ->
  WritePhysicsRigidConstraint eps c attrs r t e i extra n ->
  exists c', LoadPhysicsRigidConstraint a x n = Some c' /\ (forall f, vector_remains eps (limits c f) (limits c' f)) /\ (forall f, springs c' f = springs x f).
Proof.
  intros a eps c x attrs r t e i extra n He (Fl & Fs) Hx (lt & st & Hl & Hs & ->).
  assert (V : forall f, exists x' y' z' rest, ToVector3 a (lt f) = Some (Some (x', y', z'), rest) /\ vector_remains eps (limits c f) (Some (x', y', z'))).
  { intro f. destruct (Hl f) as (u & v & w & Ef & Ht), (Fl f) as (u' & v' & w' & Ef' & F1 & F2 & F3). rewrite Ef in Ef'. injection Ef' as <- <- <-.
    destruct (printed_color eps u v w (lt f) He F1 F2 F3 Ht) as (_ & _ & u1 & v1 & w1 & Hn & R1 & R2 & R3). destruct (read_three a _ _ _ _ Hn) as (u2 & v2 & w2 & rest & E & Q1 & Q2 & Q3).
    exists u2, v2, w2, rest. split; [exact E|]. exists u, v, w, u2, v2, w2. split; [exact Ef|]. split; [reflexivity|]. repeat split; eapply remains_eq; eassumption. }
  set (T := Elem (tx "technique_common") [] [Elem (tx "enabled") [] e; Elem (tx "interpenetrate") [] i; limits_element lt; spring_element st]).
  assert (N : forall f, exists p, limit_node T f = Some p /\ ReadNodeContentDirect p = lt f) by (intros []; (eexists; split; [reflexivity|apply content_direct])).
  assert (S0 : FindChildByType (constraint_element attrs r t e i extra lt st) "spring" = None).
  { unfold FindChildByType. apply find_no_elem. cbn [children_of constraint_element]. apply Forall_app. split; [|apply extra_not; [discriminate|exact Hx]].
    repeat (apply Forall_cons; [intros (u' & v' & E); discriminate E|]). apply Forall_nil. }
  assert (S1 : forall f, spring_node (constraint_element attrs r t e i extra lt st) f = None) by (intros []; unfold spring_node; rewrite S0; reflexivity).
  assert (L : forall l y, exists z, fold_option (load_limit a T) l (Some y) = Some z).
  { induction l as [|f l IH]; intro y; [exists y; reflexivity|]. rewrite fold_cons. unfold load_limit at 2. destruct (N f) as (p & -> & ->). destruct (V f) as (x' & y' & z' & rest & -> & _). apply IH. }
  assert (SS : forall l y, fold_option (load_spring a (constraint_element attrs r t e i extra lt st)) l (Some y) = Some y).
  { induction l as [|f l IH]; intro y; [reflexivity|]. rewrite fold_cons. unfold load_spring at 2. rewrite S1. apply IH. }
  destruct (L [LinearMin; LinearMax; SCTMin; SCTMax] x) as (d & Ed).
  assert (E : LoadPhysicsRigidConstraint a x (constraint_element attrs r t e i extra lt st) = Some d).
  { unfold LoadPhysicsRigidConstraint. assert (X : named (constraint_element attrs r t e i extra lt st) "rigid_constraint" = true) by (apply named_iff; do 2 eexists; reflexivity). rewrite X.
    change (FindChildByType (constraint_element attrs r t e i extra lt st) "technique_common") with (Some T). cbn match. rewrite Ed. apply SS. }
  exists d. split; [exact E|]. destruct (limits_fold _ _ _ _ _ Ed) as (A1 & A2 & A3). split; [|intro f; now rewrite A1]. intro f. destruct (N f) as (p & Hp & Hc). destruct (A3 f p) as (rest & Er); [destruct f; cbn; tauto|exact Hp|].
  rewrite Hc in Er. destruct (V f) as (x' & y' & z' & rest' & Ev & R). rewrite Ev in Er. injection Er as <- _. exact R.
Qed.
Print Assumptions C125_saved_partial.
Theorem C125_writable : forall eps c attrs r t e i extra, machine_eps eps -> (forall f, limits c f <> None) -> exists n, WritePhysicsRigidConstraint eps c attrs r t e i extra n.
Proof.
  intros eps c attrs r t e i extra He Hl.
  assert (V : forall f, exists u, exists x y z, limits c f = Some (x, y, z) /\ ToString_vector eps (map Fin [x; y; z]) u).
  { intro f. destruct (limits c f) as [[[x y] z]|] eqn:E; [|now destruct (Hl f)]. destruct (floats_writable eps [x; y; z] He) as (u & Hu). exists u, x, y, z. auto. }
  assert (S : forall f, exists u, appends eps (Fin (springs c f)) u) by (intro f; apply (C78_writable eps (Fin (springs c f)) He)).
  destruct (V SCTMin) as (a1 & A1), (V SCTMax) as (a2 & A2), (V LinearMin) as (a3 & A3), (V LinearMax) as (a4 & A4).
  destruct (S AngularStiffness) as (b1 & B1), (S AngularDamping) as (b2 & B2), (S AngularTarget) as (b3 & B3), (S LinearStiffness) as (b4 & B4), (S LinearDamping) as (b5 & B5), (S LinearTarget) as (b6 & B6).
  eexists. exists (fun f => match f with SCTMin => a1 | SCTMax => a2 | LinearMin => a3 | LinearMax => a4 end),
    (fun f => match f with AngularStiffness => b1 | AngularDamping => b2 | AngularTarget => b3 | LinearStiffness => b4 | LinearDamping => b5 | LinearTarget => b6 end).
  split; [intros []; assumption|]. split; [intros []; assumption|reflexivity].
Qed.
Print Assumptions C125_writable.
(** The full claim is false: a constraint with other springs than a new one, whatever is written for it. *)
Theorem C125_springs_refuted : exists c f, finite_constraint c /\ (exists n, WritePhysicsRigidConstraint eps_float c [] ([], []) ([], []) [] [] [] n) /\
  forall a n c', WritePhysicsRigidConstraint eps_float c [] ([], []) ([], []) [] [] [] n -> LoadPhysicsRigidConstraint a new_constraint n = Some c' -> ~ remains eps_float (springs c f) (springs c' f).
Proof.
  assert (He : machine_eps eps_float) by now left. set (c := Constraint (fun _ => Some (0, 0, 0)%Q) (fun _ => 5%Q)).
  assert (F : finite_constraint c) by (split; [intros f; exists 0%Q, 0%Q, 0%Q; split; [reflexivity|]; repeat split; apply small_finite; vm_compute; discriminate|intro f; apply small_finite; vm_compute; discriminate]).
  exists c, LinearDamping. split; [exact F|]. split; [apply C125_writable; [exact He|discriminate]|]. intros a n c' Hw E.
  destruct (C125_saved_partial a _ c new_constraint _ _ _ _ _ _ n He F (Forall_nil _) Hw) as (d & Ed & _ & Hs). rewrite E in Ed. injection Ed as <-. rewrite Hs. cbn. intros (_ & X). destruct X as (X & _); [vm_compute; discriminate|]. vm_compute in X. now apply X.
Qed.
Print Assumptions C125_springs_refuted.

(** A constraint written and loaded into a new one; and an element with the springs where they are looked for, under the name of COLLADA 1.3. *)
Definition hinge : constraint := Constraint (fun f => match f with SCTMax => Some (45, 60, 0)%Q | _ => Some (1, 1 # 2, 0)%Q end) (fun _ => 5%Q).
Definition hinge_limits (f : limit) : list Z := match f with SCTMax => tx "45 60 0" | _ => tx "1 0.5 0" end.
Definition hinge_element : xml := constraint_element [(tx "sid", tx "h")] ([], []) ([], []) [Text (tx "1")] [Text (tx "0")] [Elem (tx "extra") [] []] hinge_limits (fun _ => tx "5").
Definition all_limits (c : constraint) := map (limits c) [SCTMin; SCTMax; LinearMin; LinearMax].
Definition all_springs (c : constraint) := map (springs c) [AngularStiffness; AngularDamping; AngularTarget; LinearStiffness; LinearDamping; LinearTarget].
Definition old_element : xml :=
  Elem (tx "rigid_constraint") [] [Elem (tx "technique_common") [] []; Elem (tx "spring") [] [Elem (tx "linear") [] [Elem (tx "rest_length") [] [Text (tx "5")]]]].
Example C125_demo :
  WritePhysicsRigidConstraint eps_float hinge [(tx "sid", tx "h")] ([], []) ([], []) [Text (tx "1")] [Text (tx "0")] [Elem (tx "extra") [] []] hinge_element /\
  finite_constraint hinge /\ only_extra [Elem (tx "extra") [] []] /\
  option_map (fun c => (all_limits c, all_springs c)) (LoadPhysicsRigidConstraint Strict new_constraint hinge_element) =
    Some ([Some (1, 5 # 10, 0); Some (45, 60, 0); Some (1, 5 # 10, 0); Some (1, 5 # 10, 0)], [1; 0; 0; 1; 0; 0])%Q /\
  calm hinge_element /\ at_path (limit_path SCTMax) (Elem (tx "technique_common") [] [limits_element hinge_limits]) (number_child "max" (tx "45 60 0")) /\
  option_map all_springs (LoadPhysicsRigidConstraint Strict new_constraint old_element) = Some [1; 0; 0; 1; 0; 5]%Q /\
  off_path (spring_path LinearTarget) old_element /\ at_path (old_path LinearTarget) old_element (Elem (tx "rest_length") [] [Text (tx "5")]).
Proof.
  assert (D : forall k k' u v, tx k <> tx k' -> ~ is_elem k (Elem (tx k') u v)) by (intros k k' u v K (u' & v' & E); apply K; symmetry; exact (f_equal (fun x => match x with Elem n _ _ => n | Text _ => [] end) E)).
  assert (I : forall k u v, is_elem k (Elem (tx k) u v)) by (intros; do 2 eexists; reflexivity).
  assert (V : ToString_vector eps_float (map Fin [1; 1 # 2; 0]) (tx "1 0.5 0")).
  { change (tx "1 0.5 0") with ([] ++ tx "1" ++ 32%Z :: tx "0.5" ++ 32%Z :: tx "0" ++ []). apply (TS_cons eps_float []); [apply print_1|]. apply AR_cons; [apply print_half|]. apply AR_cons; [apply print_0|apply AR_nil]. }
  assert (W : ToString_vector eps_float (map Fin [45; 60; 0]) (tx "45 60 0")).
  { change (tx "45 60 0") with ([] ++ tx "45" ++ 32%Z :: tx "60" ++ 32%Z :: tx "0" ++ []). apply (TS_cons eps_float []); [apply print_45|]. apply AR_cons; [apply print_60|]. apply AR_cons; [apply print_0|apply AR_nil]. }
  split; [|split; [|split; [|split; [vm_compute; reflexivity|split; [|split; [|split; [vm_compute; reflexivity|split]]]]]]].
  - exists hinge_limits, (fun _ => tx "5"). split; [intros []; [exists 1%Q, (1 # 2)%Q, 0%Q|exists 45%Q, 60%Q, 0%Q|exists 1%Q, (1 # 2)%Q, 0%Q|exists 1%Q, (1 # 2)%Q, 0%Q]; (split; [reflexivity|assumption])|]. split; [intro; apply print_5|reflexivity].
  - split; [intros []; [exists 1%Q, (1 # 2)%Q, 0%Q|exists 45%Q, 60%Q, 0%Q|exists 1%Q, (1 # 2)%Q, 0%Q|exists 1%Q, (1 # 2)%Q, 0%Q]; (split; [reflexivity|]); repeat split; apply small_finite; vm_compute; discriminate|intro; apply small_finite; vm_compute; discriminate].
  - constructor; [apply I|constructor].
  - repeat (constructor; try (cbn; intuition discriminate)).
  - eapply A_step; [exists [], []; split; [reflexivity|split; [apply I|constructor]]|]. eapply A_step; [exists []; eexists; split; [reflexivity|split; [apply I|constructor]]|].
    eapply A_step; [eexists [_], []; split; [reflexivity|split; [apply I|constructor; [apply D; discriminate|constructor]]]|constructor].
  - eapply O_step; [eexists [_], []; split; [reflexivity|split; [apply I|constructor; [apply D; discriminate|constructor]]]|]. eapply O_step; [exists [], []; split; [reflexivity|split; [apply I|constructor]]|]. apply O_none. constructor; [apply D; discriminate|constructor].
  - eapply A_step; [eexists [_], []; split; [reflexivity|split; [apply I|constructor; [apply D; discriminate|constructor]]]|]. eapply A_step; [exists [], []; split; [reflexivity|split; [apply I|constructor]]|]. eapply A_step; [exists [], []; split; [reflexivity|split; [apply I|constructor]]|constructor].
Qed.

(** *** C126 *)
Theorem C126_import : forall a m n m', is_elem "physics_material" n -> LoadPhysicsMaterial a m n = Some m' ->
  (forall f p q, at_path (friction_path f) n p -> one_number (ReadNodeContentDirect p) q -> m' f == q)%Q /\ (forall f, off_path (friction_path f) n -> m' f = m f).
Proof.
  intros a m n m' Hn E. unfold LoadPhysicsMaterial in E. apply named_iff in Hn. rewrite Hn in E. destruct (frictions_fold _ _ _ _ _ E) as (A1 & A2). split.
  - intros f p q Hp Hq. destruct (A2 f p) as (r & Er); [destruct f; cbn; tauto|rewrite friction_walk; now apply at_walk|]. destruct (read_one a _ _ Hq) as (q' & r' & Eq & Hk). rewrite Eq in Er. injection Er as Er _. now rewrite <- Er.
  - intros f H. apply A1. right. rewrite friction_walk. now apply off_walk.
Qed.
Print Assumptions C126_import.
Theorem C126_safe : forall m n, calm n -> exists m', LoadPhysicsMaterial Wrapping m n = Some m'.
Proof.
  intros m n H. unfold LoadPhysicsMaterial. destruct (named n _); [|eauto]. generalize [Static; Dynamic; Restitution] as l. intro l. revert m. induction l as [|f l IH]; intro m; [exists m; reflexivity|]. rewrite fold_cons. unfold load_friction at 2.
  rewrite friction_walk. destruct (walk _ _) as [p|] eqn:Ep; [|apply IH]. destruct (float_safe (ReadNodeContentDirect p)) as (v & s & ->); [apply calm_content; eapply walk_calm; eassumption|apply IH].
Qed.
Print Assumptions C126_safe.
(** A material of a library or of a rigid body, written and loaded into any material. *)
Theorem C126_saved : forall a eps m x attrs extra n, machine_eps eps -> (forall f, finite (m f)) -> WritePhysicsMaterial eps m attrs extra n ->
  exists m', LoadPhysicsMaterial a x n = Some m' /\ forall f, remains eps (m f) (m' f).
Proof.
  intros a eps m x attrs extra n He Hf (ft & Hw & ->).
  assert (V : forall f, exists q rest, ToFloat a (ft f) = Some (q, rest) /\ remains eps (m f) q).
  { intro f. destruct (printed_number eps (m f) (ft f) He (Hf f) (Hw f)) as (r & Hr & K). destruct (read_one a _ _ Hr) as (q & rest & E & Hq). exists q, rest. split; [exact E|]. eapply remains_eq; eassumption. }
  assert (N : forall f, exists p, child_of (FindChildByType (material_element attrs extra ft) "technique_common") (friction_name f) = Some p /\ ReadNodeContentDirect p = ft f) by (intros []; (eexists; split; [reflexivity|apply content_direct])).
  assert (L : forall l y, exists z, fold_option (load_friction a (FindChildByType (material_element attrs extra ft) "technique_common")) l (Some y) = Some z).
  { induction l as [|f l IH]; intro y; [exists y; reflexivity|]. rewrite fold_cons. unfold load_friction at 2. destruct (N f) as (p & -> & ->). destruct (V f) as (q & rest & -> & _). apply IH. }
  destruct (L [Static; Dynamic; Restitution] x) as (m' & E). exists m'. split.
  - unfold LoadPhysicsMaterial. assert (X : named (material_element attrs extra ft) "physics_material" = true) by (apply named_iff; do 2 eexists; reflexivity). rewrite X. exact E.
  - intro f. destruct (frictions_fold _ _ _ _ _ E) as (_ & A2). destruct (N f) as (p & Hp & Hc). destruct (A2 f p) as (rest & Er); [destruct f; cbn; tauto|exact Hp|]. rewrite Hc in Er. destruct (V f) as (q & rest' & Eq & R). rewrite Eq in Er. injection Er as <- _. exact R.
Qed.
Print Assumptions C126_saved.
(** The material that a shape owns is lost: whatever its numbers are, 0 is loaded for all of them. *)
Theorem C126_shape_refuted : forall a eps m attrs extra n, WriteShapeMaterial eps m attrs extra n -> exists m', LoadShapeMaterial a n = Some m' /\ forall f, (m' f == 0)%Q.
Proof. intros a eps m attrs extra n (inner & (ft & _ & ->) & ->). exists new_material. split; [reflexivity|reflexivity]. Qed.
Print Assumptions C126_shape_refuted.
Theorem C126_writable : forall eps m attrs extra, machine_eps eps -> (exists n, WritePhysicsMaterial eps m attrs extra n) /\ (exists n, WriteShapeMaterial eps m attrs extra n).
Proof.
  intros eps m attrs extra He. assert (X : exists n, WritePhysicsMaterial eps m attrs extra n).
  { assert (S : forall f, exists u, appends eps (Fin (m f)) u) by (intro f; apply (C78_writable eps (Fin (m f)) He)). destruct (S Static) as (b1 & B1), (S Dynamic) as (b2 & B2), (S Restitution) as (b3 & B3).
    eexists. exists (fun f => match f with Static => b1 | Dynamic => b2 | Restitution => b3 end). split; [intros []; assumption|reflexivity]. }
  split; [exact X|]. destruct X as (n & H). eexists. exists n. split; [exact H|reflexivity].
Qed.
Print Assumptions C126_writable.

(** Rubber, in a library and owned by a shape. *)
Definition rubber (f : friction) : Q := match f with Static => 1 | Dynamic => 1 # 2 | Restitution => 5 end.
Definition rubber_element : xml := material_element [(tx "id", tx "r")] [Elem (tx "extra") [] []] (fun f => match f with Static => tx "1" | Dynamic => tx "0.5" | Restitution => tx "5" end).
Definition all_frictions (m : friction -> Q) := map m [Static; Dynamic; Restitution].
Example C126_demo :
  WritePhysicsMaterial eps_float rubber [(tx "id", tx "r")] [Elem (tx "extra") [] []] rubber_element /\ (forall f, finite (rubber f)) /\
  option_map all_frictions (LoadPhysicsMaterial Strict (fun _ => 9%Q) rubber_element) = Some [1; 5 # 10; 5]%Q /\
  WriteShapeMaterial eps_float rubber [(tx "id", tx "r")] [Elem (tx "extra") [] []] (Elem (tx "physics_material") [] [rubber_element]) /\
  option_map all_frictions (LoadShapeMaterial Strict (Elem (tx "physics_material") [] [rubber_element])) = Some [0; 0; 0]%Q /\ calm rubber_element.
Proof.
  assert (W : WritePhysicsMaterial eps_float rubber [(tx "id", tx "r")] [Elem (tx "extra") [] []] rubber_element).
  { eexists. split; [|reflexivity]. intros []; [apply print_1|apply print_half|apply print_5]. }
  split; [exact W|]. split; [intros []; apply small_finite; vm_compute; discriminate|]. split; [vm_compute; reflexivity|]. split; [exists rubber_element; auto|]. split; [vm_compute; reflexivity|].
  repeat (constructor; try (cbn; intuition discriminate)).
Qed.
