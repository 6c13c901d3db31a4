(** C123 (volumes of the analytical shapes), C124 (copies of the analytical shapes). *)
From Coq Require Import String List Bool Reals Lra.
From Verif Require Import MatrixModel SolidModel SolidSpec.
Import ListNotations.
Local Open Scope R_scope.

(** *** C123 *)
(** What a volume is is well-defined. *)
Theorem C123_unique : forall A a b V V', volume_of_sections A a b V -> volume_of_sections A a b V' -> V = V'.
Proof.
  intros A a b V V' (F & HF & ->) (G & HG & ->).
  assert (D : forall x, derivable_pt_lim (F - G)%F x 0) by (intro x; replace 0 with (A x - A x) by ring; apply derivable_pt_lim_minus; auto).
  assert (P : derivable (F - G)%F) by (intro x; exists 0; apply D).
  assert (C : constant (F - G)%F) by (apply (null_derivative_1 _ P); intro x; apply derive_pt_eq_0; apply D).
  specialize (C a b). unfold minus_fct in C. lra.
Qed.
Print Assumptions C123_unique.
Lemma cubic A a b c d : (forall x, A x = b + 2 * c * x + 3 * d * (x * x)) -> forall x, derivable_pt_lim (fun x => a + b * x + c * (x * x) + d * (x * (x * x))) x (A x).
Proof.
  intros H x. rewrite H. assert (X := derivable_pt_lim_id x). assert (X2 := derivable_pt_lim_mult _ _ _ _ _ X X). assert (X3 := derivable_pt_lim_mult _ _ _ _ _ X X2).
  assert (Y1 := derivable_pt_lim_scal _ b _ _ X). assert (Y2 := derivable_pt_lim_scal _ c _ _ X2). assert (Y3 := derivable_pt_lim_scal _ d _ _ X3).
  assert (Y0 := derivable_pt_lim_const a x). assert (Y := derivable_pt_lim_plus _ _ _ _ _ (derivable_pt_lim_plus _ _ _ _ _ (derivable_pt_lim_plus _ _ _ _ _ Y0 Y1) Y2) Y3).
  unfold plus_fct, mult_real_fct, mult_fct, id, fct_cte in Y. match type of Y with derivable_pt_lim _ _ ?l => replace (b + 2 * c * x + 3 * d * (x * x)) with l by ring end. exact Y.
Qed.
Lemma sections A b c d u v V : (forall x, A x = b + 2 * c * x + 3 * d * (x * x)) -> V = b * (v - u) + c * (v * v - u * u) + d * (v * (v * v) - u * (u * u)) -> volume_of_sections A u v V.
Proof. intros H ->. exists (fun x => 0 + b * x + c * (x * x) + d * (x * (x * x))). split; [now apply cubic|ring]. Qed.
Lemma end_half rx ry : 0 < rx -> 0 < ry -> end_volume rx ry (CalculateEllipsoidEndVolume rx ry / 2).
Proof.
  intros Hx Hy. assert (H : 0 < Rmax rx ry) by (apply Rlt_le_trans with rx; [exact Hx|apply Rmax_l]). unfold end_volume, CalculateEllipsoidEndVolume, CalculateEllipsoidVolume. set (m := Rmax rx ry) in *.
  apply (sections _ (ellipse rx ry) 0 (- ellipse rx ry / (3 * (m * m)))); [intro x; unfold ellipsoid_section; field; lra|unfold ellipse; field; lra].
Qed.
Lemma tapered_between rx ry rx2 ry2 h : 0 < h -> volume_of_sections (tapered_section rx ry rx2 ry2 h) 0 h (CalculateTaperedCylinderVolume rx ry rx2 ry2 h).
Proof.
  intro H. apply (sections _ (PI * rx * ry) (PI * (rx * (ry2 - ry) + (rx2 - rx) * ry) / (2 * h)) (PI * ((rx2 - rx) * (ry2 - ry)) / (3 * (h * h)))); [intro x; unfold tapered_section, ellipse; field; lra|unfold CalculateTaperedCylinderVolume; field; lra].
Qed.
Lemma equivalent_near a b : IsEquivalent a b = true -> Rabs (a - b) < 1 / 9999.
Proof. unfold IsEquivalent, FLT_TOLERANCE. destruct (Rlt_dec _ _) as [H1|]; [|discriminate]. destruct (Rlt_dec _ _) as [H2|]; [|discriminate]. intros _. apply Rabs_def1; lra. Qed.
Lemma equivalent_same a : IsEquivalent a a = true.
Proof. unfold IsEquivalent, FLT_TOLERANCE. destruct (Rlt_dec (a - a) _) as [H|H]; [reflexivity|exfalso; apply H; lra]. Qed.
(** The volume of every shape with positive radii and heights is that of the body, unless the two radii of a tapered one are almost but
    not quite the same. *)
Theorem C123_volume_partial : forall s, solid s -> clearly_tapered s -> solid_volume s (CalculateVolume s).
Proof.
  intros [x y z|x y z d|r|rx ry h|rx ry h|rx ry h rx2 ry2|rx ry h rx2 ry2]; cbn [solid clearly_tapered solid_volume CalculateVolume].
  - intros _ _. apply (sections _ (2 * x * (2 * y)) 0 0); [intro; ring|unfold CalculateBoxVolume; ring].
  - intros [].
  - intros _ _. apply (sections _ (PI * (r * r)) 0 (- PI / 3)); [intro; field|unfold CalculateSphereVolume, CalculateEllipsoidVolume; field].
  - intros _ _. apply (sections _ (PI * rx * ry) 0 0); [intro; unfold ellipse; ring|unfold CalculateCylinderVolume; ring].
  - intros (Hx & Hy & _) _. exists (CalculateCylinderVolume rx ry h), (CalculateEllipsoidEndVolume rx ry / 2). split; [|split; [now apply end_half|unfold CalculateCapsuleVolume; field]].
    apply (sections _ (PI * rx * ry) 0 0); [intro; unfold ellipse; ring|unfold CalculateCylinderVolume; ring].
  - intros (Hx & Hy & Hh & Hx2 & Hy2) [(<- & <-)|C].
    + rewrite !equivalent_same. cbn. replace (CalculateCylinderVolume rx ry h) with (CalculateTaperedCylinderVolume rx ry rx ry h) by (unfold CalculateTaperedCylinderVolume, CalculateCylinderVolume; field). now apply tapered_between.
    + replace (IsEquivalent rx rx2 && IsEquivalent ry ry2)%bool with false; [now apply tapered_between|]. symmetry. apply andb_false_iff.
      destruct C as [C|C]; [left|right]; match goal with |- ?e = false => destruct e eqn:E; [|reflexivity] end; apply equivalent_near in E; lra.
  - intros (Hx & Hy & Hh & Hx2 & Hy2) [(<- & <-)|C].
    + rewrite !equivalent_same. cbn. exists (CalculateTaperedCylinderVolume rx ry rx ry h), (CalculateEllipsoidEndVolume rx ry / 2), (CalculateEllipsoidEndVolume rx ry / 2).
      split; [now apply tapered_between|]. split; [now apply end_half|]. split; [now apply end_half|]. unfold CalculateCapsuleVolume, CalculateTaperedCylinderVolume, CalculateCylinderVolume. field.
    + replace (IsEquivalent rx rx2 && IsEquivalent ry ry2)%bool with false.
      2: { symmetry. apply andb_false_iff. destruct C as [C|C]; [left|right]; match goal with |- ?e = false => destruct e eqn:E; [|reflexivity] end; apply equivalent_near in E; lra. }
      do 3 eexists. split; [now apply tapered_between|]. split; [apply (end_half rx ry); assumption|]. split; [apply (end_half rx2 ry2); assumption|]. lra.
Qed.
Print Assumptions C123_volume_partial.
(** The volume of a cone is that of a tapered cylinder that ends in a point. *)
Theorem C123_cone : forall rx ry h, 0 < h -> volume_of_sections (tapered_section rx ry 0 0 h) 0 h (CalculateConeVolume rx ry h).
Proof. intros rx ry h H. replace (CalculateConeVolume rx ry h) with (CalculateTaperedCylinderVolume rx ry 0 0 h) by (unfold CalculateConeVolume, CalculateTaperedCylinderVolume; field). now apply tapered_between. Qed.
Print Assumptions C123_cone.
(** Refuted in full: a tapered cylinder whose radii are both small is taken for a cylinder, and the volume is less than a tenth of what it
    is.  And a plane has the volume 1. *)
Theorem C123_volume_refuted :
  (exists s V, solid s /\ solid_volume s V /\ CalculateVolume s < V / 10) /\ (forall x y z d, CalculateVolume (Plane x y z d) = 1).
Proof.
  split; [|reflexivity]. exists (TaperedCylinder (/ 1000000) (/ 1000000) 1 (/ 20000) (/ 20000)). eexists. split; [cbn; lra|]. split; [cbn [solid_volume]; apply tapered_between; lra|].
  cbn [CalculateVolume]. assert (E : IsEquivalent (/ 1000000) (/ 20000) = true).
  { unfold IsEquivalent, FLT_TOLERANCE. destruct (Rlt_dec _ _) as [H1|H1]; [|exfalso; apply H1; lra]. destruct (Rlt_dec _ _) as [H2|H2]; [reflexivity|exfalso; apply H2; lra]. }
  rewrite E. cbn. unfold CalculateCylinderVolume, CalculateTaperedCylinderVolume. assert (P := PI_RGT_0).
  replace (PI * / 1000000 * / 1000000 * 1) with (PI * (/ 1000000 * / 1000000)) by ring.
  match goal with |- _ < ?e => replace e with (PI * ((2 * / 1000000 * / 1000000 + / 1000000 * / 20000 + / 20000 * / 1000000 + 2 * / 20000 * / 20000) / 60)) by field end.
  apply Rmult_lt_compat_l; [exact P|]. lra.
Qed.
Print Assumptions C123_volume_refuted.
Example C123_demo : solid (TaperedCapsule 1 2 3 2 1) /\ clearly_tapered (TaperedCapsule 1 2 3 2 1) /\
  CalculateTaperedCylinderVolume 1 2 2 1 3 = PI * 13 / 2 /\ CalculateEllipsoidEndVolume 1 2 = 16 * PI / 3.
Proof.
  split; [cbn; lra|]. split; [cbn; right; left; rewrite Rabs_minus_sym; rewrite Rabs_pos_eq; lra|]. split; [unfold CalculateTaperedCylinderVolume; field|].
  unfold CalculateEllipsoidEndVolume, CalculateEllipsoidVolume. rewrite Rmax_right by lra. field.
Qed.

(** *** C124 *)
(** A copy has the same type and the same numbers, and so the same volume; but for planes. *)
Theorem C124_copy_partial : forall (zero : R) (s : shape R),
  same_kind s (Clone zero s) /\ CalculateVolume (Clone zero s) = CalculateVolume s /\
  (collada_name s <> "plane"%string -> forall name, part_of (Clone zero s) name = part_of s name) /\
  (forall x y z d, s = Plane x y z d -> exists d', part_of (Clone zero s) "equation" = Some [x; y; z; d']).
Proof.
  intros zero s. split; [destruct s; constructor|]. split; [destruct s; reflexivity|]. split; [destruct s; intro H; try reflexivity; cbn in H; congruence|]. intros x y z d ->. exists zero. reflexivity.
Qed.
Print Assumptions C124_copy_partial.
(** Refuted for planes: the copy goes through the origin. *)
Theorem C124_copy_refuted : forall x y z d, part_of (Clone 0 (Plane x y z d)) "equation" = Some [x; y; z; 0] /\
  (d <> 0 -> part_of (Clone 0 (Plane x y z d)) "equation" <> part_of (Plane x y z d) "equation").
Proof. intros x y z d. split; [reflexivity|]. intros H E. apply H. now injection E. Qed.
Print Assumptions C124_copy_refuted.
Example C124_demo : Clone 0 (TaperedCapsule 1 2 3 4 5) = TaperedCapsule 1 2 3 4 5 /\ Clone 0 (Plane 1 2 3 4) = Plane 1 2 3 0.
Proof. split; reflexivity. Qed.
