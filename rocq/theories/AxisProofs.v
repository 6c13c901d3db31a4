(** Proofs about the change of the up-axis and the unit: matrices. *)
From Coq Require Import List Arith Reals Lra Lia Bool.
From Verif Require Import IdModel MatrixModel MatrixProps QuatModel QuatProps RotModel RotProofs RotProps SceneModel TransformModel TransformProps AxisModel.
Import ListNotations.
Local Open Scope R_scope.

(** The turn as a matrix, and the turn with the change of unit. *)
Definition turning (f : functor) : mat :=
  let c0 := turn f (V3 1 0 0) false in let c1 := turn f (V3 0 1 0) false in let c2 := turn f (V3 0 0 1) false in
  Mat (x3 c0) (y3 c0) (z3 c0) 0 (x3 c1) (y3 c1) (z3 c1) 0 (x3 c2) (y3 c2) (z3 c2) 0 0 0 0 1.
Definition frame (s : R) (f : functor) : mat :=
  let t := turning f in
  Mat (s * m00 t) (s * m01 t) (s * m02 t) 0 (s * m10 t) (s * m11 t) (s * m12 t) 0 (s * m20 t) (s * m21 t) (s * m22 t) 0 0 0 0 1.
Ltac vopen := cbv [turning frame turn swap convert_matrix convert_length vscale vneg TranslationMatrix ScaleMatrix XAxis YAxis ZAxis]; open_.
Lemma turning_rotation f : rotation (turning f).
Proof. unfold rotation, affine. destruct f; (split; [apply mat_ext; vopen; ring|]); (split; [vopen; ring|]); vopen; repeat split; ring. Qed.
Lemma turning_vector f v : TransformVector (turning f) v = turn f v false.
Proof. destruct v as [va vb vc], f; apply vec3_ext; vopen; ring. Qed.
Lemma frame_affine s f : affine (frame s f).
Proof. repeat split. Qed.
Lemma frame_point s f v : TransformCoordinate (frame s f) v = vscale s (TransformVector (turning f) v).
Proof. destruct v as [va vb vc], f; apply vec3_ext; vopen; ring. Qed.
Lemma frame_same : frame 1 Same = Identity.
Proof. apply mat_ext; vopen; ring. Qed.

(** [m'] is [m] in the new coordinates. *)
Definition carries (c m m' : mat) : Prop := product m' c = product c m.
Lemma carries_product c a a' b b' : carries c a a' -> carries c b b' -> carries c (product a b) (product a' b').
Proof. unfold carries. intros A B. rewrite <- C42_associative, B, C42_associative, A, <- C42_associative. reflexivity. Qed.
Lemma carries_identity c : carries c Identity Identity.
Proof. unfold carries. now rewrite (proj1 (C42_identity c)), (proj2 (C42_identity c)). Qed.
Lemma carries_point s f m m' : affine m -> carries (frame s f) m m' -> forall p,
  TransformCoordinate m' (vscale s (TransformVector (turning f) p)) = vscale s (TransformVector (turning f) (TransformCoordinate m p)).
Proof.
  intros A E p. rewrite <- !frame_point. destruct (C42_points_partial m' (frame s f) p (frame_affine s f)) as (<- & _).
  destruct (C42_points_partial (frame s f) m p A) as (<- & _). now rewrite E.
Qed.
Lemma turn_sq f v : vLengthSquared (turn f v false) = vLengthSquared v.
Proof. destruct v as [va vb vc], f; cbv [vLengthSquared turn swap x3 y3 z3]; ring. Qed.
Lemma turn_length f v : vLength (turn f v false) = vLength v.
Proof. destruct v as [va vb vc], f; cbv [vLength turn swap x3 y3 z3]; f_equal; ring. Qed.
Lemma turn_normalize f v : v <> V3 0 0 0 -> vNormalize (turn f v false) = turn f (vNormalize v) false.
Proof.
  intro N. pose proof (vLength_pos v N) as P. unfold vNormalize. rewrite turn_length. set (l := vLength v) in *. clearbody l.
  destruct (Rlt_dec 0 l) as [_|Q]; [|lra]. destruct v as [va vb vc], f; apply vec3_ext; cbv [turn swap x3 y3 z3]; field; lra.
Qed.
Lemma convert_matrix_carries s f m : affine m -> carries (frame s f) m (convert_matrix s f m).
Proof. destruct m as [q00 q01 q02 q03 q10 q11 q12 q13 q20 q21 q22 q23 q30 q31 q32 q33]. intros (A & B & C & D). cbn in A, B, C, D. subst. unfold carries. destruct f; apply mat_ext; vopen; ring. Qed.
Lemma turn_axis s f a t : a <> V3 0 0 0 -> carries (frame s f) (AxisRotationMatrix a t) (AxisRotationMatrix (turn f a false) t).
Proof.
  intro N. unfold carries, AxisRotationMatrix. rewrite turn_sq.
  assert (E : (if IsEquivalent (vLengthSquared a) 1 then turn f a false else vNormalize (turn f a false)) =
              turn f (if IsEquivalent (vLengthSquared a) 1 then a else vNormalize a) false) by (destruct (IsEquivalent _ _); [reflexivity | now apply turn_normalize]).
  rewrite E. set (u := if IsEquivalent (vLengthSquared a) 1 then a else vNormalize a). clearbody u. generalize (cos t) (sin t). intros c k. destruct u as [ua ub uc], f; apply mat_ext; vopen; ring.
Qed.
(** The transformations that the conversion handles. *)
Definition fine (t : transform) : Prop :=
  match t with TRotation a _ => a <> V3 0 0 0 | TMatrix m => affine m | TLookAt _ _ _ => False | _ => True end.
Lemma skew_mat r a angle : skew_matrix r a angle = let s := tan (DegToRad angle) in
  Mat (1 + s * x3 r * x3 a) (0 + s * y3 r * x3 a) (0 + s * z3 r * x3 a) 0 (0 + s * x3 r * y3 a) (1 + s * y3 r * y3 a) (0 + s * z3 r * y3 a) 0
      (0 + s * x3 r * z3 a) (0 + s * y3 r * z3 a) (1 + s * z3 r * z3 a) 0 0 0 0 1.
Proof. reflexivity. Qed.
Lemma convert_transform_carries s f t : fine t -> carries (frame s f) (ToMatrix t) (ToMatrix (convert_transform s f t)).
Proof.
  destruct t as [v|a x|v|m|p q u|r a x]; cbn [fine ToMatrix convert_transform]; intro F.
  - unfold carries. destruct v as [va vb vc], f; apply mat_ext; vopen; ring.
  - now apply turn_axis.
  - unfold carries. destruct v as [va vb vc], f; apply mat_ext; vopen; ring.
  - now apply convert_matrix_carries.
  - destruct F.
  - unfold carries. rewrite !skew_mat. cbv zeta. generalize (tan (DegToRad x)). intro k. destruct r as [ra rb rc], a as [aa ab ac], f; apply mat_ext; vopen; ring.
Qed.
Lemma has_nothing s f : (has_length s || has_swap f)%bool = false -> s = 1 \/ has_length s = true -> frame s f = Identity.
Proof. intros E [->|H]; apply orb_false_iff in E as [E1 E2]; [|congruence]. destruct f; try discriminate. apply frame_same. Qed.
Lemma convert_stack_carries s f l : s = 1 \/ has_length s = true -> Forall (fun e => fine (fst e)) l ->
  carries (frame s f) (node_matrix l) (node_matrix (convert_stack s f l)).
Proof.
  intros Hs F. unfold convert_stack. destruct (has_length s || has_swap f)%bool eqn:E.
  - induction F as [|e l Fe F IH]; [apply carries_identity|]. cbn [map]. rewrite !node_cons. apply carries_product; [now apply convert_transform_carries | exact IH].
  - rewrite (has_nothing s f E Hs). unfold carries. now rewrite (proj1 (C42_identity _)), (proj2 (C42_identity _)).
Qed.
(** Inverses. *)
Lemma frame_det s f : Determinant (frame s f) = s * s * s.
Proof. destruct f; vopen; ring. Qed.
Lemma det_carries s f m m' : s <> 0 -> carries (frame s f) m m' -> Determinant m' = Determinant m.
Proof.
  intros Hs E. apply (f_equal Determinant) in E. rewrite !C42_determinant_product, frame_det in E.
  assert (N : s * s * s <> 0) by (repeat apply Rmult_integral_contrapositive_currified; assumption). apply (Rmult_eq_reg_l (s * s * s)); [lra | exact N].
Qed.
Lemma inverse_carries s f m m' : s <> 0 -> epsilon < Rabs (Determinant m) -> carries (frame s f) m m' -> carries (frame s f) (Inverted m) (Inverted m').
Proof.
  intros Hs D E. pose proof (det_carries s f m m' Hs E) as D'. destruct (C42_inverse m D) as (I1 & I2). rewrite <- D' in D. destruct (C42_inverse m' D) as (J1 & J2).
  unfold carries in *.
  transitivity (product (Inverted m') (product (product (frame s f) m) (Inverted m))).
  - rewrite <- C42_associative, I1, (proj2 (C42_identity _)). reflexivity.
  - rewrite <- E, !C42_associative, J2, (proj1 (C42_identity _)). reflexivity.
Qed.

(** *** The pivot rotations *)
Lemma right_angle : DegToRad 90 = PI / 2 /\ DegToRad (-90) = - (PI / 2).
Proof. unfold DegToRad. split; field. Qed.
Lemma unit_axes : unit XAxis /\ unit ZAxis.
Proof. split; unfold unit; cbn; ring. Qed.
Lemma quarter_turns :
  AxisRotationMatrix ZAxis (DegToRad 90) = turning YtoX /\ AxisRotationMatrix ZAxis (DegToRad (-90)) = turning XtoY /\
  AxisRotationMatrix XAxis (DegToRad 90) = turning ZtoY /\ AxisRotationMatrix XAxis (DegToRad (-90)) = turning YtoZ.
Proof.
  destruct right_angle as [-> ->]. destruct unit_axes as [U V]. rewrite !axis_mat_unit by assumption. unfold axis_mat. rewrite cos_neg, sin_neg, cos_PI2, sin_PI2.
  repeat split; apply mat_ext; vopen; ring.
Qed.
(** A rotation that is not nearly, but not exactly, a quarter turn about a coordinate axis. *)
Definition axes : list vec3 := [XAxis; YAxis; ZAxis; vneg XAxis; vneg YAxis; vneg ZAxis].
Definition clear (t : transform) : Prop :=
  match t with
  | TRotation a x => (forall v, In v axes -> IsEquivalent3 a v = true -> a = v) /\ (forall y, y = 90 \/ y = -90 -> IsEquivalent x y = true -> x = y)
  | _ => True
  end.
Lemma opposite_quarter l ax angle : ax = XAxis \/ ax = ZAxis -> product (node_matrix (l ++ [(TRotation ax (- angle), [])])) (AxisRotationMatrix ax (DegToRad angle)) = node_matrix l.
Proof.
  intros H. rewrite node_app. unfold node_matrix at 2. cbn [fold_left fst ToMatrix]. rewrite (proj1 (C42_identity _)), <- C42_associative, C70_angles_add.
  - replace (DegToRad (- angle) + DegToRad angle) with 0 by (unfold DegToRad; field). rewrite axis_mat_unit by (destruct H as [->| ->]; apply unit_axes).
    replace (axis_mat ax 0) with Identity; [apply C42_identity|]. unfold axis_mat. rewrite cos_0, sin_0. destruct H as [->| ->]; apply mat_ext; vopen; ring.
  - destruct H as [->| ->]; apply unit_axes.
Qed.
Lemma smart_matrix (l : list entry) ax angle : ax = XAxis \/ ax = ZAxis -> angle = 90 \/ angle = -90 -> Forall (fun e : entry => clear (fst e)) l ->
  node_matrix (SmartAddRotationPivot l ax angle) = product (node_matrix l) (AxisRotationMatrix ax (DegToRad angle)) /\
  Forall (fun e : entry => clear (fst e)) (SmartAddRotationPivot l ax angle).
Proof.
  intros Hx Ha F. set (added := l ++ [(TRotation ax angle, [])]).
  assert (A : node_matrix added = product (node_matrix l) (AxisRotationMatrix ax (DegToRad angle)) /\ Forall (fun e : entry => clear (fst e)) added).
  { unfold added. split.
    - rewrite node_app. f_equal. unfold node_matrix. cbn [fold_left fst ToMatrix]. apply C42_identity.
    - apply Forall_app. split; [exact F|]. constructor; [|constructor]. cbn [fst clear]. split.
      + intros v I E. assert (T : FLT_TOLERANCE < 1) by (unfold FLT_TOLERANCE; lra).
        assert (Far : forall a b : R, Rabs (a - b) >= 1 -> IsEquivalent a b = false).
        { intros a b H. destruct (IsEquivalent a b) eqn:Z; [|reflexivity]. apply equivalent_spec in Z. lra. }
        assert (F0 : IsEquivalent 1 0 = false) by (apply Far; replace (1 - 0) with 1 by ring; rewrite Rabs_R1; lra).
        assert (F1 : IsEquivalent 0 1 = false) by (apply Far; replace (0 - 1) with (-1) by ring; rewrite Rabs_left; lra).
        assert (F2 : IsEquivalent 1 (- (1)) = false) by (apply Far; replace (1 - - (1)) with 2 by ring; rewrite Rabs_right; lra).
        assert (F3 : IsEquivalent 1 (-0) = false) by (rewrite Ropp_0; exact F0).
        assert (F4 : IsEquivalent 0 (- (1)) = false) by (apply Far; replace (0 - - (1)) with 1 by ring; rewrite Rabs_R1; lra).
        destruct Hx as [->| ->]; cbn in I; unfold IsEquivalent3 in E; repeat destruct I as [<-|I]; try destruct I; try reflexivity; exfalso; revert E;
          cbv [XAxis YAxis ZAxis vneg x3 y3 z3]; rewrite ?F0, ?F1, ?F2, ?F3, ?F4, ?andb_false_r; cbn [andb]; rewrite ?andb_false_r; intro E; discriminate E.
      + intros y Hy E. apply equivalent_spec in E. assert (T : FLT_TOLERANCE < 1) by (unfold FLT_TOLERANCE; lra).
        destruct Ha as [->| ->], Hy as [->| ->]; try reflexivity; exfalso; [replace (90 - -90) with 180 in E by ring | replace (-90 - 90) with (-180) in E by ring]; [rewrite Rabs_right in E | rewrite Rabs_left in E]; lra. }
  unfold SmartAddRotationPivot. fold added. destruct (rev l) as [|[t sid] before] eqn:R; [exact A|]. destruct t as [v|a x|v|m|p q u|r a x]; try exact A.
  destruct (IsEquivalent3 a ax && IsEquivalent x (- angle))%bool eqn:E; [|exact A]. apply andb_true_iff in E as [E1 E2].
  assert (L : l = rev before ++ [(TRotation a x, sid)]) by (rewrite <- (rev_involutive l), R; reflexivity).
  rewrite L in F. apply Forall_app in F as [Fb Fl]. apply Forall_inv in Fl. cbn [fst clear] in Fl. destruct Fl as [C1 C2].
  assert (Ea : a = ax) by (apply C1; [destruct Hx as [->| ->]; cbn; auto 10 | exact E1]).
  assert (Ex : x = - angle) by (apply C2; [destruct Ha as [->| ->]; [right | left]; ring | exact E2]). split; [|exact Fb].
  rewrite L, Ea, Ex. symmetry. etransitivity; [|apply (opposite_quarter (rev before) ax angle Hx)]. f_equal. rewrite !node_app. reflexivity.
Qed.
Lemma pivot_matrix target current (l : list entry) : has_swap (PrepareFunctor target current) = true -> Forall (fun e : entry => clear (fst e)) l ->
  node_matrix (SetPivotTransform target current false l) = product (node_matrix l) (turning (PrepareFunctor target current)).
Proof.
  intros H F. destruct quarter_turns as (Q1 & Q2 & Q3 & Q4). unfold SetPivotTransform. rewrite H.
  destruct target, current; cbn [PrepareFunctor has_swap] in *; try discriminate.
  - destruct (smart_matrix l ZAxis (-90) (or_intror eq_refl) (or_intror eq_refl) F) as [-> _]. now rewrite Q2.
  - destruct (smart_matrix l XAxis (-90) (or_introl eq_refl) (or_intror eq_refl) F) as [E F1].
    destruct (smart_matrix _ ZAxis (-90) (or_intror eq_refl) (or_intror eq_refl) F1) as [-> _]. rewrite E, Q2, Q4, <- C42_associative. f_equal. apply mat_ext; vopen; ring.
  - destruct (smart_matrix l ZAxis 90 (or_intror eq_refl) (or_introl eq_refl) F) as [-> _]. now rewrite Q1.
  - destruct (smart_matrix l XAxis (-90) (or_introl eq_refl) (or_intror eq_refl) F) as [-> _]. now rewrite Q4.
  - destruct (smart_matrix l ZAxis 90 (or_intror eq_refl) (or_introl eq_refl) F) as [E F1].
    destruct (smart_matrix _ XAxis 90 (or_introl eq_refl) (or_introl eq_refl) F1) as [-> _]. rewrite E, Q1, Q3, <- C42_associative. f_equal. apply mat_ext; vopen; ring.
  - destruct (smart_matrix l XAxis 90 (or_introl eq_refl) (or_introl eq_refl) F) as [-> _]. now rewrite Q3.
Qed.
(** Turning keeps rotations clear. *)
Lemma clear_turn s f t : clear t -> clear (convert_transform s f t).
Proof.
  destruct t as [v|a x|v|m|p q u|r a x]; try exact (fun H => H). cbn [convert_transform clear]. intros [A B]. split; [|exact B]. clear B.
  destruct a as [a b c]. intros v I E. unfold IsEquivalent3 in E. apply andb_true_iff in E as [E E3]. apply andb_true_iff in E as [E1 E2].
  assert (Neg : forall p q, IsEquivalent (-1 * p) q = true -> IsEquivalent p (- q) = true).
  { intros p q H. apply equivalent_spec in H. apply equivalent_spec. replace (p - - q) with (- (-1 * p - q)) by ring. now rewrite Rabs_Ropp. }
  assert (Z : forall w, In w axes -> IsEquivalent a (x3 w) = true -> IsEquivalent b (y3 w) = true -> IsEquivalent c (z3 w) = true -> V3 a b c = w).
  { intros w Iw H1 H2 H3. apply A; [exact Iw|]. unfold IsEquivalent3. cbn [x3 y3 z3]. now rewrite H1, H2, H3. }
  revert E1 E2 E3.
  destruct f; cbn in I; repeat destruct I as [<-|I]; try destruct I; cbv [turn swap x3 y3 z3 XAxis YAxis ZAxis vneg]; intros E1 E2 E3;
    try (apply Neg in E1); try (apply Neg in E2); try (apply Neg in E3); rewrite ?Ropp_0, ?Ropp_involutive in *;
    (match goal with |- ?v = _ => idtac end;
     first [ assert (G : V3 a b c = XAxis) by (apply Z; [cbn; auto 10 | assumption | assumption | assumption])
           | assert (G : V3 a b c = YAxis) by (apply Z; [cbn; auto 10 | assumption | assumption | assumption])
           | assert (G : V3 a b c = ZAxis) by (apply Z; [cbn; auto 10 | assumption | assumption | assumption])
           | assert (G : V3 a b c = vneg XAxis) by (apply Z; [cbn; auto 10 | cbv [vneg XAxis x3 y3 z3]; rewrite ?Ropp_0; assumption .. ])
           | assert (G : V3 a b c = vneg YAxis) by (apply Z; [cbn; auto 10 | cbv [vneg YAxis x3 y3 z3]; rewrite ?Ropp_0; assumption .. ])
           | assert (G : V3 a b c = vneg ZAxis) by (apply Z; [cbn; auto 10 | cbv [vneg ZAxis x3 y3 z3]; rewrite ?Ropp_0; assumption .. ]) ]; injection G as -> -> ->; apply vec3_ext; cbv [x3 y3 z3]; ring).
Qed.
