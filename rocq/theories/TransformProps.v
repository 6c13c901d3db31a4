(** C77: the transformations of scene nodes. *)
From Coq Require Import List Arith Reals ZArith Bool Lia Lra Relations.
From Verif Require Import IdModel MatrixModel MatrixProps QuatModel QuatProps RotModel RotProofs RotProps SceneModel SceneSpec SceneProofs SceneProps TransformModel.
Import ListNotations.
Local Open Scope R_scope.

(** *** The stack of a node *)
(** The matrices that are given as such are affine. *)
Definition affine_entry (e : entry) : Prop := match fst e with TMatrix m => affine m | _ => True end.
Lemma skew_entries r a angle : forall c k, (c < 3)%nat -> (k < 3)%nat ->
  MatrixProps.entry (skew_matrix r a angle) c k = (if Nat.eqb c k then 1 else 0) + tan (angle * PI / 180) * coord r k * coord a c.
Proof.
  intros c k Hc Hk. unfold skew_matrix, DegToRad. set (s := tan (angle * PI / 180)).
  destruct c as [|[|[|c]]]; [| | |lia]; (destruct k as [|[|[|k]]]; [| | |lia]);
    cbv [MatrixProps.entry Set_ m00 m01 m02 m10 m11 m12 m20 m21 m22 Nat.div Nat.modulo Nat.divmod fst snd Nat.eqb Nat.sub andb orb]; reflexivity.
Qed.
Lemma skew_affine r a angle : affine (skew_matrix r a angle).
Proof. unfold skew_matrix. generalize (tan (DegToRad angle)). intro s. repeat split. Qed.
Lemma each_affine t : affine_entry t -> affine (ToMatrix (fst t)).
Proof.
  destruct t as [[t|a x|s|m|p t u|r a x] sid]; unfold affine_entry; cbn [fst ToMatrix]; intro H; try exact H;
    repeat split.
Qed.
Lemma product_affine a b : affine a -> affine b -> affine (product a b).
Proof.
  intros (A1 & A2 & A3 & A4) (B1 & B2 & B3 & B4). unfold affine, product.
  cbn [m03 m13 m23 m33]. rewrite A1, A2, A3, A4, B1, B2, B3, B4. repeat split; ring.
Qed.
Lemma fold_product (f : entry -> mat) l : forall m, fold_left (fun x e => product x (f e)) l m = product m (fold_left (fun x e => product x (f e)) l Identity).
Proof.
  induction l as [|e l IH]; intro m; cbn [fold_left]; [symmetry; apply C42_identity|].
  rewrite IH, (IH (product Identity _)), !C42_associative. now rewrite (proj2 (C42_identity m)).
Qed.
Lemma node_cons e l : node_matrix (e :: l) = product (ToMatrix (fst e)) (node_matrix l).
Proof. unfold node_matrix. cbn [fold_left]. rewrite fold_product. now rewrite (proj1 (C42_identity _)). Qed.
Lemma node_app a b : node_matrix (a ++ b) = product (node_matrix a) (node_matrix b).
Proof. unfold node_matrix. rewrite fold_left_app. apply fold_product. Qed.

(** A node transforms homogeneous coordinates by its transformations from the last to the first; and so it does with points
    and with directions, if the matrices given as such are affine. *)
Theorem C77_stack : forall l,
  (forall v, TransformCoordinate4 (node_matrix l) v = fold_right (fun e w => TransformCoordinate4 (ToMatrix (fst e)) w) v l) /\
  (Forall affine_entry l -> affine (node_matrix l) /\
   (forall p, TransformCoordinate (node_matrix l) p = fold_right (fun e q => TransformCoordinate (ToMatrix (fst e)) q) p l) /\
   (forall d, TransformVector (node_matrix l) d = fold_right (fun e q => TransformVector (ToMatrix (fst e)) q) d l)).
Proof.
  induction l as [|e l (IH4 & IH)].
  - unfold node_matrix. cbn [fold_left fold_right]. split; [intro v; apply (C42_points4 Identity Identity v)|]. intros _. split; [repeat split|].
    split; intros [p0 p1 p2]; apply vec3_ext; cbv [TransformCoordinate TransformVector Identity m00 m01 m02 m03 m10 m11 m12 m13 m20 m21 m22 m23 m30 m31 m32 m33 x3 y3 z3]; ring.
  - split.
    + intro v. rewrite node_cons. cbn [fold_right]. rewrite (proj1 (C42_points4 _ _ v)). now rewrite IH4.
    + intro F. inversion F as [|? ? Fe Fl]; subst. destruct (IH Fl) as (A & P & V). apply each_affine in Fe.
      split; [rewrite node_cons; now apply product_affine|]. split; intro p; rewrite node_cons; cbn [fold_right];
        destruct (C42_points_partial (ToMatrix (fst e)) (node_matrix l) p A) as (E1 & E2 & _).
      * rewrite E1. now rewrite P.
      * rewrite E2. now rewrite V.
Qed.
Print Assumptions C77_stack.

(** *** Adding *)
Lemma look_default : LookAtMatrix (V3 0 0 0) (vneg ZAxis) YAxis = Identity.
Proof.
  unfold LookAtMatrix. cbv [vneg ZAxis YAxis XAxis vsub x3 y3 z3].
  assert (L : forall v, vLength v = 1 -> vNormalize v = v).
  { intros v E. unfold vNormalize. rewrite E. destruct (Rlt_dec 0 1); [|lra]. destruct v as [v0 v1 v2]. apply vec3_ext; cbn; field. }
  rewrite (L (V3 (- 0 - 0) (- 0 - 0) (- (1) - 0))) by (unfold vLength; cbv [x3 y3 z3]; replace (_ + _ + _) with 1 by ring; apply sqrt_1).
  assert (E : forall a, IsEquivalent3 (V3 (-0-0) (-0-0) (-(1)-0)) (V3 (a 0) (a 1) (a 0)) = true -> IsEquivalent (-(1)-0) (a 0) = true).
  { intros a E. unfold IsEquivalent3 in E. cbv [x3 y3 z3] in E. apply andb_true_iff in E. apply E. }
  assert (N1 : IsEquivalent3 (V3 (-0-0) (-0-0) (-(1)-0)) (V3 0 1 0) = false).
  { apply not_true_is_false. intro C. apply (E (fun x => x)) in C. apply equivalent_spec in C. unfold FLT_TOLERANCE in C. rewrite Rabs_left in C; lra. }
  assert (N2 : IsEquivalent3 (V3 (-0-0) (-0-0) (-(1)-0)) (V3 (-0) (-(1)) (-0)) = false).
  { apply not_true_is_false. intro C. apply (E (fun x => - x)) in C. apply equivalent_spec in C. unfold FLT_TOLERANCE in C. rewrite Rabs_left in C; lra. }
  rewrite N1, N2. cbn [negb andb]. rewrite L by (unfold vLength; cbv [cross x3 y3 z3]; replace (_ + _ + _) with 1 by ring; apply sqrt_1).
  apply mat_ext; cbv [cross x3 y3 z3 Identity m00 m01 m02 m03 m10 m11 m12 m13 m20 m21 m22 m23 m30 m31 m32 m33]; ring.
Qed.
Lemma created_neutral k t : CreateTransform k = Some t -> ToMatrix t = Identity.
Proof.
  destruct k; intro E; cbn in E; try discriminate; assert (t = t) as _ by reflexivity; injection E as <-; cbn [ToMatrix].
  - apply mat_ext; ropen; ring.
  - assert (X : unit XAxis) by (unfold unit; cbn; ring). rewrite axis_mat_unit by exact X. unfold DegToRad.
    replace (0 * PI / 180) with 0 by field. unfold axis_mat. rewrite cos_0, sin_0. apply mat_ext; cbv [XAxis]; ropen; ring.
  - apply mat_ext; ropen; ring.
  - reflexivity.
  - apply look_default.
  - unfold skew_matrix, DegToRad. replace (0 * PI / 180) with 0 by field. rewrite tan_0.
    apply mat_ext; cbv [Set_ coord XAxis YAxis x3 y3 z3 Identity m00 m01 m02 m03 m10 m11 m12 m13 m20 m21 m22 m23 m30 m31 m32 m33 Nat.div Nat.modulo Nat.divmod fst snd Nat.eqb Nat.sub andb orb]; ring.
Qed.
(** AddTransform puts one new transformation of the given type at the given place, or at the end if the place is beyond it,
    and leaves the others as they are, in order; the matrix of the node does not change.  For no type nothing is added. *)
Theorem C77_add : forall k index l,
  node_matrix (AddTransform k index l) = node_matrix l /\
  (k = NO_TYPE -> AddTransform k index l = l) /\
  (k <> NO_TYPE -> exists t, GetType t = k /\ ToMatrix t = Identity /\
     let at_ := Nat.min index (length l) in
     length (AddTransform k index l) = S (length l) /\ nth_error (AddTransform k index l) at_ = Some (t, []) /\
     (forall i, (i < at_)%nat -> nth_error (AddTransform k index l) i = nth_error l i) /\
     (forall i, (at_ <= i)%nat -> nth_error (AddTransform k index l) (S i) = nth_error l i)).
Proof.
  intros k index l. unfold AddTransform. destruct (CreateTransform k) as [t|] eqn:E.
  - pose proof (created_neutral _ _ E) as N.
    assert (Nm : node_matrix [(t, [])] = Identity) by (unfold node_matrix; cbn [fold_left fst]; rewrite N; apply C42_identity).
    assert (K : GetType t = k) by (clear - E; destruct k; cbn in E; try discriminate; injection E as <-; reflexivity).
    assert (Q : exists i, (i <= length l)%nat /\ i = Nat.min index (length l) /\
      (if (length l <? index)%nat then l ++ [(t, [])] else firstn index l ++ [(t, [])] ++ skipn index l) = firstn i l ++ [(t, [])] ++ skipn i l).
    { destruct (Nat.ltb_spec (length l) index) as [H|H].
      - exists (length l). split; [lia|]. split; [lia|]. rewrite firstn_all, skipn_all. reflexivity.
      - exists index. split; [lia|]. split; [lia|]. reflexivity. }
    destruct Q as (i & Hi & Ei & ->). rewrite <- Ei. assert (Lf : length (firstn i l) = i) by (rewrite firstn_length; lia). split; [|split].
    + rewrite !node_app, Nm, (proj1 (C42_identity _)), <- node_app. now rewrite firstn_skipn.
    + intros ->. discriminate.
    + intros _. exists t. split; [exact K|]. split; [exact N|]. cbn zeta. split; [|split; [|split]].
      * rewrite app_length. cbn [app length]. rewrite Lf, skipn_length. lia.
      * rewrite nth_error_app2 by lia. now rewrite Lf, Nat.sub_diag.
      * intros j Hj. rewrite nth_error_app1 by lia. rewrite <- (firstn_skipn i l) at 2. now rewrite nth_error_app1 by lia.
      * intros j Hj. rewrite nth_error_app2 by lia. rewrite Lf. replace (S j - i)%nat with (S (j - i)) by lia. cbn [app nth_error].
        rewrite <- (firstn_skipn i l) at 2. rewrite nth_error_app2 by lia. now rewrite Lf.
  - split; [reflexivity|]. split; auto. intro H. destruct k; cbn in E; congruence.
Qed.
Print Assumptions C77_add.

(** *** The world transformation *)
(** [chain g l n]: l is the path from a node without parents to n along first parents. *)
Inductive chain (g : graph) : list nat -> nat -> Prop :=
| chain_root n : par g n = [] -> chain g [n] n
| chain_step l p n rest : chain g l p -> par g n = p :: rest -> chain g (l ++ [n]) n.
(** The world transformation exists for every node of every scene and transforms like the nodes of this path, the last
    first.  The other parents of a node with several parents do not matter. *)
Theorem C77_world : forall g tr n, history g -> exists fuel0 path m, chain g path n /\
  (forall fuel, (fuel0 <= fuel)%nat -> CalculateWorldTransform fuel g tr n = Done m) /\
  m = node_matrix (concat (map tr path)) /\
  (forall v, TransformCoordinate4 m v = fold_right (fun k w => TransformCoordinate4 (node_matrix (tr k)) w) v path) /\
  ((forall k, In k path -> Forall affine_entry (tr k)) ->
   forall p, TransformCoordinate m p = fold_right (fun k w => TransformCoordinate (node_matrix (tr k)) w) p path).
Proof.
  intros g tr n H. pose proof (ok_up g (history_ok g H) n) as A.
  assert (W : exists fuel0 path, chain g path n /\ forall fuel, (fuel0 <= fuel)%nat -> CalculateWorldTransform fuel g tr n = Done (node_matrix (concat (map tr path)))).
  { induction A as [n _ IH]. destruct (par g n) as [|p rest] eqn:E.
    - exists 1%nat, [n]. split; [now constructor|]. intros fuel Hf. destruct fuel as [|f]; [lia|]. cbn [CalculateWorldTransform]. rewrite E. cbn [map concat]. now rewrite app_nil_r.
    - destruct (IH p) as (f0 & path & C & F); [now left|]. exists (S f0), (path ++ [n]). split; [econstructor; eauto|].
      intros fuel Hf. destruct fuel as [|f]; [lia|]. cbn [CalculateWorldTransform]. rewrite E, F by lia.
      rewrite map_app, concat_app. cbn [map concat]. now rewrite app_nil_r, node_app. }
  destruct W as (f0 & path & C & F). exists f0, path, (node_matrix (concat (map tr path))). split; [exact C|]. split; [exact F|]. split; [reflexivity|].
  clear. split.
  - intro v. induction path as [|k path IH]; cbn [map concat fold_right].
    + apply (C77_stack []).
    + rewrite node_app, (proj1 (C42_points4 _ _ v)). now rewrite IH.
  - intros Fa p. induction path as [|k path IH]; cbn [map concat fold_right].
    + now apply (C77_stack []).
    + assert (Fp : Forall affine_entry (concat (map tr path))).
      { apply Forall_forall. intros e I. apply in_concat in I as (l & Il & Ie). apply in_map_iff in Il as (j & <- & Ij).
        assert (Q : Forall affine_entry (tr j)) by (apply Fa; now right). rewrite Forall_forall in Q. now apply Q. }
      destruct (proj2 (C77_stack (concat (map tr path))) Fp) as (Aff & _).
      rewrite node_app. destruct (C42_points_partial (node_matrix (tr k)) _ p Aff) as (-> & _). rewrite IH; auto. intros j Ij. apply Fa. now right.
Qed.
Print Assumptions C77_world.

(** *** Skew *)
(** A skew moves every point along the axis called rotateAxis, by the tangent of the angle times its product with the axis
    called aroundAxis; so points at right angles to aroundAxis stay. *)
Theorem C77_skew : forall r a angle, let m := ToMatrix (TSkew r a angle) in let s := tan (angle * PI / 180) in
  (forall p, TransformCoordinate m p = V3 (x3 p + s * dot a p * x3 r) (y3 p + s * dot a p * y3 r) (z3 p + s * dot a p * z3 r)) /\
  (forall p, dot a p = 0 -> TransformCoordinate m p = p) /\
  Determinant m = 1 + s * dot r a.
Proof.
  intros r a angle m s.
  assert (Q : m = Mat (1 + s * x3 r * x3 a) (0 + s * y3 r * x3 a) (0 + s * z3 r * x3 a) 0
                      (0 + s * x3 r * y3 a) (1 + s * y3 r * y3 a) (0 + s * z3 r * y3 a) 0
                      (0 + s * x3 r * z3 a) (0 + s * y3 r * z3 a) (1 + s * z3 r * z3 a) 0 0 0 0 1).
  { unfold m, s. cbn [ToMatrix]. unfold skew_matrix, DegToRad. generalize (tan (angle * PI / 180)). intro q. reflexivity. }
  rewrite Q. clearbody s. clear m Q.
  assert (P : forall p, TransformCoordinate (Mat (1 + s * x3 r * x3 a) (0 + s * y3 r * x3 a) (0 + s * z3 r * x3 a) 0
                      (0 + s * x3 r * y3 a) (1 + s * y3 r * y3 a) (0 + s * z3 r * y3 a) 0
                      (0 + s * x3 r * z3 a) (0 + s * y3 r * z3 a) (1 + s * z3 r * z3 a) 0 0 0 0 1) p =
            V3 (x3 p + s * dot a p * x3 r) (y3 p + s * dot a p * y3 r) (z3 p + s * dot a p * z3 r)).
  { destruct r as [r0 r1 r2], a as [a0 a1 a2]. intros [p0 p1 p2]. apply vec3_ext; cbv [dot TransformCoordinate m00 m01 m02 m03 m10 m11 m12 m13 m20 m21 m22 m23 m30 m31 m32 m33 x3 y3 z3]; ring. }
  split; [exact P|]. split.
  - intros p E. rewrite P, E. destruct p as [p0 p1 p2]. apply vec3_ext; cbv [x3 y3 z3]; ring.
  - destruct r as [r0 r1 r2], a as [a0 a1 a2]. cbv [dot Determinant det3x3 det2x2 m00 m01 m02 m03 m10 m11 m12 m13 m20 m21 m22 m23 m30 m31 m32 m33 x3 y3 z3]. ring.
Qed.
Print Assumptions C77_skew.
(** Finding: FMSkew.h calls rotateAxis "the axis which is rotated"; for axes of length one at right angles it is the one that
    stays, and aroundAxis is turned by the angle: its image makes this angle with it. *)
Theorem C77_skew_axes : forall r a angle, unit r -> unit a -> dot r a = 0 -> - 90 < angle < 90 ->
  let m := ToMatrix (TSkew r a angle) in let a' := TransformVector m a in
  TransformVector m r = r /\ dot a a' = cos (angle * PI / 180) * vLength a' /\ 0 < vLength a'.
Proof.
  intros r a angle Ur Ua O Hx m a'. destruct (C77_skew r a angle) as (P & _ & _). fold m in P.
  assert (V : forall p, TransformVector m p = TransformCoordinate m p).
  { intro p. unfold m. cbn [ToMatrix]. unfold skew_matrix. generalize (tan (DegToRad angle)). intro q.
    apply vec3_ext; cbv [TransformCoordinate TransformVector Set_ m00 m01 m02 m03 m10 m11 m12 m13 m20 m21 m22 m23 m30 m31 m32 m33 x3 y3 z3 Nat.div Nat.modulo Nat.divmod fst snd Nat.eqb Nat.sub andb orb]; ring. }
  assert (O' : dot a r = 0) by (unfold dot in *; lra). assert (Da : dot a a = 1) by (unfold dot, unit in *; lra).
  set (t := angle * PI / 180) in *.
  assert (Hc : 0 < cos t).
  { pose proof PI_RGT_0. apply cos_gt_0; unfold t; nra. }
  split; [|].
  - rewrite V, P, O'. destruct r as [r0 r1 r2]. apply vec3_ext; cbv [x3 y3 z3]; ring.
  - assert (Ea : a' = V3 (x3 a + tan t * x3 r) (y3 a + tan t * y3 r) (z3 a + tan t * z3 r)).
    { unfold a'. rewrite V, P, Da. apply vec3_ext; cbv [x3 y3 z3]; ring. }
    assert (L : vLength a' = / cos t).
    { unfold vLength. rewrite Ea. cbv [x3 y3 z3]. fold (x3 a) (y3 a) (z3 a) (x3 r) (y3 r) (z3 r).
      replace (_ + _ + _) with ((x3 a ^ 2 + y3 a ^ 2 + z3 a ^ 2) + 2 * tan t * dot r a + tan t ^ 2 * (x3 r ^ 2 + y3 r ^ 2 + z3 r ^ 2)) by (unfold dot; ring).
      unfold unit in Ur, Ua. rewrite Ur, Ua, O.
      replace (1 + 2 * tan t * 0 + tan t ^ 2 * 1) with (/ cos t * / cos t); [apply sqrt_square; left; now apply Rinv_0_lt_compat|].
      unfold tan. pose proof (sin2_cos2 t) as Sc. unfold Rsqr in Sc. field_simplify; [|lra|lra]. f_equal. replace (cos t ^ 2 + sin t ^ 2) with 1 by (rewrite <- Sc; ring). reflexivity. }
    rewrite L. split; [|now apply Rinv_0_lt_compat]. rewrite Rinv_r by lra. rewrite Ea.
    replace (dot a (V3 _ _ _)) with (dot a a + tan t * dot a r) by (unfold dot; cbv [x3 y3 z3]; ring). rewrite O'. rewrite Da. ring.
Qed.
Print Assumptions C77_skew_axes.

(** *** Opposite transformations *)
Lemma equivalent_sym a b : IsEquivalent a b = IsEquivalent b a.
Proof. apply eq_true_iff_eq. rewrite !equivalent_spec, (Rabs_minus_sym a b). tauto. Qed.
Lemma equivalent3_spec p q : IsEquivalent3 p q = true <->
  Rabs (x3 p - x3 q) < FLT_TOLERANCE /\ Rabs (y3 p - y3 q) < FLT_TOLERANCE /\ Rabs (z3 p - z3 q) < FLT_TOLERANCE.
Proof. unfold IsEquivalent3. rewrite !andb_true_iff, !equivalent_spec. tauto. Qed.
Lemma opp_distance a b : Rabs (- a - b) = Rabs (- b - a).
Proof. f_equal. ring. Qed.
(** IsInverse is symmetric. *)
Theorem C77_inverse_symmetric : forall a b, IsInverse a b = IsInverse b a.
Proof.
  assert (O : forall x y, IsEquivalent (- x) y = IsEquivalent (- y) x) by (intros x y; apply eq_true_iff_eq; now rewrite !equivalent_spec, opp_distance).
  intros [t|a x|s|m|p t u|r a x] [t'|a' x'|s'|m'|p' t' u'|r' a' x']; cbn [IsInverse]; try reflexivity.
  - unfold IsEquivalent3, vscale. cbn [x3 y3 z3].
    assert (Q : forall c d, IsEquivalent (-1 * c) d = IsEquivalent (-1 * d) c).
    { intros c d. replace (-1 * c) with (- c) by ring. replace (-1 * d) with (- d) by ring. apply O. }
    now rewrite (Q (x3 t)), (Q (y3 t)), (Q (z3 t)).
  - unfold IsEquivalent3, vneg. cbn [x3 y3 z3].
    now rewrite (O x x'), (equivalent_sym x x'), (O (x3 a)), (O (y3 a)), (O (z3 a)), (equivalent_sym (x3 a)), (equivalent_sym (y3 a)), (equivalent_sym (z3 a)).
Qed.
Print Assumptions C77_inverse_symmetric.
(** Full statement: IsInverse holds exactly if one transformation after the other "will not give any resulting
    transformation", up to the tolerance.  Proved: for two translations; for rotations about the same axis with opposite
    angles or the opposite axis with the same angle, which are recognised and whose product is the identity if the axis
    has length one or is clearly longer or shorter.  Missing: the rest, where it fails (C77_inverse_refuted,
    C77_inverse_missed_refuted). *)
Theorem C77_inverse_partial :
  (forall t u, exists d, product (ToMatrix (TTranslation t)) (ToMatrix (TTranslation u)) = TranslationMatrix d /\
     (IsInverse (TTranslation t) (TTranslation u) = true <->
        Rabs (x3 d) < FLT_TOLERANCE /\ Rabs (y3 d) < FLT_TOLERANCE /\ Rabs (z3 d) < FLT_TOLERANCE)) /\
  (forall a x, IsInverse (TRotation a x) (TRotation a (- x)) = true /\ IsInverse (TRotation a x) (TRotation (vneg a) x) = true) /\
  (forall a x, unit a \/ (a <> V3 0 0 0 /\ FLT_TOLERANCE <= Rabs (vLengthSquared a - 1)) ->
     product (ToMatrix (TRotation a x)) (ToMatrix (TRotation a (- x))) = Identity /\
     product (ToMatrix (TRotation a x)) (ToMatrix (TRotation (vneg a) x)) = Identity).
Proof.
  assert (R3 : forall p, IsEquivalent3 p p = true) by (intro p; unfold IsEquivalent3; now rewrite !equivalent_refl).
  split; [|split].
  - intros t u. exists (V3 (x3 t + x3 u) (y3 t + y3 u) (z3 t + z3 u)). split.
    + cbn [ToMatrix]. apply mat_ext; ropen; ring.
    + cbn [IsInverse]. rewrite equivalent3_spec. unfold vscale. cbn [x3 y3 z3].
      assert (Q : forall c d, Rabs (-1 * c - d) = Rabs (c + d)) by (intros c d; rewrite <- (Rabs_Ropp (c + d)); f_equal; ring).
      rewrite !Q. tauto.
  - intros a x. cbn [IsInverse]. rewrite !R3, !equivalent_refl. split; [reflexivity | apply orb_true_r].
  - intros a x H.
    assert (M : forall t, exists u, unit u /\ AxisRotationMatrix a t = axis_mat u t /\ AxisRotationMatrix a (- t) = axis_mat u (- t) /\
                AxisRotationMatrix (vneg a) t = axis_mat u (- t)).
    { intro t. assert (Neg : forall u, axis_mat (vneg u) t = axis_mat u (- t)).
      { intros [u0 u1 u2]. unfold axis_mat, vneg. rewrite cos_neg, sin_neg. apply mat_ext; ropen; ring. }
      destruct H as [U|[N F]].
      - exists a. split; [exact U|]. split; [now apply axis_mat_unit|]. split; [now apply axis_mat_unit|].
        rewrite axis_mat_unit; [apply Neg|]. revert U. unfold unit, vneg. cbn [x3 y3 z3]. intro U. rewrite <- U. ring.
      - assert (F' : FLT_TOLERANCE <= Rabs (vLengthSquared (vneg a) - 1)).
        { replace (vLengthSquared (vneg a)) with (vLengthSquared a); [exact F|]. unfold vLengthSquared, vneg. cbn [x3 y3 z3]. ring. }
        assert (N' : vneg a <> V3 0 0 0).
        { intro C. apply N. apply vec3_ext; cbn; [apply (f_equal x3) in C | apply (f_equal y3) in C | apply (f_equal z3) in C]; cbn in C; lra. }
        assert (Lp := vLength_pos _ N).
        assert (Ln : vLength (vneg a) = vLength a). { unfold vLength, vneg. cbn [x3 y3 z3]. f_equal. ring. }
        destruct (axis_mat_other a t N F) as (u & Uu & Eu & Mu). destruct (axis_mat_other a (- t) N F) as (v & Uv & Ev & Mv).
        destruct (axis_mat_other (vneg a) t N' F') as (w & Uw & Ew & Mw).
        assert (Same : forall b c, vLength a * b = vLength a * c -> b = c) by (intros b c Q; apply Rmult_eq_reg_l in Q; lra).
        assert (v = u) as ->.
        { rewrite Ev in Eu at 1. apply vec3_ext; apply Same; [apply (f_equal x3) in Eu | apply (f_equal y3) in Eu | apply (f_equal z3) in Eu]; cbn [x3 y3 z3] in Eu; exact Eu. }
        assert (w = vneg u) as ->.
        { rewrite Ln in Ew. clear - Ew Eu Lp. apply vec3_ext; cbn [vneg x3 y3 z3];
            [apply (f_equal x3) in Eu; apply (f_equal x3) in Ew | apply (f_equal y3) in Eu; apply (f_equal y3) in Ew | apply (f_equal z3) in Eu; apply (f_equal z3) in Ew];
            cbn [x3 y3 z3 vneg] in Eu, Ew; apply (Rmult_eq_reg_l (vLength a)); lra. }
        exists u. split; [exact Uu|]. split; [exact Mu|]. split; [exact Mv|]. rewrite Mw. apply Neg. }
    destruct (M (DegToRad x)) as (u & U & M1 & M2 & M3). cbn [ToMatrix].
    replace (DegToRad (- x)) with (- DegToRad x) by (unfold DegToRad; field). rewrite M1, M2, M3.
    assert (I : product (axis_mat u (DegToRad x)) (axis_mat u (- DegToRad x)) = Identity); [|now split].
    rewrite <- !axis_mat_unit by exact U. rewrite C70_angles_add by exact U.
    replace (DegToRad x + - DegToRad x) with 0 by ring. rewrite axis_mat_unit by exact U. unfold axis_mat. rewrite cos_0, sin_0.
    unfold unit in U. apply mat_ext; cbv [Identity m00 m01 m02 m03 m10 m11 m12 m13 m20 m21 m22 m23 m30 m31 m32 m33]; lra.
Qed.
Print Assumptions C77_inverse_partial.
(** Two rotations by 90 degrees with short axes along X and Y count as opposite; together they take (1, 0, 0) to another axis. *)
Theorem C77_inverse_refuted : exists a b, IsInverse a b = true /\
  TransformCoordinate (product (ToMatrix a) (ToMatrix b)) (V3 1 0 0) = V3 0 (-1) 0.
Proof.
  pose (c := 9 / 100000). exists (TRotation (V3 c 0 0) 90), (TRotation (V3 0 c 0) (- 90)). split.
  - cbn [IsInverse]. apply orb_true_iff. left. apply andb_true_iff. split; [|apply equivalent_refl].
    apply equivalent3_spec. cbn [x3 y3 z3]. unfold c, FLT_TOLERANCE. repeat split; apply Rabs_def1; lra.
  - cbn [ToMatrix].
    assert (Sq : sqrt (c * c) = c) by (apply sqrt_square; unfold c; lra).
    assert (Far : IsEquivalent (c * c) 1 = false).
    { apply not_true_is_false. intro E. apply equivalent_spec in E. unfold c, FLT_TOLERANCE in E. rewrite Rabs_left in E; lra. }
    assert (A1 : AxisRotationMatrix (V3 c 0 0) (DegToRad 90) = axis_mat XAxis (PI / 2)).
    { unfold AxisRotationMatrix. replace (vLengthSquared (V3 c 0 0)) with (c * c) by (unfold vLengthSquared; cbn [x3 y3 z3]; ring). rewrite Far.
      unfold vNormalize, vLength. cbn [x3 y3 z3]. replace (c * c + 0 * 0 + 0 * 0) with (c * c) by ring. rewrite Sq.
      destruct (Rlt_dec 0 c) as [Hc|Hc]; [|unfold c in Hc; lra]. replace (DegToRad 90) with (PI / 2) by (unfold DegToRad; field).
      assert (Hn : c <> 0) by lra. apply mat_ext; cbv [axis_mat XAxis m00 m01 m02 m03 m10 m11 m12 m13 m20 m21 m22 m23 m30 m31 m32 m33 x3 y3 z3]; try (field; exact Hn); ring. }
    assert (A2 : AxisRotationMatrix (V3 0 c 0) (DegToRad (- 90)) = axis_mat YAxis (- (PI / 2))).
    { unfold AxisRotationMatrix. replace (vLengthSquared (V3 0 c 0)) with (c * c) by (unfold vLengthSquared; cbn [x3 y3 z3]; ring). rewrite Far.
      unfold vNormalize, vLength. cbn [x3 y3 z3]. replace (0 * 0 + c * c + 0 * 0) with (c * c) by ring. rewrite Sq.
      destruct (Rlt_dec 0 c) as [Hc|Hc]; [|unfold c in Hc; lra]. replace (DegToRad (- 90)) with (- (PI / 2)) by (unfold DegToRad; field).
      assert (Hn : c <> 0) by lra. apply mat_ext; cbv [axis_mat YAxis m00 m01 m02 m03 m10 m11 m12 m13 m20 m21 m22 m23 m30 m31 m32 m33 x3 y3 z3]; try (field; exact Hn); ring. }
    rewrite A1, A2. unfold axis_mat. rewrite cos_neg, sin_neg, cos_PI2, sin_PI2. apply vec3_ext; cbv [XAxis YAxis]; ropen; ring.
Qed.
Print Assumptions C77_inverse_refuted.
(** Opposite scales, and a quarter turn with three quarter turns about the same axis, are not recognised. *)
Theorem C77_inverse_missed_refuted : exists a b c d,
  product (ToMatrix a) (ToMatrix b) = Identity /\ IsInverse a b = false /\
  product (ToMatrix c) (ToMatrix d) = Identity /\ IsInverse c d = false.
Proof.
  exists (TScale (V3 2 2 2)), (TScale (V3 (1 / 2) (1 / 2) (1 / 2))), (TRotation XAxis 90), (TRotation XAxis 270).
  split; [|split; [|split]].
  - cbn [ToMatrix]. apply mat_ext; ropen; field.
  - reflexivity.
  - cbn [ToMatrix]. assert (X : unit XAxis) by (unfold unit; cbn; ring). rewrite C70_angles_add by exact X.
    replace (DegToRad 90 + DegToRad 270) with (2 * PI) by (unfold DegToRad; field). rewrite axis_mat_unit by exact X.
    unfold axis_mat. rewrite cos_2PI, sin_2PI. apply mat_ext; cbv [XAxis]; ropen; ring.
  - cbn [IsInverse]. apply orb_false_iff. split; apply andb_false_iff; right; apply not_true_is_false; intro E; apply equivalent_spec in E;
      unfold FLT_TOLERANCE in E; rewrite Rabs_left in E; lra.
Qed.
Print Assumptions C77_inverse_missed_refuted.

(** *** Cloning *)
(** A clone of a node gets the same transformations in the same order, after what it had, so an empty one gets the same
    matrix; the sub ids are not copied. *)
Theorem C77_clone_partial : forall l c,
  map fst (clone_stack l c) = map fst c ++ map fst l /\ clone_stack l c = c ++ map (fun e => (fst e, [])) l /\
  node_matrix (clone_stack l []) = node_matrix l.
Proof.
  assert (One : forall c e, add_and_clone c e = c ++ [(fst e, [])]).
  { intros c [t sid]. unfold add_and_clone. cbn [fst]. unfold AddTransform.
    assert (Lt : (length c <? S (length c))%nat = true) by (apply Nat.ltb_lt; lia). rewrite Lt.
    destruct t; cbn [GetType CreateTransform]; rewrite rev_app_distr; cbn [rev app]; rewrite rev_involutive; reflexivity. }
  assert (All : forall l c, clone_stack l c = c ++ map (fun e => (fst e, [])) l).
  { unfold clone_stack. induction l as [|e l IH]; intro c; cbn [fold_left map]; [now rewrite app_nil_r|].
    rewrite IH, One, <- app_assoc. reflexivity. }
  assert (Nm : forall l, node_matrix (map (fun e => (fst e, @nil Z)) l) = node_matrix l).
  { induction l as [|e l IH]; [reflexivity|]. cbn [map]. rewrite !node_cons, IH. reflexivity. }
  intros l c. rewrite !All. split; [|split; [reflexivity | apply Nm]]. rewrite map_app, map_map. cbn [fst]. reflexivity.
Qed.
Print Assumptions C77_clone_partial.
Theorem C77_clone_refuted : exists l, clone_stack l [] <> l.
Proof. exists [SetSubId [97%Z] (TScale (V3 1 1 1), [])]. rewrite (proj1 (proj2 (C77_clone_partial _ _))). discriminate. Qed.
Print Assumptions C77_clone_refuted.

(** A node moved by (1, 2, 3), then scaled by 2, below one turned by 90 degrees about Z: the point (1, 0, 0) gets to
    (3, 2, 3) and then to (-2, 3, 3). *)
Definition demo_tr (n : nat) : list TransformModel.entry :=
  match n with
  | 0%nat => [(TRotation ZAxis 90, [])]
  | 1%nat => [(TTranslation (V3 1 2 3), []); (TScale (V3 2 2 2), [])]
  | _ => []
  end.
Example C77_demo : exists g m, history g /\ chain g [0%nat; 1%nat] 1 /\ CalculateWorldTransform 5 g demo_tr 1 = Done m /\
  TransformCoordinate (node_matrix (demo_tr 1)) (V3 1 0 0) = V3 3 2 3 /\ TransformCoordinate m (V3 1 0 0) = V3 (-2) 3 3 /\
  IsInverse (TTranslation (V3 1 2 3)) (TTranslation (V3 (-1) (-2) (-3))) = true.
Proof.
  pose (g := add new6 0 1). exists g, (product (node_matrix (demo_tr 0)) (node_matrix (demo_tr 1))).
  assert (P1 : par g 1%nat = [0%nat]) by (vm_compute; reflexivity). assert (P0 : par g 0%nat = []) by (vm_compute; reflexivity).
  split; [eapply history_add; [| reflexivity | reflexivity | reflexivity]; repeat constructor|].
  split; [exact (chain_step g [0%nat] 0 1 [] (chain_root g 0 P0) P1)|].
  split; [cbn [CalculateWorldTransform]; rewrite P1, P0; reflexivity|].
  assert (Q : forall p, TransformCoordinate (node_matrix (demo_tr 1)) p = V3 (2 * x3 p + 1) (2 * y3 p + 2) (2 * z3 p + 3)).
  { intros [p0 p1 p2]. unfold demo_tr, node_matrix. cbn [fold_left fst ToMatrix]. apply vec3_ext; ropen; ring. }
  split; [rewrite Q; apply vec3_ext; cbn [x3 y3 z3]; ring|]. split.
  - assert (A : affine (node_matrix (demo_tr 1))) by (apply (C77_stack (demo_tr 1)); repeat constructor).
    destruct (C42_points_partial (node_matrix (demo_tr 0)) _ (V3 1 0 0) A) as (-> & _). rewrite Q. unfold demo_tr, node_matrix. cbn [fold_left fst ToMatrix].
    assert (Z1 : unit ZAxis) by (unfold unit; cbn; ring). rewrite (proj1 (C42_identity _)), axis_mat_unit by exact Z1.
    replace (DegToRad 90) with (PI / 2) by (unfold DegToRad; field). unfold axis_mat. rewrite cos_PI2, sin_PI2. apply vec3_ext; cbv [ZAxis]; ropen; ring.
  - cbn [IsInverse]. apply equivalent3_spec. unfold vscale, FLT_TOLERANCE. cbn [x3 y3 z3]. repeat split; apply Rabs_def1; lra.
Qed.
