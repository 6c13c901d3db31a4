(** C26 (including into a bounding sphere), C65 (transforming it), C66 (overlap tests). *)
From Coq Require Import List Reals Lra Psatz.
From Verif Require Import SphereModel SphereProofs.
Import ListNotations.
Local Open Scope R_scope.

(** *** Specification *)
(** The Euclidean distance; a sphere as the set of its points (a negative radius means no point). *)
Definition distance (p q : vec) : R := sqrt ((px p - px q)² + (py p - py q)² + (pz p - pz q)²).
Definition within (p : vec) (s : sphere) : Prop := distance p (center s) <= radius s.
Definition in_box (p : vec) (b : box) : Prop :=
  px (minimum b) <= px p <= px (maximum b) /\ py (minimum b) <= py p <= py (maximum b) /\
  pz (minimum b) <= pz p <= pz (maximum b).
Definition covers (s : sphere) (P : vec -> Prop) : Prop := forall p, P p -> within p s.
Inductive operation := AddPoint (p : vec) | AddBox (b : box).
Definition perform (s : sphere) (o : operation) : sphere :=
  match o with AddPoint p => IncludePoint s p | AddBox b => IncludeBox s b end.
Definition added (o : operation) (q : vec) : Prop :=
  match o with AddPoint p => q = p | AddBox b => in_box q b end.

Lemma distance_length : forall p q, distance p q = Length (sub p q). Proof. reflexivity. Qed.
Lemma distance_sym : forall p q, distance p q = distance q p.
Proof. intros. rewrite !distance_length. apply length_sub_sym. Qed.
Lemma distance_triangle : forall a b c, distance a c <= distance a b + distance b c.
Proof.
  intros a b c. rewrite !distance_length. pose proof (triangle (sub a b) (sub b c)) as T.
  replace (add (sub a b) (sub b c)) with (sub a c) in T; [exact T|].
  destruct a as [a1 a2 a3], b as [b1 b2 b3], c as [c1 c2 c3]. unfold sub, add; cbn [px py pz]. f_equal; ring.
Qed.
Lemma distance_nonneg : forall p q, 0 <= distance p q. Proof. intros. apply sqrt_pos. Qed.

Lemma include_point_ok : forall s p, covers (IncludePoint s p) (fun q => within q s \/ q = p) /\ 0 <= radius (IncludePoint s p).
Proof.
  intros s p. unfold IncludePoint. destruct (Rle_dec 0 (radius s)) as [Hv|Hv].
  - assert (E : LengthSquared (sub (center s) p) = distance p (center s) * distance p (center s)).
    { rewrite distance_sym, distance_length, length_sq. reflexivity. }
    cbv zeta. rewrite E. rewrite sqrt_square by apply distance_nonneg. pose proof (distance_nonneg p (center s)).
    destruct (Rlt_dec _ _) as [L|L].
    + split; [|exact H]. intros q [Hq| ->]; unfold within in *; cbn [center radius]; [|lra].
      assert (radius s < distance p (center s)) by nra. lra.
    + split; [|exact Hv]. intros q [Hq| ->]; unfold within in *; [exact Hq|]. nra.
  - split; [|cbn; lra]. intros q [Hq| ->]; unfold within in *.
    + pose proof (distance_nonneg q (center s)). lra.
    + cbn [center radius]. rewrite distance_length.
      replace (sub p p) with (V 0 0 0) by (destruct p as [p1 p2 p3]; unfold sub; cbn [px py pz]; f_equal; ring).
      unfold Length; cbn [px py pz]. replace (0 * 0 + 0 * 0 + 0 * 0) with 0 by ring. rewrite sqrt_0. lra.
Qed.
Lemma include_points_ok : forall l s, 0 <= radius s ->
  covers (fold_left IncludePoint l s) (fun q => within q s \/ In q l) /\ 0 <= radius (fold_left IncludePoint l s).
Proof.
  induction l as [|p l IH]; intros s Hv; cbn [fold_left].
  - split; [|exact Hv]. intros q [Hq|[]]. exact Hq.
  - destruct (include_point_ok s p) as (C1 & V1). destruct (IH _ V1) as (C2 & V2). split; [|exact V2].
    intros q [Hq|[<-|Hq]]; apply C2; [left; apply C1; auto | left; apply C1; auto | now right].
Qed.
(** A ball containing the corners of a box contains the box. *)
Lemma corners_enough : forall s b, 0 <= radius s -> (forall q, In q (coordinates b) -> within q s) -> forall q, in_box q b -> within q s.
Proof.
  intros s b Hv H q (Hx & Hy & Hz).
  assert (side : forall lo hi v c, lo <= v <= hi -> (v - c) * (v - c) <= (lo - c) * (lo - c) \/ (v - c) * (v - c) <= (hi - c) * (hi - c)).
  { intros lo hi v c Hlh. destruct (Rle_dec v c); [left | right]; nra. }
  assert (W : forall p, within p s <-> (px p - px (center s)) * (px p - px (center s)) + (py p - py (center s)) * (py p - py (center s)) +
      (pz p - pz (center s)) * (pz p - pz (center s)) <= radius s * radius s).
  { intro p. unfold within. rewrite distance_length, <- length_le by exact Hv. unfold dot, sub; cbn [px py pz]. tauto. }
  apply W. cbn [coordinates In] in H.
  destruct (side _ _ _ (px (center s)) Hx) as [A|A]; destruct (side _ _ _ (py (center s)) Hy) as [B|B];
  destruct (side _ _ _ (pz (center s)) Hz) as [C|C];
  [ pose proof (H (minimum b)) as K
  | pose proof (H (V (px (minimum b)) (py (minimum b)) (pz (maximum b)))) as K
  | pose proof (H (V (px (minimum b)) (py (maximum b)) (pz (minimum b)))) as K
  | pose proof (H (V (px (minimum b)) (py (maximum b)) (pz (maximum b)))) as K
  | pose proof (H (V (px (maximum b)) (py (minimum b)) (pz (minimum b)))) as K
  | pose proof (H (V (px (maximum b)) (py (minimum b)) (pz (maximum b)))) as K
  | pose proof (H (V (px (maximum b)) (py (maximum b)) (pz (minimum b)))) as K
  | pose proof (H (maximum b)) as K ];
  specialize (K ltac:(auto 10)); apply W in K; cbn [px py pz] in K; lra.
Qed.

(** *** C26 *)
(** Points and boxes: after any history of inclusions, starting from any sphere (also a reset one), the
    sphere covers what it covered before and everything included. *)
Theorem C26_include_points_and_boxes : forall l s,
  covers (fold_left perform l s) (fun q => within q s \/ exists o, In o l /\ added o q).
Proof.
  assert (One : forall s o, covers (perform s o) (fun q => within q s \/ added o q)).
  { intros s [p|b]; cbn [perform added]; [apply include_point_ok|].
    unfold IncludeBox. destruct (Rle_dec 0 (radius s)) as [Hv|Hv].
    - destruct (include_points_ok (coordinates b) s Hv) as (C & V'). intros q [Hq|Hq]; [apply C; auto|].
      apply (corners_enough _ b V'); [intros p Hp; apply C; auto | exact Hq].
    - intros q [Hq|Hq].
      + unfold within in Hq. pose proof (distance_nonneg q (center s)). lra.
      + cbv zeta. set (c := divide (add (minimum b) (maximum b)) 2).
        apply (corners_enough (Sphere c (Length (sub (maximum b) c))) b); [apply length_pos | | exact Hq].
        intros p Hp. unfold within; cbn [center radius]. rewrite distance_length. apply length_le; [apply length_pos|].
        rewrite length_sq. unfold c, dot, sub, divide, add. cbn [coordinates In] in Hp. cbn [px py pz].
        repeat (destruct Hp as [<-|Hp]; [cbn [px py pz]; apply Req_le; field|]). destruct Hp. }
  induction l as [|o l IH]; intros s q H; cbn [fold_left].
  - destruct H as [H|(o & [] & _)]. exact H.
  - apply IH. destruct H as [H|(o' & [<-|Ho] & H)]; [left; apply One; auto | left; apply One; auto | right; eauto].
Qed.
Print Assumptions C26_include_points_and_boxes.
Example C26_demo : let l := [AddPoint (V 1 0 0); AddBox (Box (V 2 0 0) (V 5 1 2)); AddPoint (V 1 9 1)] in
  within (V 3 (/ 2) 1) (fold_left perform l Reset).
Proof.
  apply C26_include_points_and_boxes. right. exists (AddBox (Box (V 2 0 0) (V 5 1 2))). split; [cbn; auto|].
  unfold added, in_box; cbn [minimum maximum px py pz]. lra.
Qed.

(** Spheres.  The full statement: for valid [s] and [o], [IncludeSphere s o] covers both. *)
Theorem C26_include_sphere_refuted :
  let s := Sphere (V 0 0 0) 1 in let o := Sphere (V 0 0 0) 3 in
  IncludeSphere s o = Sphere (V 0 0 0) 2 /\ within (V 3 0 0) o /\ ~ within (V 3 0 0) (IncludeSphere s o).
Proof.
  cbv zeta.
  assert (E : IncludeSphere (Sphere (V 0 0 0) 1) (Sphere (V 0 0 0) 3) = Sphere (V 0 0 0) 2).
  { unfold IncludeSphere, Length, sub, divide, add, scale; cbn [center radius px py pz].
    destruct (Rle_dec 0 1); [|lra].
    replace ((0 - 0) * (0 - 0) + (0 - 0) * (0 - 0) + (0 - 0) * (0 - 0)) with 0 by ring. rewrite sqrt_0.
    destruct (Rlt_dec 1 (0 + 3)); [|lra]. f_equal; [f_equal|]; field. }
  assert (D : distance (V 3 0 0) (V 0 0 0) = 3).
  { unfold distance; cbn [px py pz]. replace ((3 - 0)² + (0 - 0)² + (0 - 0)²) with (3 * 3) by (unfold Rsqr; ring).
    apply sqrt_square. lra. }
  split; [exact E|]. rewrite E. unfold within; cbn [center radius]. rewrite D. lra.
Qed.
Print Assumptions C26_include_sphere_refuted.

(** A sphere lying inside the old one leaves it unchanged; otherwise the result covers both exactly when the
    two radii are equal.  An invalid sphere is replaced. *)
Theorem C26_include_sphere_partial : forall s o, 0 <= radius o ->
  (radius s < 0 -> IncludeSphere s o = o) /\
  (0 <= radius s ->
   (distance (center s) (center o) + radius o <= radius s ->
      IncludeSphere s o = s /\ covers s (fun p => within p s \/ within p o)) /\
   (radius s < distance (center s) (center o) + radius o ->
    (covers (IncludeSphere s o) (fun p => within p s \/ within p o) <-> radius s = radius o))).
Proof.
  intros s o Ho. unfold IncludeSphere. destruct (Rle_dec 0 (radius s)) as [Hv|Hv]; split; intro Hs; try lra; [|reflexivity].
  rewrite <- distance_length. cbv zeta. set (d := distance (center s) (center o)).
  assert (Hd : 0 <= d) by apply distance_nonneg.
  split.
  - intro L. split; [destruct (Rlt_dec _ _); [lra | reflexivity]|].
    intros p [Hp|Hp]; [exact Hp|]. unfold within in *. pose proof (distance_triangle p (center o) (center s)).
    rewrite (distance_sym (center o)) in H. fold d in H. lra.
  - intro L. destruct (Rlt_dec _ _) as [_|]; [|lra].
    set (T := radius s + radius o + d). assert (HT : 0 < T) by (unfold T; lra).
    destruct (direction (center s) (center o)) as (u & Hu & Eu).
    rewrite <- distance_length, distance_sym in Eu. fold d in Eu.
    (* the new centre on the line through the centres *)
    set (c := divide (add (scale (radius s + d / 2) (center s)) (scale (radius o + d / 2) (center o))) T).
    assert (Es : sub c (center s) = scale (d * ((radius o + d / 2) / T)) u).
    { replace (scale (d * ((radius o + d / 2) / T)) u) with (scale ((radius o + d / 2) / T) (scale d u))
        by (destruct u as [u1 u2 u3]; unfold scale; cbn [px py pz]; f_equal; ring).
      rewrite <- Eu. unfold c. destruct (center s) as [a1 a2 a3], (center o) as [b1 b2 b3].
      unfold sub, divide, add, scale; cbn [px py pz].
      f_equal; unfold T; field; fold T; lra. }
    assert (Eo : sub c (center o) = scale (- (d * ((radius s + d / 2) / T))) u).
    { replace (scale (- (d * ((radius s + d / 2) / T))) u) with (scale (- ((radius s + d / 2) / T)) (scale d u))
        by (destruct u as [u1 u2 u3]; unfold scale; cbn [px py pz]; f_equal; ring).
      rewrite <- Eu. unfold c. destruct (center s) as [a1 a2 a3], (center o) as [b1 b2 b3].
      unfold sub, divide, add, scale; cbn [px py pz].
      f_equal; unfold T; field; fold T; lra. }
    set (ks := d * ((radius o + d / 2) / T)) in *. set (ko := d * ((radius s + d / 2) / T)) in *.
    assert (Kc : ks * T = d * (radius o + d / 2) /\ ko * T = d * (radius s + d / 2)) by (unfold ks, ko; split; field; lra).
    assert (Kp : 0 <= ks /\ 0 <= ko) by (destruct Kc; split; nra).
    assert (lu : Length u = 1).
    { unfold Length. fold (dot u u). rewrite Hu. apply sqrt_1. }
    split.
    + intro C.
      assert (Q1 : ks + radius s <= T / 2).
      { (* the farthest point of s *)
        pose proof (C (add (center s) (scale (- radius s) u))) as K. unfold within in K; cbn [center radius] in K.
        replace (distance (add (center s) (scale (- radius s) u)) c) with (ks + radius s) in K.
        - apply K. left. rewrite distance_length.
          replace (sub (add (center s) (scale (- radius s) u)) (center s)) with (sub (V 0 0 0) (scale (radius s) u))
            by (destruct (center s) as [s1 s2 s3], u as [u1 u2 u3]; unfold sub, add, scale; cbn [px py pz]; f_equal; ring).
          rewrite length_sub_sym. replace (sub (scale (radius s) u) (V 0 0 0)) with (scale (radius s) u)
            by (destruct u as [u1 u2 u3]; unfold sub, scale; cbn [px py pz]; f_equal; ring).
          rewrite length_scale, lu by lra. lra.
        - rewrite distance_sym, distance_length.
          replace (sub c (add (center s) (scale (- radius s) u))) with (add (sub c (center s)) (scale (radius s) u))
            by (destruct c as [c1 c2 c3], (center s) as [s1 s2 s3], u as [u1 u2 u3]; unfold sub, add, scale; cbn [px py pz]; f_equal; ring).
          rewrite Es. replace (add (scale ks u) (scale (radius s) u)) with (scale (ks + radius s) u)
            by (destruct u as [u1 u2 u3]; unfold add, scale; cbn [px py pz]; f_equal; ring).
          rewrite length_scale, lu by lra. lra. }
      assert (Q2 : ko + radius o <= T / 2).
      { pose proof (C (add (center o) (scale (radius o) u))) as K. unfold within in K; cbn [center radius] in K.
        replace (distance (add (center o) (scale (radius o) u)) c) with (ko + radius o) in K.
        - apply K. right. rewrite distance_length.
          replace (sub (add (center o) (scale (radius o) u)) (center o)) with (scale (radius o) u)
            by (destruct (center o) as [s1 s2 s3], u as [u1 u2 u3]; unfold sub, add, scale; cbn [px py pz]; f_equal; ring).
          rewrite length_scale, lu by lra. lra.
        - rewrite distance_length.
          replace (sub (add (center o) (scale (radius o) u)) c) with (sub (scale (radius o) u) (sub c (center o)))
            by (destruct c as [c1 c2 c3], (center o) as [s1 s2 s3], u as [u1 u2 u3]; unfold sub, add, scale; cbn [px py pz]; f_equal; ring).
          rewrite Eo. replace (sub (scale (radius o) u) (scale (- ko) u)) with (scale (ko + radius o) u)
            by (destruct u as [u1 u2 u3]; unfold sub, scale; cbn [px py pz]; f_equal; ring).
          rewrite length_scale, lu by lra. lra. }
      destruct Kc as (K1 & K2).
      assert (A : radius s * radius s <= radius o * radius o).
      { assert ((ks + radius s) * T <= T / 2 * T) by (apply Rmult_le_compat_r; lra). unfold T in *. nra. }
      assert (B : radius o * radius o <= radius s * radius s).
      { assert ((ko + radius o) * T <= T / 2 * T) by (apply Rmult_le_compat_r; lra). unfold T in *. nra. }
      nra.
    + intro E. destruct Kc as (K1 & K2).
      assert (Q1 : ks = d / 2). { apply Rmult_eq_reg_r with T; [|lra]. rewrite K1. unfold T. rewrite E. field. }
      assert (Q2 : ko = d / 2). { apply Rmult_eq_reg_r with T; [|lra]. rewrite K2. unfold T. rewrite E. field. }
      assert (D1 : distance (center s) c = d / 2).
      { rewrite distance_sym, distance_length, Es, length_scale, lu by lra. lra. }
      assert (D2 : distance (center o) c = d / 2).
      { rewrite distance_length. replace (sub (center o) c) with (scale ko u).
        - rewrite length_scale, lu by lra. lra.
        - transitivity (sub (V 0 0 0) (sub c (center o))).
          + rewrite Eo. destruct u as [u1 u2 u3]. unfold sub, scale; cbn [px py pz]. f_equal; ring.
          + destruct c as [c1 c2 c3], (center o) as [s1 s2 s3]. unfold sub; cbn [px py pz]. f_equal; ring. }
      intros p Hp. unfold within in *; cbn [center radius].
      destruct Hp as [Hp|Hp].
      * pose proof (distance_triangle p (center s) c). unfold T. lra.
      * pose proof (distance_triangle p (center o) c). unfold T. lra.
Qed.
Print Assumptions C26_include_sphere_partial.
Example C26_sphere_demo : let s := Sphere (V 0 0 0) 1 in let o := Sphere (V 4 0 0) 1 in
  radius s < distance (center s) (center o) + radius o /\
  covers (IncludeSphere s o) (fun p => within p s \/ within p o).
Proof.
  cbv zeta.
  assert (D : distance (V 0 0 0) (V 4 0 0) = 4).
  { unfold distance; cbn [px py pz]. replace ((0 - 4)² + (0 - 0)² + (0 - 0)²) with (4 * 4) by (unfold Rsqr; ring).
    apply sqrt_square. lra. }
  assert (L : radius (Sphere (V 0 0 0) 1) < distance (center (Sphere (V 0 0 0) 1)) (center (Sphere (V 4 0 0) 1)) + radius (Sphere (V 4 0 0) 1)).
  { cbn [center radius]. rewrite D. lra. }
  split; [exact L|].
  apply (proj2 (proj2 (C26_include_sphere_partial (Sphere (V 0 0 0) 1) (Sphere (V 4 0 0) 1) ltac:(cbn; lra)) ltac:(cbn; lra))); auto.
Qed.

(** *** C65 *)
(** The full statement: [covers (Transform m s) (the image of s under m)] for every matrix. *)
Definition image (m : affine) (s : sphere) (q : vec) : Prop := exists p, within p s /\ q = TransformCoordinate m p.
Lemma grow_spec : forall m r p, 0 <= r -> grow m r p = Rmax r (Length (TransformVector m p)).
Proof.
  intros m r p Hr. unfold grow. cbv zeta. rewrite length_squared. fold (Length (TransformVector m p)).
  rewrite <- length_sq. pose proof (length_pos (TransformVector m p)).
  rewrite sqrt_square by assumption. unfold Rmax. destruct (Rlt_dec _ _), (Rle_dec _ _); try reflexivity; nra.
Qed.
Lemma transform_radius : forall m s, 0 <= radius s ->
  Transform m s = Sphere (TransformCoordinate m (center s))
    (radius s * Rmax (Rmax (Length (colx m)) (Length (coly m))) (Length (colz m))).
Proof.
  intros m s Hs. unfold Transform, IsValid. destruct (Rle_dec 0 (radius s)); [|lra]. f_equal. cbv zeta. cbn [fold_left].
  assert (Ex : TransformVector m (V (radius s) 0 0) = scale (radius s) (colx m)) by (unfold TransformVector, scale; cbn [px py pz]; f_equal; ring).
  assert (Ey : TransformVector m (V 0 (radius s) 0) = scale (radius s) (coly m)) by (unfold TransformVector, scale; cbn [px py pz]; f_equal; ring).
  assert (Ez : TransformVector m (V 0 0 (radius s)) = scale (radius s) (colz m)) by (unfold TransformVector, scale; cbn [px py pz]; f_equal; ring).
  pose proof (length_pos (colx m)). pose proof (length_pos (coly m)). pose proof (length_pos (colz m)).
  rewrite (grow_spec m 0), Ex, length_scale by lra.
  rewrite (Rmax_right 0) by nra.
  rewrite (grow_spec m (radius s * Length (colx m))), Ey, length_scale by nra. rewrite RmaxRmult by assumption.
  rewrite grow_spec, Ez, length_scale; [now rewrite RmaxRmult | assumption|].
  apply Rmult_le_pos; [assumption|]. apply Rle_trans with (Length (colx m)); [assumption | apply Rmax_l].
Qed.
Theorem C65_transform_refuted :
  let m := Affine (V 1 0 0) (V 1 0 0) (V 0 0 0) (V 0 0 0) in let s := Sphere (V 0 0 0) 5 in
  within (V 3 4 0) s /\ ~ within (TransformCoordinate m (V 3 4 0)) (Transform m s).
Proof.
  cbv zeta. split.
  - unfold within, distance; cbn [center radius px py pz].
    replace ((3 - 0)² + (4 - 0)² + (0 - 0)²) with (5 * 5) by (unfold Rsqr; ring). rewrite sqrt_square; lra.
  - rewrite transform_radius by (cbn; lra). cbn [radius center colx coly colz].
    assert (L1 : Length (V 1 0 0) = 1).
    { unfold Length; cbn [px py pz]. replace (1 * 1 + 0 * 0 + 0 * 0) with 1 by ring. apply sqrt_1. }
    assert (L0 : Length (V 0 0 0) = 0).
    { unfold Length; cbn [px py pz]. replace (0 * 0 + 0 * 0 + 0 * 0) with 0 by ring. apply sqrt_0. }
    rewrite L1, L0. rewrite (Rmax_left 1 1), (Rmax_left 1 0) by lra.
    unfold within, distance, TransformCoordinate, TransformVector, add; cbn [center radius px py pz colx coly colz translation].
    match goal with |- ~ sqrt ?x <= _ => replace x with (7 * 7) by (unfold Rsqr; ring) end.
    rewrite sqrt_square; lra.
Qed.
Print Assumptions C65_transform_refuted.
(** Proved when the images of the axes are perpendicular (rotations, translations, axis scalings applied
    first, and their products). *)
Theorem C65_transform_partial : forall m s, 0 <= radius s ->
  dot (colx m) (coly m) = 0 -> dot (coly m) (colz m) = 0 -> dot (colz m) (colx m) = 0 ->
  covers (Transform m s) (image m s).
Proof.
  intros m s Hs O1 O2 O3 q (p & Hp & ->). rewrite transform_radius by assumption. unfold within in *. cbn [center radius].
  set (k := Rmax (Rmax (Length (colx m)) (Length (coly m))) (Length (colz m))).
  assert (Kx : Length (colx m) <= k) by (unfold k; eapply Rle_trans; [|apply Rmax_l]; apply Rmax_l).
  assert (Ky : Length (coly m) <= k) by (unfold k; eapply Rle_trans; [|apply Rmax_l]; apply Rmax_r).
  assert (Kz : Length (colz m) <= k) by (unfold k; apply Rmax_r).
  pose proof (length_pos (colx m)). pose proof (length_pos (coly m)). pose proof (length_pos (colz m)).
  assert (Hk : 0 <= k) by lra.
  rewrite distance_length in *. set (v := sub p (center s)) in *.
  assert (E : sub (TransformCoordinate m p) (TransformCoordinate m (center s)) = TransformVector m v).
  { unfold v, TransformCoordinate, TransformVector, sub, add; cbn [px py pz]. f_equal; ring. }
  rewrite E. apply Rle_trans with (Length v * k); [|apply Rmult_le_compat_r; assumption].
  pose proof (length_pos v). apply length_le; [nra|].
  assert (D : dot (TransformVector m v) (TransformVector m v) =
     dot (colx m) (colx m) * (px v * px v) + dot (coly m) (coly m) * (py v * py v) + dot (colz m) (colz m) * (pz v * pz v)
     + 2 * (px v * py v) * dot (colx m) (coly m) + 2 * (py v * pz v) * dot (coly m) (colz m) + 2 * (pz v * px v) * dot (colz m) (colx m)).
  { unfold dot, TransformVector; cbn [px py pz]. ring. }
  rewrite D, O1, O2, O3. rewrite <- !length_sq.
  replace (Length v * k * (Length v * k)) with (k * k * (Length v * Length v)) by ring. rewrite (length_sq v). unfold dot.
  assert (X : Length (colx m) * Length (colx m) <= k * k) by (apply Rmult_le_compat; assumption).
  assert (Y : Length (coly m) * Length (coly m) <= k * k) by (apply Rmult_le_compat; assumption).
  assert (Z : Length (colz m) * Length (colz m) <= k * k) by (apply Rmult_le_compat; assumption).
  assert (sq : forall x, 0 <= x * x) by (intro; apply Rle_0_sqr).
  pose proof (Rmult_le_compat_r _ _ _ (sq (px v)) X). pose proof (Rmult_le_compat_r _ _ _ (sq (py v)) Y).
  pose proof (Rmult_le_compat_r _ _ _ (sq (pz v)) Z). lra.
Qed.
Print Assumptions C65_transform_partial.
Example C65_demo : let m := Affine (V 0 2 0) (V (-3) 0 0) (V 0 0 1) (V 5 6 7) in let s := Sphere (V 1 1 1) 2 in
  dot (colx m) (coly m) = 0 /\ dot (coly m) (colz m) = 0 /\ dot (colz m) (colx m) = 0 /\
  covers (Transform m s) (image m s).
Proof.
  cbv zeta. assert (H : dot (V 0 2 0) (V (-3) 0 0) = 0 /\ dot (V (-3) 0 0) (V 0 0 1) = 0 /\ dot (V 0 0 1) (V 0 2 0) = 0).
  { unfold dot; cbn [px py pz]. repeat split; ring. }
  destruct H as (H1 & H2 & H3). repeat (split; [assumption|]). apply C65_transform_partial; cbn [radius colx coly colz]; auto. lra.
Qed.

(** *** C66 *)
(** Contains accepts every point of the sphere, and a point it accepts is at most slightly outside; Overlaps
    is true exactly when the spheres share more than a touching point; against a box it is true exactly when
    a point of the box lies strictly inside the sphere, and then the reported point is such a point. *)
Definition strictly_within (p : vec) (s : sphere) : Prop := distance p (center s) < radius s.
Theorem C66_sphere_tests : forall s, 0 <= radius s ->
  (forall p, Contains s p = true <-> (distance p (center s))² < (radius s)² + / 10000) /\
  (forall p, within p s -> Contains s p = true) /\
  (forall o, 0 <= radius o -> Overlaps s o = Overlaps o s /\
     (Overlaps s o = true <->
      exists p, (within p s /\ strictly_within p o) \/ (strictly_within p s /\ within p o))) /\
  (forall b, (exists p, in_box p b) ->
     (fst (OverlapsBox s b) = true <-> exists p, in_box p b /\ strictly_within p s) /\
     (fst (OverlapsBox s b) = true -> in_box (snd (OverlapsBox s b)) b /\ strictly_within (snd (OverlapsBox s b)) s)).
Proof.
  intros s Hs.
  assert (C : forall p, Contains s p = true <-> (distance p (center s))² < (radius s)² + / 10000).
  { intro p. unfold Contains. destruct (Rle_dec 0 (radius s)); [|lra]. cbv zeta. rewrite length_squared, <- length_sq, length_sub_sym, <- distance_length.
    unfold Rsqr. unfold IsEquivalent, FLT_TOLERANCE.
    destruct (Rlt_dec _ _); [split; [intros _; lra | reflexivity]|].
    destruct (Rlt_dec _ _); [|split; [discriminate | intro; lra]].
    destruct (Rlt_dec _ _); [split; [intros _; lra | reflexivity] | split; [discriminate | intro; lra]]. }
  split; [exact C|]. split; [|split].
  - intros p Hp. apply C. unfold within in Hp. pose proof (distance_nonneg p (center s)). unfold Rsqr. nra.
  - intros o Ho.
    assert (O : forall a b, 0 <= radius a -> 0 <= radius b -> (Overlaps a b = true <-> distance (center a) (center b) < radius a + radius b)).
    { intros a b Ha Hb. unfold Overlaps. destruct (Rle_dec 0 (radius a)); [|lra]. cbv zeta. rewrite length_squared, distance_length.
      rewrite <- length_lt by lra. destruct (Rlt_dec _ _); split; auto; try discriminate; tauto. }
    split.
    + assert (E : Overlaps s o = true <-> Overlaps o s = true).
      { rewrite !O by assumption. rewrite distance_sym. split; intro; lra. }
      destruct (Overlaps s o), (Overlaps o s); intuition congruence.
    + rewrite O by assumption. set (d := distance (center s) (center o)). pose proof (distance_nonneg (center s) (center o)) as Hd. fold d in Hd.
      split.
      * intro L. set (t := radius s / (radius s + radius o)).
        assert (Ht : t * (radius s + radius o) = radius s) by (unfold t; field; lra).
        assert (Ht1 : 0 <= t <= 1) by (split; nra).
        set (p := add (center s) (scale t (sub (center o) (center s)))).
        assert (D1 : distance p (center s) = t * d).
        { rewrite distance_length. replace (sub p (center s)) with (scale t (sub (center o) (center s)))
            by (unfold p, sub, add, scale; cbn [px py pz]; f_equal; ring).
          rewrite length_scale by lra. unfold d. now rewrite distance_sym, distance_length. }
        assert (D2 : distance p (center o) = (1 - t) * d).
        { rewrite distance_length. replace (sub p (center o)) with (scale (1 - t) (sub (center s) (center o)))
            by (unfold p, sub, add, scale; cbn [px py pz]; f_equal; ring).
          rewrite length_scale by lra. reflexivity. }
        exists p. unfold within, strictly_within. rewrite D1, D2.
        destruct (Rlt_dec 0 (radius s)).
        -- right. split.
           ++ assert (0 < t) by nra. nra.
           ++ nra.
        -- left. assert (t = 0) by nra. split; [nra|]. rewrite H. lra.
      * intros (p & [(A & B)|(A & B)]); unfold within, strictly_within in *;
          pose proof (distance_triangle (center s) p (center o)); rewrite (distance_sym (center s) p) in *; fold d in H; lra.
  - intros b (e & Ex & Ey & Ez). unfold OverlapsBox. destruct (Rle_dec 0 (radius s)); [|lra]. cbv zeta. cbn [fst snd].
    assert (T : forall c mn mx v, mn <= v <= mx -> mn <= c + toward c mn mx <= mx /\ toward c mn mx * toward c mn mx <= (v - c) * (v - c)).
    { intros c mn mx v Hv. unfold toward. destruct (Rlt_dec mx c).
      - split; [lra|]. assert (0 <= (mx - v) * ((c - v) + (c - mx))) by (apply Rmult_le_pos; lra). lra.
      - destruct (Rlt_dec mn c).
        + split; [lra|]. replace (0 * 0) with 0 by ring. apply Rle_0_sqr.
        + split; [lra|]. assert (0 <= (v - mn) * ((v - c) + (mn - c))) by (apply Rmult_le_pos; lra). lra. }
    set (rx := toward (px (center s)) (px (minimum b)) (px (maximum b))).
    set (ry := toward (py (center s)) (py (minimum b)) (py (maximum b))).
    set (rz := toward (pz (center s)) (pz (minimum b)) (pz (maximum b))).
    set (q := add (center s) (V rx ry rz)).
    assert (Iq : in_box q b).
    { unfold in_box, q, add; cbn [px py pz].
      split; [apply (T _ _ _ _ Ex)|]. split; [apply (T _ _ _ _ Ey) | apply (T _ _ _ _ Ez)]. }
    assert (W : forall p, strictly_within p s <-> (px p - px (center s)) * (px p - px (center s)) + (py p - py (center s)) * (py p - py (center s)) +
      (pz p - pz (center s)) * (pz p - pz (center s)) < radius s * radius s).
    { intro p. unfold strictly_within. rewrite distance_length, <- length_lt by exact Hs. unfold dot, sub; cbn [px py pz]. tauto. }
    assert (K : rx * rx + ry * ry + rz * rz < radius s * radius s -> strictly_within q s).
    { intro L. apply W. unfold q, add; cbn [px py pz]. replace (px (center s) + rx - px (center s)) with rx by ring.
      replace (py (center s) + ry - py (center s)) with ry by ring. replace (pz (center s) + rz - pz (center s)) with rz by ring. exact L. }
    destruct (Rlt_dec (rx * rx + ry * ry + rz * rz) (radius s * radius s)) as [L|L].
    + split; [split; [intros _; exists q; auto | reflexivity] | intros _; auto].
    + split; [|discriminate]. split; [discriminate|]. intros (p & (P1 & P2 & P3) & Hp). apply W in Hp.
      destruct (T (px (center s)) _ _ _ P1) as (_ & T1). destruct (T (py (center s)) _ _ _ P2) as (_ & T2). destruct (T (pz (center s)) _ _ _ P3) as (_ & T3).
      fold rx in T1. fold ry in T2. fold rz in T3. lra.
Qed.
Print Assumptions C66_sphere_tests.
Example C66_demo : let s := Sphere (V 0 0 0) 2 in let b := Box (V 1 0 0) (V 5 1 1) in
  (exists p, in_box p b) /\ fst (OverlapsBox s b) = true.
Proof.
  cbv zeta. assert (H : in_box (V 1 0 0) (Box (V 1 0 0) (V 5 1 1))) by (unfold in_box; cbn [minimum maximum px py pz]; lra).
  assert (K : exists p, in_box p (Box (V 1 0 0) (V 5 1 1))) by eauto.
  split; [exact K|]. apply (C66_sphere_tests (Sphere (V 0 0 0) 2) ltac:(cbn; lra)); [exact K|].
  exists (V 1 0 0). split; [exact H|]. unfold strictly_within, distance; cbn [center radius px py pz].
  replace ((1 - 0)² + (0 - 0)² + (0 - 0)²) with 1 by (unfold Rsqr; ring). rewrite sqrt_1. lra.
Qed.
