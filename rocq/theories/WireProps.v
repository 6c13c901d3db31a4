(** C113 and C114: splines in COLLADA XML. *)
From Coq Require Import String List ZArith QArith Bool Lia Lqa.
From Verif Require Import TextModel TextSpec TextProofs StringModel StringProofs XmlModel EnumModel FloatModel FloatSpec FloatProps DaeModel DaeSpec DaeProofs RigModel RigSpec RigTextProofs RigProofs
  RigWriteProofs AnimModel CustomModel CustomSpec CustomProofs CustomReadProofs LampSpec NodeSpec AssetModel AssetSpec WireModel WireSpec WireProofs WireWriteProofs.
From Verif Require RigProps LampProps LampSafeProofs NodeSafeProofs NodeSpec.
Import ListNotations.
Local Open Scope nat_scope.
Local Open Scope list_scope.

(** *** Writing and reading back *)
Lemma written_elem eps id i k w n : WriteSpline eps id i k w n -> is_elem "spline" n.
Proof. intros (tc & tw & tk & _ & _ & _ & ->). eexists; eexists; reflexivity. Qed.
Lemma same_remains eps k w v v' : wire_remains eps k w v -> same_wire v v' -> wire_remains eps k w v'.
Proof.
  intros [H1 H2 H3] [_ S2 S3 S4 S5 S6]. assert (T : forall x y z, remains eps x y -> (z == y)%Q -> remains eps x z) by (intros; eapply remains_eq; eauto).
  constructor.
  - now rewrite S2.
  - clear - H2 S3 T. revert S3. generalize (w_cvs v'). induction H2 as [|p q l m H _ IH]; intros l' S3; inversion S3 as [|? r ? l2 R1 R2]; subst; constructor; auto.
    destruct p as [[x y] z], q as [[x1 y1] z1], r as [[x2 y2] z2]. cbn in *. destruct H as (A & B & C), R1 as (D & E & F). split; [|split]; eapply T; eassumption.
  - intro E. destruct (H3 E) as (A & B & C). rewrite S6. split; [|split; [|exact C]].
    + clear - A S4 T. revert S4. generalize (w_weights v'). induction A as [|x y l m H _ IH]; intros l' S4; inversion S4; subst; constructor; eauto.
    + clear - B S5 T. revert S5. generalize (w_knots v'). induction B as [|x y l m H _ IH]; intros l' S5; inversion S5; subst; constructor; eauto.
Qed.
Lemma load_written a eps id i k w n : machine_eps eps -> geometry_id id -> proper_wire k w -> WriteSpline eps id i k w n ->
  exists w', type_of n = Some k /\ LoadTyped a k n = Some (true, w') /\ wire_remains eps k w w' /\ w_name w' = [].
Proof.
  intros He Hid Hp Hw. destruct (written_says eps id i k w n He Hid Hp Hw) as (v & Hv & Hr). destruct (load_typed a n k v Hv) as (v' & Hs & E).
  exists v'. pose proof (same_remains _ _ _ _ _ Hr Hs) as Hr'. split; [|split; [|split; [exact Hr'|]]].
  - destruct Hv as [(word & H1 & H2) _ _ _ _]. rewrite (type_read _ _ H1). f_equal. now apply word_type.
  - rewrite E. f_equal. f_equal. destruct Hp as [Hk Hpp Hn Hd Hsm Hc]. destruct Hr' as [_ R2 R3]. apply Forall2_len in R2. unfold IsValid. destruct Hc as (C1 & C2).
    destruct Hk as [-> |[-> | ->]].
    + apply Nat.leb_le. rewrite <- R2. auto.
    + reflexivity.
    + change (NURBS =? LINEAR)%Z with false. change (NURBS =? BEZIER)%Z with false. cbv iota. destruct (C2 eq_refl) as (A & B & C). destruct (R3 eq_refl) as (R4 & R5 & R6).
      apply Forall2_len in R4, R5. rewrite !andb_true_iff, negb_true_iff, Nat.eqb_neq, Nat.eqb_eq, Z.eqb_eq. rewrite <- R2, <- R4, <- R5, R6. split; [split|]; [destruct (w_cvs w); [congruence|discriminate]|auto|].
      rewrite Z.mod_small; lia.
  - destruct Hs as [-> _ _ _ _ _]. apply Hv.
Qed.
Lemma load_all a eps id k : machine_eps eps -> geometry_id id -> forall ws i l, written_from eps id k i ws l -> Forall (proper_wire k) ws ->
  forall status g, ws <> [] -> exists w w', last ws w = w /\ LoadGeometrySpline a status g l = Some (status, Wires k [w']) /\ wire_remains eps k (last ws w) w' /\ w_name w' = [].
Proof.
  intros He Hid ws i l H. induction H as [i|i w ws n l Hw Hl IH]; intros Hp status g Hne; [congruence|]. inversion Hp as [|? ? P1 P2]; subst.
  destruct (load_written a eps id i k w n He Hid P1 Hw) as (w' & T & L & R & N). cbn [LoadGeometrySpline].
  pose proof (written_elem _ _ _ _ _ _ Hw) as E. apply named_iff in E. rewrite E, T.
  assert (K : known k = true) by (destruct P1 as [[-> |[-> | ->]] _ _ _ _ _]; reflexivity). rewrite K, L.
  destruct ws as [|w2 ws]; [inversion Hl; subst; exists w, w'; auto|].
  destruct (IH P2 status (Wires k [w']) ltac:(discriminate)) as (x & x' & A & B & C & D). exists x, x'. split; [exact A|]. split; [exact B|]. split; [exact C|exact D].
Qed.
(** C113: of the splines that are written only the last one is read back: it has the type, is open or closed as before, and has the
    points and, for a NURBS, the weights, the knots and the degree.  Other children of the geometry do not matter. *)
Theorem C113_last_partial : forall a eps id k ws w l pre post, machine_eps eps -> geometry_id id -> Forall (proper_wire k) (ws ++ [w]) ->
  WriteGeometrySpline eps id (Wires k (ws ++ [w])) l -> no_shape pre -> no_shape post ->
  exists w', LoadGeometry a (pre ++ l ++ post) = Some (true, Some (Wires k [w'])) /\ wire_remains eps k w w' /\ w_name w' = [].
Proof.
  intros a eps id k ws w l pre post He Hid Hp Hw Hpre Hpost. unfold WriteGeometrySpline in Hw. cbn [kind curves] in Hw.
  destruct (load_all a eps id k He Hid _ _ _ Hw Hp true no_wires) as (x & w' & A & B & C & D); [destruct ws; discriminate|]. rewrite last_last in C.
  exists w'. split; [|auto].
  assert (Hl : l <> []) by (intro E; subst l; inversion Hw; destruct ws; discriminate).
  rewrite load_geometry; [|exact Hpre| |destruct l; [congruence|discriminate]].
  - rewrite load_app, B. rewrite load_skip; [reflexivity|]. revert Hpost. apply Forall_impl. intros c (_ & _ & H). now left.
  - intros n r E. destruct l as [|n0 l0]; [congruence|]. injection E as -> _. inversion Hw; subst. eapply written_elem; eauto.
Qed.
Print Assumptions C113_last_partial.
(** C113 (full statement, refuted): writing two splines or more and reading them back gives one. *)
Theorem C113_many_refuted : forall a eps id k u v ws l, machine_eps eps -> geometry_id id -> Forall (proper_wire k) (u :: v :: ws) ->
  WriteGeometrySpline eps id (Wires k (u :: v :: ws)) l ->
  exists w', LoadGeometry a l = Some (true, Some (Wires k [w'])) /\ List.length (u :: v :: ws) <> List.length [w'].
Proof.
  intros a eps id k u v ws l He Hid Hp Hw. destruct (exists_last (l := u :: v :: ws)) as (ws' & w & E); [discriminate|]. rewrite E in Hp, Hw.
  destruct (C113_last_partial a eps id k ws' w l [] [] He Hid Hp Hw) as (w' & A & _); [constructor|constructor|]. exists w'. rewrite app_nil_r in A. split; [exact A|discriminate].
Qed.
Print Assumptions C113_many_refuted.
(** A single spline keeps everything but its name. *)
Theorem C113_round_trip_partial : forall a eps id k w l, machine_eps eps -> geometry_id id -> proper_wire k w -> WriteGeometrySpline eps id (Wires k [w]) l ->
  exists w', LoadGeometry a l = Some (true, Some (Wires k [w'])) /\ wire_remains eps k w w'.
Proof.
  intros a eps id k w l He Hid Hp Hw. destruct (C113_last_partial a eps id k [] w l [] [] He Hid) as (w' & A & B & _); [constructor; auto|exact Hw|constructor|constructor|].
  rewrite app_nil_r in A. eauto.
Qed.
Print Assumptions C113_round_trip_partial.
(** The name is lost. *)
Theorem C113_name_refuted : forall a eps id k w l, machine_eps eps -> geometry_id id -> proper_wire k w -> w_name w <> [] ->
  WriteGeometrySpline eps id (Wires k [w]) l -> exists w', LoadGeometry a l = Some (true, Some (Wires k [w'])) /\ w_name w' <> w_name w.
Proof.
  intros a eps id k w l He Hid Hp Hn Hw. destruct (C113_last_partial a eps id k [] w l [] [] He Hid) as (w' & A & _ & B); [constructor; auto|exact Hw|constructor|constructor|].
  rewrite app_nil_r in A. exists w'. split; [exact A|]. congruence.
Qed.
Print Assumptions C113_name_refuted.
(** Every list of splines can be written. *)
Theorem C113_writable : forall eps id g, machine_eps eps -> exists l, WriteGeometrySpline eps id g l.
Proof.
  intros eps id [k ws] He. unfold WriteGeometrySpline. cbn [kind curves]. generalize 0. induction ws as [|w ws IH]; intro i; [eexists; constructor|].
  destruct (IH (S i)) as (l & Hl). destruct (floats_writable eps (flat_map coordinates (w_cvs w)) He) as (tc & H1).
  destruct (floats_writable eps (w_weights w) He) as (tw & H2). destruct (floats_writable eps (w_knots w) He) as (tk & H3).
  eexists. constructor; [|exact Hl]. exists tc, tw, tk. auto.
Qed.
Print Assumptions C113_writable.
(** The counts that are written say how many numbers and control vertices there are. *)
Theorem C113_counts : forall eps id i k w n, WriteSpline eps id i k w n -> exists sid at1 at2 t acc par rest attrs,
  n = Elem (tx "spline") attrs (Elem (tx "source") sid [Elem (tx "float_array") at1 t; Elem (tx "technique_common") [] [Elem (tx "accessor") at2 par]] :: rest) /\
  In (tx "count", append_u64 (3 * Z.of_nat (List.length (w_cvs w)))) at1 /\
  at2 = [(tx "source", acc); (tx "count", append_u64 (Z.of_nat (List.length (w_cvs w)))); (tx "stride", tx "3")] /\ List.length par = 3.
Proof.
  intros eps id i k w n (tc & tw & tk & _ & _ & _ & ->). do 8 eexists. split; [reflexivity|]. split; [|split; [reflexivity|reflexivity]].
  right. left. f_equal. f_equal. lia.
Qed.
Print Assumptions C113_counts.
(** No splines at all: the geometry that is read has no shape. *)
Theorem C113_empty_refuted : forall a eps id k l, WriteGeometrySpline eps id (Wires k []) l -> LoadGeometry a l = Some (true, None).
Proof. intros a eps id k l H. inversion H; subst. reflexivity. Qed.
Print Assumptions C113_empty_refuted.

(** A triangle, closed, and a NURBS of degree 1. *)
Lemma small_finite q : (Qabs.Qabs q <= Qpower 10 3)%Q -> finite q.
Proof. intro H. apply Qle_trans with (1 := H). apply FloatWrite.p10_le; lia. Qed.
Definition triangle : wire := Wire (tx "edge") CLOSED [(0, 0, 0); (1, 0, 0); (0, 1 # 2, 0)]%Q [] [] 0.
Definition segment : wire := Wire [] OPEN [(0, 0, 0); (1, 0, 5)]%Q [1; 1 # 2]%Q [0; 0; 1; 1]%Q 1.
Lemma triangle_proper : proper_wire LINEAR triangle.
Proof.
  constructor; cbn; [auto| |split; constructor|lia|lia|split; [intros _; cbn; lia|discriminate]].
  repeat (constructor; [repeat split; apply small_finite; vm_compute; discriminate|]). constructor.
Qed.
Lemma segment_proper : proper_wire NURBS segment.
Proof.
  constructor; cbn; [auto| | |lia|lia|split; [discriminate|intros _; split; [discriminate|split; reflexivity]]].
  - repeat (constructor; [repeat split; apply small_finite; vm_compute; discriminate|]). constructor.
  - split; repeat (constructor; [apply small_finite; vm_compute; discriminate|]); constructor.
Qed.
Definition saved_triangle : xml := spline_element LINEAR triangle (tx "g-cvs-0") (tx "g-weights-0") (tx "g-knots-0") (tx "0 0 0 1 0 0 0 0.5 0") [] [].
Definition saved_segment : xml := spline_element NURBS segment (tx "g-cvs-0") (tx "g-weights-0") (tx "g-knots-0") (tx "0 0 0 1 0 5") (tx "1 0.5") (tx "0 0 1 1").
Example C113_demo : geometry_id (tx "g") /\ proper_wire LINEAR triangle /\ WriteGeometrySpline eps_float (tx "g") (Wires LINEAR [triangle]) [saved_triangle] /\
  WriteGeometrySpline eps_float (tx "g") (Wires NURBS [segment]) [saved_segment] /\ proper_wire NURBS segment /\
  exists t s, LoadGeometry Strict [saved_triangle] = Some (true, Some (Wires LINEAR [t])) /\ LoadGeometry Strict [saved_segment] = Some (true, Some (Wires NURBS [s])) /\
    w_form t = CLOSED /\ w_form s = OPEN /\ List.length (w_cvs t) = 3 /\ List.length (w_knots s) = 4 /\ w_degree s = 1%Z /\ LoadGeometry Strict [saved_triangle; saved_segment] = Some (true, Some (Wires NURBS [s])).
Proof.
  split; [split; [plain_word|discriminate]|]. split; [apply triangle_proper|]. split; [|split; [|split; [apply segment_proper|]]].
  - constructor; [|constructor]. exists (tx "0 0 0 1 0 0 0 0.5 0"), [], []. split; [|split; [constructor|split; [constructor|reflexivity]]].
    change (tx "0 0 0 1 0 0 0 0.5 0") with ([] ++ tx "0" ++ 32%Z :: tx "0" ++ 32%Z :: tx "0" ++ 32%Z :: tx "1" ++ 32%Z :: tx "0" ++ 32%Z :: tx "0" ++ 32%Z :: tx "0" ++ 32%Z :: tx "0.5" ++ 32%Z :: tx "0" ++ []).
    apply (TS_cons eps_float []); [apply LampProps.print_0|]. apply AR_cons; [apply LampProps.print_0|]. apply AR_cons; [apply LampProps.print_0|]. apply AR_cons; [apply LampProps.print_1|].
    apply AR_cons; [apply LampProps.print_0|]. apply AR_cons; [apply LampProps.print_0|]. apply AR_cons; [apply LampProps.print_0|]. apply AR_cons; [apply LampProps.print_half|]. apply AR_cons; [apply LampProps.print_0|]. apply AR_nil.
  - constructor; [|constructor]. exists (tx "0 0 0 1 0 5"), (tx "1 0.5"), (tx "0 0 1 1"). split; [|split; [|split; [|reflexivity]]].
    + change (tx "0 0 0 1 0 5") with ([] ++ tx "0" ++ 32%Z :: tx "0" ++ 32%Z :: tx "0" ++ 32%Z :: tx "1" ++ 32%Z :: tx "0" ++ 32%Z :: tx "5" ++ []).
      apply (TS_cons eps_float []); [apply LampProps.print_0|]. apply AR_cons; [apply LampProps.print_0|]. apply AR_cons; [apply LampProps.print_0|]. apply AR_cons; [apply LampProps.print_1|].
      apply AR_cons; [apply LampProps.print_0|]. apply AR_cons; [apply LampProps.print_5|]. apply AR_nil.
    + change (tx "1 0.5") with ([] ++ tx "1" ++ 32%Z :: tx "0.5" ++ []). apply (TS_cons eps_float []); [apply LampProps.print_1|]. apply AR_cons; [apply LampProps.print_half|]. apply AR_nil.
    + change (tx "0 0 1 1") with ([] ++ tx "0" ++ 32%Z :: tx "0" ++ 32%Z :: tx "1" ++ 32%Z :: tx "1" ++ []).
      apply (TS_cons eps_float []); [apply LampProps.print_0|]. apply AR_cons; [apply LampProps.print_0|]. apply AR_cons; [apply LampProps.print_1|]. apply AR_cons; [apply LampProps.print_1|]. apply AR_nil.
  - eexists _, _. split; [vm_compute; reflexivity|]. split; [vm_compute; reflexivity|]. repeat split.
Qed.

(** *** C114 *)
Lemma load_one a status g n k w after : says_spline n k w -> is_elem "spline" n ->
  (0 <= w_degree w < 4294967296)%Z -> (Z.of_nat (List.length (w_cvs w)) < 9223372036854775808)%Z -> (Z.of_nat (List.length (w_knots w)) < 9223372036854775808)%Z ->
  Forall no_spline after -> exists w', same_wire w w' /\
    (complete k w -> LoadGeometrySpline a status g (n :: after) = Some (status, Wires k [w'])) /\
    (~ complete k w -> LoadGeometrySpline a status g (n :: after) = Some (false, Wires k [])).
Proof.
  intros Hs Hn Hd Hc Hk Ha. destruct (load_typed a n k w Hs) as (w' & Hw & E). exists w'. split; [exact Hw|].
  destruct Hs as [(word & H1 & H2) _ _ _ _]. apply named_iff in Hn. cbn [LoadGeometrySpline]. rewrite Hn, (type_read _ _ H1), (word_type _ _ H2), (type_known _ _ H2), E.
  assert (V : IsValid k w' = true <-> complete k w).
  { pose proof Hw as [_ _ L1 L2 L3 L4]. apply Forall2_len in L1, L3. rewrite valid_iff; [|exact (type_kinds _ _ H2)|lia|lia|lia]. split; apply same_complete; [now apply same_sym|exact Hw]. }
  split; intro C.
  - rewrite (proj2 V C). now apply load_skip.
  - destruct (IsValid k w') eqn:B; [destruct C; tauto|]. now apply load_skip.
Qed.
Lemma after_shape a before st g m : LoadGeometry a before = Some (st, Some g) ->
  LoadGeometry a (before ++ m) = option_map (fun x => (fst x, Some (snd x))) (LoadGeometrySpline a st g m).
Proof.
  induction before as [|n l IH]; intro H; [discriminate|]. cbn [app LoadGeometry] in *. destruct (named n "mesh" || named n "convex_mesh"); [discriminate|].
  destruct (named n "spline"); [|auto]. destruct (LoadGeometrySpline a true no_wires (n :: l)) as [[s h]|] eqn:E; [|discriminate]. cbn in H. injection H as -> ->.
  change (n :: l ++ m) with ((n :: l) ++ m). rewrite load_app, E. reflexivity.
Qed.
(** A complete <spline> that is the only one with a type gives the spline; an incomplete one gives none and the import reports a failure.
    Other elements, and <spline> elements without a type, do not matter. *)
Theorem C114_import : forall a before n k w after, no_shape before -> is_elem "spline" n -> says_spline n k w ->
  (0 <= w_degree w < 4294967296)%Z -> (Z.of_nat (List.length (w_cvs w)) < 9223372036854775808)%Z -> (Z.of_nat (List.length (w_knots w)) < 9223372036854775808)%Z ->
  Forall no_spline after -> exists w', same_wire w w' /\
    (complete k w -> LoadGeometry a (before ++ n :: after) = Some (true, Some (Wires k [w']))) /\
    (~ complete k w -> LoadGeometry a (before ++ n :: after) = Some (false, Some (Wires k []))).
Proof.
  intros a before n k w after Hb Hn Hs Hd Hc Hk Ha. destruct (load_one a true no_wires n k w after Hs Hn Hd Hc Hk Ha) as (w' & Hw & A & B). exists w'. split; [exact Hw|].
  assert (E : LoadGeometry a (before ++ n :: after) = option_map (fun x => (fst x, Some (snd x))) (LoadGeometrySpline a true no_wires (n :: after))).
  { apply load_geometry; [exact Hb| |discriminate]. intros m r E. injection E as <- _. exact Hn. }
  rewrite E. split; intro C; [rewrite (A C)|rewrite (B C)]; reflexivity.
Qed.
Print Assumptions C114_import.
(** The last <spline> with a type counts: whatever the elements before it gave is dropped, only a failure is still reported. *)
Theorem C114_last : forall a before st g n k w after, LoadGeometry a before = Some (st, Some g) -> is_elem "spline" n -> says_spline n k w ->
  (0 <= w_degree w < 4294967296)%Z -> (Z.of_nat (List.length (w_cvs w)) < 9223372036854775808)%Z -> (Z.of_nat (List.length (w_knots w)) < 9223372036854775808)%Z ->
  Forall no_spline after -> exists w', same_wire w w' /\
    (complete k w -> LoadGeometry a (before ++ n :: after) = Some (st, Some (Wires k [w']))) /\
    (~ complete k w -> LoadGeometry a (before ++ n :: after) = Some (false, Some (Wires k []))).
Proof.
  intros a before st g n k w after Hb Hn Hs Hd Hc Hk Ha. destruct (load_one a st g n k w after Hs Hn Hd Hc Hk Ha) as (w' & Hw & A & B). exists w'. split; [exact Hw|].
  rewrite (after_shape a before st g _ Hb). split; intro C; [rewrite (A C)|rewrite (B C)]; reflexivity.
Qed.
Print Assumptions C114_last.
(** A <spline> without <control_vertices>, or with an input that names nothing, gives no spline, and the import reports a failure. *)
Lemma broken_typed a n k : broken_spline n k -> exists w, LoadTyped a k n = Some (false, w).
Proof.
  intros (_ & Hids & H). unfold LoadTyped, LoadSpline. destruct H as [H|(cv & ins & i & rest & l & Hcv & Hin & Hl & Hr & (id & (Hid & Hh) & Ha & Hno))].
  - rewrite (child_missing _ _ H). eexists; reflexivity.
  - rewrite (child_found _ _ _ Hcv). assert (Ei : inputs_of cv = ins ++ i :: rest) by (apply inputs_filter; exact Hin). rewrite Ei.
    assert (E : forall old, exists cvs, read_cvs a n (ins ++ i :: rest) old = Some (false, cvs)).
    { clear - Hids Hl Hr Hid Ha Hno. revert Hr. induction Hl as [|j [sem s] ins l Hj _ IH]; intros Hr old.
      - exists old. cbn [app read_cvs]. rewrite (has_attr_read _ _ _ Ha), (legal_hash id Hid). unfold FindChildById. change (drop_hash (35%Z :: id)) with id.
        destruct (find _ (children_of n)) as [c|] eqn:F; [|reflexivity]. exfalso. apply find_some in F as (F1 & F2). apply (Hno c F1).
        destruct c as [nm at' c'|t]; [|discriminate]. apply text_eq_spec in F2. destruct (read_attr_has _ _ _ F2 (proj2 Hid)) as (w & Hw & Ew).
        rewrite (plain_same w (Hids _ _ F1 Hw)) in Ew. subst w. exact Hw.
      - inversion Hr as [|? ? Hx Hr']; subst. cbn [fst snd] in *. destruct (input_found n j sem s Hids Hj) as (E1 & E2 & _). cbn [app read_cvs]. rewrite E1, E2.
        destruct (text_eq sem (tx "POSITION")) eqn:E; [|now apply IH]. apply text_eq_spec in E. destruct (Hx E) as (v & Hv). destruct (points_total v) as (ps & Hps).
        destruct (read_points a s v ps Hv Hps) as (qs & Eq & _). rewrite Eq. now apply IH. }
    destruct (E []) as (cvs & ->). eexists; reflexivity.
Qed.
Theorem C114_broken : forall a before n k after, is_elem "spline" n -> broken_spline n k -> Forall no_spline after ->
  (no_shape before \/ (exists st g, LoadGeometry a before = Some (st, Some g))) -> LoadGeometry a (before ++ n :: after) = Some (false, Some (Wires k [])).
Proof.
  intros a before n k after Hn Hb Ha Hp.
  assert (L : forall st g, LoadGeometrySpline a st g (n :: after) = Some (false, Wires k [])).
  { intros st g. destruct (broken_typed a n k Hb) as (w & E). destruct Hb as ((word & H1 & H2) & _). pose proof (proj2 (named_iff n "spline") Hn) as En. cbn [LoadGeometrySpline].
    rewrite En, (type_read _ _ H1), (word_type _ _ H2), (type_known _ _ H2), E. now apply load_skip. }
  destruct Hp as [Hp|(st & g & Hp)].
  - rewrite load_geometry; [now rewrite L|exact Hp| |discriminate]. intros m r E. injection E as <- _. exact Hn.
  - rewrite (after_shape a before st g _ Hp), L. reflexivity.
Qed.
Print Assumptions C114_broken.
(** C114 (full statement, refuted): any other type makes the import use a NULL pointer. *)
Theorem C114_unknown_refuted : forall a before n t after, no_shape before \/ (exists st g, LoadGeometry a before = Some (st, Some g)) -> is_elem "spline" n -> says_type n t ->
  (forall word k, type_word word k -> t <> tx word) -> LoadGeometry a (before ++ n :: after) = None.
Proof.
  intros a before n t after Hb Hn Ht Hw.
  assert (L : forall status g, LoadGeometrySpline a status g (n :: after) = None).
  { intros status g. pose proof (proj2 (named_iff n "spline") Hn) as E. cbn [LoadGeometrySpline]. rewrite E, (type_read _ _ Ht).
    assert (K : TypeFromString t = UNKNOWN).
    { unfold TypeFromString. cbn [chain FUDaeSplineType from_chain]. repeat match goal with |- (if text_eq t ?x then _ else _) = _ => destruct (text_eq t x) eqn:?; [exfalso; match goal with X : text_eq t _ = true |- _ => apply text_eq_spec in X end|] end; [| | |reflexivity].
      all: eapply Hw; [|eassumption]; constructor. }
    rewrite K. reflexivity. }
  destruct Hb as [Hb|(st & g & Hb)].
  - rewrite load_geometry; [now rewrite L|exact Hb| |discriminate]. intros m r E. injection E as <- _. exact Hn.
  - rewrite (after_shape a before st g _ Hb), L. reflexivity.
Qed.
Print Assumptions C114_unknown_refuted.
(** C114 (full statement, refuted): a NURBS whose sources are named without '#' is not checked: it comes without weights and knots. *)
Theorem C114_unchecked_refuted : forall a, exists n w, LoadGeometry a [n] = Some (true, Some (Wires NURBS [w])) /\ List.length (w_cvs w) = 2 /\ w_weights w = [] /\ w_knots w = [] /\ ~ complete NURBS w.
Proof.
  intro a. exists (Elem (tx "spline") [] [
    Elem (tx "source") [(tx "id", tx "p")] [Elem (tx "float_array") [] [Text (tx "0 0 0 1 0 0")]];
    Elem (tx "control_vertices") [] [Elem (tx "input") [(tx "semantic", tx "POSITION"); (tx "source", tx "p")] []];
    AddExtraTechniqueChild [Elem (tx "type") [] [Text (tx "NURBS")]]]).
  eexists. split; [destruct a; vm_compute; reflexivity|]. split; [reflexivity|]. split; [reflexivity|]. split; [reflexivity|]. intros (_ & H). destruct (H eq_refl) as (_ & X & _). discriminate X.
Qed.
Print Assumptions C114_unchecked_refuted.
(** Every document with the three types only and without the letter I in its texts (for the spellings of infinity) can be imported. *)
Lemma points_safe : forall fuel s, ~ In 73%Z s -> List.length s <= fuel -> exists l, points Wrapping fuel s = Some l.
Proof.
  induction fuel as [|f IH]; intros s H Hl; destruct s as [|c u0] eqn:Es; [cbn; eauto|cbn in Hl; lia|cbn; eauto|]. cbn [points]. unfold ToVector3. cbn [ToFloats]. rewrite <- Es in *.
  destruct (C78_safe s H ltac:(subst; discriminate)) as (x & s1 & E1 & L1 & I1). rewrite E1.
  assert (G : forall u, ~ In 73%Z u -> exists q v, ToFloat Wrapping u = Some (q, v) /\ List.length v <= List.length u /\ ~ In 73%Z v).
  { intros u Hu. destruct u as [|d u]; [exists 0%Q, []; cbn; auto|]. destruct (C78_safe (d :: u) Hu ltac:(discriminate)) as (q & v & A & B & C). exists q, v. split; [exact A|]. split; [lia|exact C]. }
  destruct (G s1 I1) as (y & s2 & E2 & L2 & I2). rewrite E2. destruct (G s2 I2) as (z & s3 & E3 & L3 & I3). rewrite E3.
  destruct (IH s3 I3) as (l & ->); [lia|]. cbn. eauto.
Qed.
Lemma calm_child n name c : calm n -> FindChildByType n name = Some c -> calm c.
Proof. intros H E. apply find_some in E. eapply LampSafeProofs.calm_children; [exact H|apply E]. Qed.
Lemma calm_id n id c : calm n -> FindChildById n id = Some c -> calm c.
Proof. intros H E. unfold FindChildById in E. destruct id; [discriminate|]. apply find_some in E. eapply LampSafeProofs.calm_children; [exact H|apply E]. Qed.
Lemma calm_array n name : calm n -> ~ In 73%Z (RigModel.content_of (FindChildByType n name)).
Proof. intro H. destruct (FindChildByType n name) as [c|] eqn:E; cbn; [|intros []]. apply LampSafeProofs.calm_content. eapply calm_child; eauto. Qed.
Lemma cvs_safe n : calm n -> forall ins old, exists r, read_cvs Wrapping n ins old = Some r.
Proof.
  intros H ins. induction ins as [|i ins IH]; intro old; cbn [read_cvs]; [eauto|]. destruct (FindChildById n _) as [s|] eqn:E; [|eauto]. destruct (text_eq _ _); [|auto].
  unfold ReadSourcePoints, ToVector3List. destruct (points_safe _ _ (calm_array s "float_array" (calm_id _ _ _ H E)) (le_n _)) as (l & ->). auto.
Qed.
Lemma nurbs_safe n : calm n -> forall ins ow ok, exists r, read_nurbs Wrapping n ins ow ok = Some r.
Proof.
  intros H ins. induction ins as [|i ins IH]; intros ow ok; cbn [read_nurbs]; [eauto|]. destruct (FindChildById n _) as [s|] eqn:E; [|eauto].
  destruct (C78_list_safe _ (calm_array s "float_array" (calm_id _ _ _ H E))) as (rs & Hr). unfold ReadSourceFloats. cbv zeta.
  destruct (text_eq _ _); [rewrite Hr; auto|]. destruct (text_eq _ _); [rewrite Hr; auto|auto].
Qed.
Lemma typed_safe n k : calm n -> exists r, LoadTyped Wrapping k n = Some r.
Proof.
  intro H. unfold LoadTyped, LoadSpline. destruct (FindChildByType n "control_vertices") as [c|] eqn:E; [|eauto].
  destruct (cvs_safe n H (inputs_of c) []) as ([[|] l] & ->); [|eauto]. destruct (k =? NURBS)%Z; [|eauto]. destruct (nurbs_safe n H (inputs_of c) [] []) as ([b [ws ks]] & ->). eauto.
Qed.
Theorem C114_safe : forall l, Forall calm l -> (forall n, In n l -> is_elem "spline" n -> says_no_type n \/ exists word k, says_type n (tx word) /\ type_word word k) ->
  exists st g, LoadGeometry Wrapping l = Some (st, g).
Proof.
  assert (LS : forall l, Forall calm l -> (forall n, In n l -> is_elem "spline" n -> says_no_type n \/ exists word k, says_type n (tx word) /\ type_word word k) -> forall st g, exists r, LoadGeometrySpline Wrapping st g l = Some r).
  { induction l as [|n l IH]; intros Hc Hk st g; cbn [LoadGeometrySpline]; [eauto|]. inversion Hc as [|? ? Cn Cl]; subst.
    assert (Hk' := fun m Hm => Hk m (or_intror Hm)).
    destruct (named n "spline") eqn:E; [|now apply IH]. apply named_iff in E. destruct (Hk n (or_introl eq_refl) E) as [N|(word & k & H1 & H2)].
    - rewrite (type_missing _ N). now apply IH.
    - rewrite (type_read _ _ H1), (word_type _ _ H2), (type_known _ _ H2). destruct (typed_safe n k Cn) as ([[|] w] & ->); now apply IH. }
  induction l as [|n l IH]; intros Hc Hk; cbn [LoadGeometry]; [eauto|]. destruct (named n "mesh" || named n "convex_mesh"); [eauto|]. destruct (named n "spline").
  - destruct (LS (n :: l) Hc Hk true no_wires) as ([st g] & ->). cbn. eauto.
  - inversion Hc; subst. apply IH; auto. intros m Hm. apply Hk. now right.
Qed.
Print Assumptions C114_safe.
(** A document: a <spline> without a type, then a closed line through three points (two numbers of the third are missing). *)
Definition zigzag_source : xml := Elem (tx "source") [(tx "id", tx "p")] [Elem (tx "float_array") [] [Text (tx "0 0 0 1 0 0 1")]].
Definition zigzag_vertices : xml := Elem (tx "control_vertices") [] [Text (tx " "); Elem (tx "input") [(tx "semantic", tx "POSITION"); (tx "source", tx "#p")] []].
Definition zigzag_technique : xml := Elem (tx "technique") [(tx "profile", tx "FCOLLADA")] [Elem (tx "type") [] [Text (tx "LINEAR")]].
Definition zigzag : xml := Elem (tx "spline") [(tx "closed", tx "true")] [zigzag_source; zigzag_vertices; Elem (tx "extra") [] [zigzag_technique]].
Definition zigzag_line : wire := Wire [] CLOSED [(0, 0, 0); (1, 0, 0); (1, 0, 0)]%Q [] [] 0.
Lemma zigzag_says : says_spline zigzag LINEAR zigzag_line.
Proof.
  assert (Tq : says_technique zigzag zigzag_technique).
  { exists (Elem (tx "extra") [] [zigzag_technique]). split; [|split].
    - apply first_skip; [apply not_elem; discriminate|]. apply first_skip; [apply not_elem; discriminate|]. apply first_here. eexists; eexists; reflexivity.
    - intros c v [<- | []] (nm & ch & q & q' & E & Hq). injection E as _ E _. destruct q as [|x q]; cbn in E; [injection E as <- _; apply plain_word|]. injection E as _ E. destruct q; discriminate.
    - apply first_here. split; [eexists; eexists; reflexivity|]. eexists _, _, [], []. split; [reflexivity|constructor]. }
  constructor.
  - exists "LINEAR"%string. split; [|constructor]. exists zigzag_technique, (Elem (tx "type") [] [Text (tx "LINEAR")]). split; [exact Tq|]. split; [apply first_here; eexists; eexists; reflexivity|].
    exists (all_text (Elem (tx "type") [] [Text (tx "LINEAR")])). split; [apply text_at_all|reflexivity].
  - exists true. split; [|reflexivity]. right. exists (tx "true"). split; [eexists _, _, [], []; split; [reflexivity|constructor]|]. split; [plain_word|]. split; [discriminate|].
    intros [X|(c & r & X & Y)]; [discriminate|]. injection X as <- <-. cbn in Y. intuition discriminate.
  - reflexivity.
  - intros c v Hc Hv. apply has_attr_read in Hv as E. cbn [zigzag children_of In] in Hc. destruct Hc as [<- |[<- |[<- |[]]]].
    + destruct Hv as (nm & ch & pre & post & E2 & _). injection E2 as _ E2 _. destruct pre as [|x pre]; cbn in E2; [injection E2 as <- _; plain_word|injection E2 as _ E2; destruct pre; discriminate].
    + now apply no_id in Hv.
    + now apply no_id in Hv.
  - assert (Hf : float_source zigzag_source [0; 0; 0; 1; 0; 0; 1]%Q).
    { eexists _, _, _, _, (tx "0 0 0 1 0 0 1"). split; [reflexivity|]. split; [eexists _, _, _; split; [reflexivity|right; eexists; reflexivity]|]. split; [|apply first_here; eexists; eexists; reflexivity].
      assert (Z0 := RigProps.zero_text). assert (O1 := RigProps.one_text).
      apply (RigProps.one_more float_text [48%Z] _ 0%Q _ Z0); [RigProps.no_blank|]. apply (RigProps.one_more float_text [48%Z] _ 0%Q _ Z0); [RigProps.no_blank|].
      apply (RigProps.one_more float_text [48%Z] _ 0%Q _ Z0); [RigProps.no_blank|]. apply (RigProps.one_more float_text [49%Z] _ 1%Q _ O1); [RigProps.no_blank|].
      apply (RigProps.one_more float_text [48%Z] _ 0%Q _ Z0); [RigProps.no_blank|]. apply (RigProps.one_more float_text [48%Z] _ 0%Q _ Z0); [RigProps.no_blank|]. apply (RigProps.one_last float_text [49%Z] 1%Q O1). }
    exists zigzag_vertices, [Elem (tx "input") [(tx "semantic", tx "POSITION"); (tx "source", tx "#p")] []], [(tx "POSITION", zigzag_source)], [0; 0; 0; 1; 0; 0; 1]%Q, [(0, 0, 0); (1, 0, 0); (1, 0, 0)]%Q.
    split; [apply first_skip; [apply not_elem; discriminate|]; apply first_here; eexists; eexists; reflexivity|].
    split; [apply I_skip; [intros (x & y & E); discriminate|]; apply I_keep; [eexists; eexists; reflexivity|constructor]|].
    split; [|split; [|split; [|split; [|split; [|split]]]]].
    + constructor; [|constructor]. split; [cbn [fst]; plain_word|]. split; [eexists _, _, [], _; split; [reflexivity|constructor]|]. exists (tx "p"). split; [split; [split; [plain_word|discriminate]|discriminate]|].
      split; [eexists _, _, [_], []; split; [reflexivity|constructor; [discriminate|constructor]]|]. apply first_here. eexists _, _, [], []. split; [reflexivity|constructor].
    + constructor; [intros _; eauto|constructor].
    + right. exists zigzag_source. split; [|exact Hf]. exists [], []. split; [reflexivity|constructor].
    + repeat constructor.
    + apply same_self.
    + discriminate.
    + auto.
Qed.
Example C114_demo : says_spline zigzag LINEAR zigzag_line /\ complete LINEAR zigzag_line /\ no_spline (Elem (tx "spline") [] []) /\
  (exists g, LoadGeometry Strict [saved_triangle; Elem (tx "spline") [] []] = Some (true, Some g)) /\
  (exists w, LoadGeometry Strict ([saved_triangle; Elem (tx "spline") [] []] ++ [zigzag]) = Some (true, Some (Wires LINEAR [w])) /\ w_form w = CLOSED /\ List.length (w_cvs w) = 3) /\
  says_type (Elem (tx "spline") [] [AddExtraTechniqueChild [Elem (tx "type") [] [Text (tx "TCB")]]]) (tx "TCB").
Proof.
  split; [exact zigzag_says|]. split; [split; [intros _; cbn; lia|discriminate]|]. split; [right; left; intros d []|]. split; [eexists; vm_compute; reflexivity|].
  split; [eexists; split; [vm_compute; reflexivity|split; reflexivity]|].
  exists (Elem (tx "technique") [(tx "profile", tx "FCOLLADA")] [Elem (tx "type") [] [Text (tx "TCB")]]), (Elem (tx "type") [] [Text (tx "TCB")]). split; [|split].
  - eexists. split; [apply first_here; eexists; eexists; reflexivity|]. split; [|apply first_here; split; [eexists; eexists; reflexivity|eexists _, _, [], []; split; [reflexivity|constructor]]].
    intros c v [<- | []] (nm & ch & q & q' & E & Hq). injection E as _ E _. destruct q as [|x q]; cbn in E; [injection E as <- _; apply plain_word|]. injection E as _ E. destruct q; discriminate.
  - apply first_here. eexists; eexists; reflexivity.
  - exists (all_text (Elem (tx "type") [] [Text (tx "TCB")])). split; [apply text_at_all|reflexivity].
Qed.
Example C114_broken_demo : broken_spline (Elem (tx "spline") [] [AddExtraTechniqueChild [Elem (tx "type") [] [Text (tx "BEZIER")]]]) BEZIER.
Proof.
  split; [|split].
  - exists "BEZIER"%string. split; [|constructor].
    exists (Elem (tx "technique") [(tx "profile", tx "FCOLLADA")] [Elem (tx "type") [] [Text (tx "BEZIER")]]), (Elem (tx "type") [] [Text (tx "BEZIER")]). split; [|split].
    + eexists. split; [apply first_here; eexists; eexists; reflexivity|]. split; [|apply first_here; split; [eexists; eexists; reflexivity|eexists _, _, [], []; split; [reflexivity|constructor]]].
      intros c v [<- | []] (nm & ch & q & q' & E & Hq). injection E as _ E _. destruct q as [|x q]; cbn in E; [injection E as <- _; apply plain_word|]. injection E as _ E. destruct q; discriminate.
    + apply first_here. eexists; eexists; reflexivity.
    + exists (all_text (Elem (tx "type") [] [Text (tx "BEZIER")])). split; [apply text_at_all|reflexivity].
  - intros c v [<- | []] H. now apply no_id in H.
  - left. intros d [<- | []]. apply not_elem. discriminate.
Qed.
