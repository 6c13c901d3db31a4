(** Proofs about the change of the up-axis and the unit: doing it again and back. *)
From Coq Require Import List Arith Reals Lra Lia Bool Relations.
From Verif Require Import IdModel MatrixModel MatrixProps QuatModel RotModel SceneModel SceneSpec SceneProofs TransformModel TransformProps AxisModel AxisSpec AxisProofs AxisNodeProofs AxisSceneProofs AxisWorldProofs AxisEntityProofs AxisProps AxisAssetProps.
Import ListNotations.

(** *** The scene graph stays sound *)
Lemma ok_leaf g g' n : ok g -> alive g n = true ->
  next g' = S (next g) -> (forall x, alive g' x = if x =? next g then true else alive g x) ->
  (forall x, par g' x = if x =? next g then [n] else par g x) -> (forall x, chi g' x = if x =? n then chi g n ++ [next g] else chi g x) -> ok g'.
Proof.
  intros O An En Ea Ep Ec. set (p := next g) in *.
  assert (Hn : n < p) by (apply (ok_next g O); exact An).
  assert (Dead : alive g p = false). { destruct (alive g p) eqn:E; [|reflexivity]. apply (ok_next g O) in E. lia. }
  assert (Cp : chi g p = []). { destruct (chi g p) as [|c l] eqn:E; [reflexivity|]. destruct (ok_alive g O p c) as [A _]; [rewrite E; now left | congruence]. }
  assert (Pp : forall x, ~ In p (chi g x)). { intros x I. apply (ok_alive g O) in I as [_ A]. congruence. }
  assert (Qp : forall x, ~ In p (par g x)). { intros x I. apply (ok_mirror g O) in I. rewrite Cp in I. destruct I. }
  assert (Ic : forall q c, In c (chi g' q) <-> In c (chi g q) \/ q = n /\ c = p).
  { intros q c. rewrite Ec. destruct (Nat.eqb_spec q n) as [->|N]; [rewrite in_app_iff; cbn [In]; intuition|]. tauto. }
  assert (Chip : chi g' p = []) by (rewrite Ec; destruct (Nat.eqb_spec p n); [lia | exact Cp]).
  split.
  - intros q c. rewrite Ic, Ep. destruct (Nat.eqb_spec c p) as [->|N].
    + cbn [In]. split; [intros [I|[-> _]]; [now apply Pp in I | now left] | intros [->|[]]; tauto].
    + rewrite (ok_mirror g O). tauto.
  - intro q. rewrite Ec. destruct (q =? n); [|apply (ok_chi g O)]. pose proof (ok_chi g O n) as D. specialize (Pp n). clear - D Pp.
    induction (chi g n) as [|x l IH]; cbn [app]; [repeat constructor; intros []|]. apply NoDup_cons_iff in D as [Nx D]. cbn [In] in Pp. constructor; [|apply IH; auto].
    intro I. apply in_app_iff in I as [I|[I|[]]]; [tauto | apply Pp; left; congruence].
  - intro q. rewrite Ep. destruct (q =? p); [repeat constructor; intros [] | apply (ok_par g O)].
  - intros q c I. apply Ic in I as [I|[-> ->]]; rewrite !Ea, ?Nat.eqb_refl.
    + destruct (ok_alive g O q c I) as [A1 A2]. rewrite A1, A2. destruct (q =? p), (c =? p); auto.
    + rewrite An. destruct (n =? p); auto.
  - intros q. rewrite Ea, En. fold p. destruct (Nat.eqb_spec q p) as [->|_]; [lia|]. intro A. apply (ok_next g O) in A. fold p in A. lia.
  - assert (Ap : Acc (fun c q => In c (chi g' q)) p) by (constructor; intros y Iy; rewrite Chip in Iy; destruct Iy).
    intro x. induction (ok_down g O x) as [x _ IH]. constructor. intros y Iy. apply Ic in Iy as [Iy|[_ ->]]; [now apply IH | exact Ap].
  - assert (Old : forall x, x <> p -> Acc (fun q c => In q (par g' c)) x).
    { intro x. induction (ok_up g O x) as [x _ IH]. intro Nx. constructor. intros y Iy. rewrite Ep in Iy. destruct (Nat.eqb_spec x p); [contradiction|]. apply IH; [exact Iy|]. intros ->. now apply Qp in Iy. }
    intro x. destruct (Nat.eq_dec x p) as [->|N]; [|now apply Old]. constructor. intros y Iy. rewrite Ep, Nat.eqb_refl in Iy. destruct Iy as [<-|[]]. apply Old. lia.
Qed.
Lemma ok_same g g' : ok g -> next g' = next g -> alive g' = alive g -> par g' = par g -> chi g' = chi g -> ok g'.
Proof. intros O E1 E2 E3 E4. destruct g, g'. cbn in *. subst. destruct O. split; cbn in *; assumption. Qed.
Lemma add_pivot_ok d n i l : ok (scene d) -> alive (scene d) n = true -> ok (scene (add_pivot d n i l)) /\ forall x, alive (scene d) x = true -> alive (scene (add_pivot d n i l)) x = true.
Proof.
  intros O A. pose proof (ok_next _ O n A) as Hn.
  assert (Cp : chi (scene d) (next (scene d)) = []). { destruct (chi (scene d) (next (scene d))) as [|c r] eqn:E; [reflexivity|]. destruct (ok_alive _ O (next (scene d)) c) as [A2 _]; [rewrite E; now left|]. apply (ok_next _ O) in A2. lia. }
  assert (Pp : par (scene d) (next (scene d)) = []) by (apply fresh_ok; [exact O | lia]).
  split.
  - apply (ok_leaf (scene d) _ n O A); [reflexivity | | |]; intro x; cbn; unfold upd; try reflexivity.
    destruct (x =? next (scene d)); [|reflexivity]. now rewrite Pp.
  - intros x Ax. cbn. unfold upd. destruct (x =? next (scene d)); [reflexivity | exact Ax].
Qed.
Lemma pivot_instances_ok t c ht n a : forall l d d' m, ok (scene d) -> alive (scene d) n = true -> pivot_instances t c ht d n a l = (d', m) -> ok (scene d') /\ forall x, alive (scene d) x = true -> alive (scene d') x = true.
Proof.
  induction l as [|i l IH]; intros d d' m O A E; cbn [pivot_instances] in E; [injection E as <- _; auto|]. destruct i as [b|].
  - destruct a.
    + destruct (pivot_instances t c ht (set_nodes d (scene d) (node_asset d) (upd (stack d) n (SetPivotTransform t c (ht && b) (stack d n))) (kinds d)) n true l) as [d2 m2] eqn:P. injection E as <- _. now apply IH in P.
    + destruct (pivot_instances t c ht (add_pivot d n (Pivoted b) (SetPivotTransform t c (ht && b) [])) n false l) as [d2 m2] eqn:P. injection E as <- _.
      destruct (add_pivot_ok d n (Pivoted b) (SetPivotTransform t c (ht && b) []) O A) as [O1 A1]. apply IH in P as [O2 A2]; [|exact O1 | now apply A1]. split; [exact O2|]. intros x Ax. now apply A2, A1.
  - destruct (pivot_instances t c ht d n a l) as [d2 m2] eqn:P. injection E as <- _. now apply IH in P.
Qed.
Lemma convert_node_ok fuel unit t ht d n d' : ok (scene d) -> alive (scene d) n = true -> convert_node fuel unit t ht d n = Done d' -> ok (scene d') /\ forall x, alive (scene d) x = true -> alive (scene d') x = true.
Proof.
  intros O A. unfold convert_node. destruct (node_assets fuel d n) as [l| |]; try discriminate. destruct (GetAssetFunctors unit l (scene_library d)) as [factor current]. intros [= <-]. unfold pivot_node.
  destruct (has_swap (PrepareFunctor t current)); [|cbn; auto]. match goal with |- context [pivot_instances ?a ?b ?c ?d ?e ?f ?g] => destruct (pivot_instances a b c d e f g) as [d2 m2] eqn:P end.
  apply pivot_instances_ok in P as [O2 A2]; [|exact O | exact A]. cbn in A2 |- *. split; [|exact A2]. eapply ok_same; [exact O2 | reflexivity..].
Qed.
Lemma convert_nodes_ok fuel unit t ht : forall l d d', ok (scene d) -> (forall n, In n l -> alive (scene d) n = true) -> convert_nodes fuel unit t ht d l = Done d' -> ok (scene d') /\ forall x, alive (scene d) x = true -> alive (scene d') x = true.
Proof.
  induction l as [|n l IH]; intros d d' O A E; cbn [convert_nodes] in E; [injection E as <-; auto|]. destruct (convert_node fuel unit t ht d n) as [d1| |] eqn:C; try discriminate.
  destruct (convert_node_ok _ _ _ _ _ _ _ O (A n (or_introl eq_refl)) C) as [O1 A1]. destruct (IH d1 d' O1) as [O2 A2]; [intros x I; apply A1, A; now right | exact E|]. split; [exact O2|]. intros x Ax. now apply A2, A1.
Qed.

(** *** One conversion *)
Lemma conversion d up unit ht : sound d -> one_asset d -> In up [XAxis; YAxis; ZAxis] -> (FLT_TOLERANCE <= unit)%R ->
  let s := SetCurrent unit (current_unit d) in let t := ConvertVector up in let c := current_axis d in
  exists fuel0, forall fuel, fuel0 <= fuel -> exists d', StandardizeUpAxisAndLength fuel d up unit ht = Done d' /\
    base d' = Asset true unit true up /\ sound d' /\ one_asset d' /\ roots d' = roots d /\ after s t c ht d d' /\
    geometries d' = map (fun g => (None, convert_geometry s (PrepareFunctor t c) (snd g))) (geometries d) /\
    controllers d' = map (fun g => (None, match snd g with Skin b j => convert_skin s (PrepareFunctor t c) b j | Morph => Morph end)) (controllers d) /\
    cameras d' = map (fun g => (None, if has_length s then (fst (snd g) * s, snd (snd g) * s)%R else snd g)) (cameras d).
Proof.
  intros P O Hup Hu s t c. pose proof O as (Qn & Qs & Qc & Qg & Qm & Oc & Og & Om). pose proof P as (Ok & ND & Rr).
  destruct (scene_converted d unit t ht P Qn Qs) as [fuel0 Sc]. exists fuel0. intros fuel Hf. destruct (Sc fuel Hf) as (ns & d1 & V & C & R & A & Is). fold s c in A.
  destruct (StandardizeUpAxisAndLength fuel d up unit ht) as [d'| |] eqn:E.
  2,3: exfalso; revert E; unfold StandardizeUpAxisAndLength; pose proof tolerance_pos as Tol;
       assert (Eu : wanted_unit (base d) unit = unit) by (unfold wanted_unit; rewrite IsEquivalent_far by (rewrite Rminus_0_r, Rabs_pos_eq; lra); destruct (Rlt_dec unit 0); [lra | reflexivity]);
       assert (Ea : wanted_axis (base d) up = up) by (unfold wanted_axis; now rewrite axis_not_zero); rewrite Eu, Ea; fold t; rewrite V, C; discriminate.
  exists d'. split; [reflexivity|]. apply standardized in E as (ns' & d1' & V' & C' & ->); auto. rewrite V in V'. injection V' as <-. fold t in C'. rewrite C in C'. injection C' as <-.
  unfold rest in R. injection R as R1 R2 R3 R4 R5 R6 R7 R8 R9. cbn [base]. split; [reflexivity|].
  destruct (convert_nodes_ok _ _ _ _ _ _ _ Ok (fun n I => in_scene_alive d n P (Is n I)) C) as [O1 A1].
  assert (Eg : forall lib, quiet lib -> GetAssetFunctors unit (entity_assets (base d) None) lib = (s, c)) by (intros lib Q; exact (entity_functors d unit lib Q)).
  split; [|split; [|split; [|split; [|split; [|split]]]]].
  - split; [exact O1|]. cbn [roots scene]. rewrite R6. split; [exact ND|]. intros r Ir. destruct (Rr r Ir) as [Ar Pr]. split; [now apply A1|]. rewrite (after_par _ _ _ _ _ _ A); [exact Pr|]. now apply (ok_next _ Ok).
  - unfold one_asset. cbn [node_asset scene_library controller_library geometry_library camera_library controllers geometries cameras]. rewrite R2, R3, R4, R5, R7, R8, R9.
    split; [apply (after_quiet _ _ _ _ _ _ A)|]. repeat (split; [assumption|]).
    split; [|split]; apply Forall_map; (eapply Forall_impl; [|eassumption]); cbv beta; intros [a x]; cbn [fst]; intros ->.
    + unfold convert_controller. cbn [fst snd]. destruct x; [|reflexivity]. destruct (GetAssetFunctors _ _ _). reflexivity.
    + unfold convert_geometry_entity. cbn [fst snd]. destruct (GetAssetFunctors _ _ _). reflexivity.
    + unfold convert_camera. cbn [fst snd]. destruct (GetAssetFunctors _ _ _). reflexivity.
  - exact R6.
  - destruct A as [A2 A3 A4 A5 A6]. constructor; auto.
  - cbn [geometries]. rewrite R1, R4, R8. apply map_ext_in. intros [a x] I. rewrite Forall_forall in Og. specialize (Og _ I). cbn [fst] in Og. subst a. unfold convert_geometry_entity. cbn [fst snd]. rewrite Eg by exact Qg. reflexivity.
  - cbn [controllers]. rewrite R1, R3, R7. apply map_ext_in. intros [a x] I. rewrite Forall_forall in Oc. specialize (Oc _ I). cbn [fst] in Oc. subst a. unfold convert_controller. cbn [fst snd]. destruct x; [|reflexivity]. rewrite Eg by exact Qc. reflexivity.
  - cbn [cameras]. rewrite R1, R5, R9. apply map_ext_in. intros [a x] I. rewrite Forall_forall in Om. specialize (Om _ I). cbn [fst] in Om. subst a. unfold convert_camera. cbn [fst snd]. rewrite Eg by exact Qm. reflexivity.
Qed.

(** *** There and back *)
Local Open Scope R_scope.
Section Back.
Variables (a b : axis) (s s' : R).
Let f := PrepareFunctor b a.
Let g := PrepareFunctor a b.
Hypothesis Hs : s * s' = 1.
Hypothesis Hl : s = 1 \/ has_length s = true /\ has_length s' = true.
Lemma turn_back v x : turn g (turn f v x) x = v.
Proof. destruct v as [va vb vc]. unfold f, g. destruct a, b, x; cbn [PrepareFunctor turn swap x3 y3 z3]; unfold turn; cbn [swap x3 y3 z3]; apply vec3_ext; cbn [x3 y3 z3]; ring. Qed.
Lemma vscale_turn h k v x : turn h (vscale k v) x = vscale k (turn h v x).
Proof. destruct v as [va vb vc], h, x; apply vec3_ext; cbv [turn swap vscale x3 y3 z3]; ring. Qed.
Lemma vscale_back v : vscale s' (vscale s v) = v.
Proof. destruct v as [va vb vc]. apply vec3_ext; cbn [vscale x3 y3 z3]; rewrite <- Rmult_assoc, (Rmult_comm s' s), Hs; ring. Qed.
Lemma length_back v : convert_length s' g (convert_length s f v) = v.
Proof. unfold convert_length. rewrite vscale_turn, turn_back. apply vscale_back. Qed.
Lemma matrix_back m : convert_matrix s' g (convert_matrix s f m) = m.
Proof.
  destruct m as [q00 q01 q02 q03 q10 q11 q12 q13 q20 q21 q22 q23 q30 q31 q32 q33]. unfold f, g.
  assert (B : forall x, x * s * s' = x) by (intro x; rewrite Rmult_assoc, Hs; ring).
  assert (B2 : forall x, (-1 * (x * s)) * s' = - x) by (intro x; transitivity (- (x * (s * s'))); [ring | rewrite Hs; ring]).
  assert (B3 : forall x, (-1 * x * s) * s' = - x) by (intro x; transitivity (- (x * (s * s'))); [ring | rewrite Hs; ring]).
  destruct a, b; cbn [PrepareFunctor]; unfold convert_matrix, turn; cbn [swap x3 y3 z3 m00 m01 m02 m03 m10 m11 m12 m13 m20 m21 m22 m23 m30 m31 m32 m33]; apply mat_ext; cbn [m00 m01 m02 m03 m10 m11 m12 m13 m20 m21 m22 m23 m30 m31 m32 m33]; rewrite ?B, ?B2, ?B3; ring.
Qed.
Lemma transform_back t : convert_transform s' g (convert_transform s f t) = t.
Proof. destruct t as [v|v x|v|m|p q u|r v x]; cbn [convert_transform]; rewrite ?length_back, ?turn_back, ?matrix_back; reflexivity. Qed.
Lemma swap_back : has_swap g = has_swap f.
Proof. unfold f, g. destruct a, b; reflexivity. Qed.
Lemma length_both : has_length s' = has_length s.
Proof. destruct Hl as [->|[-> ->]]; [|reflexivity]. rewrite Rmult_1_l in Hs. now rewrite Hs. Qed.
Lemma stack_back l : convert_stack s' g (convert_stack s f l) = l.
Proof.
  unfold convert_stack. rewrite length_both, swap_back. destruct (has_length s || has_swap f)%bool; [|reflexivity]. rewrite map_map. rewrite (map_ext _ (fun e => e)); [apply map_id|]. intros [t x]. cbn [fst snd]. now rewrite transform_back.
Qed.
(** Sources *)
Fixpoint scale_values (count stride : nat) (k : R) (h : functor) (data : list R) : list R :=
  match count with
  | O => data
  | S c =>
      match firstn stride data with
      | x :: y :: z :: r => let v := turn h (V3 x y z) false in x3 v * k :: y3 v * k :: z3 v * k :: map (fun x => x * k) r ++ scale_values c stride k h (skipn stride data)
      | _ => data
      end
  end.
Lemma first_chunk (r tail : list R) x y z stride : (3 <= stride)%nat -> length r = (stride - 3)%nat -> firstn stride (x :: y :: z :: r ++ tail) = x :: y :: z :: r /\ skipn stride (x :: y :: z :: r ++ tail) = tail.
Proof.
  intros H L. replace stride with (S (S (S (length r)))) by lia. cbn [firstn skipn]. rewrite firstn_app, firstn_all, Nat.sub_diag, firstn_O, app_nil_r. split; [reflexivity|]. rewrite skipn_app, skipn_all, Nat.sub_diag. reflexivity.
Qed.
Lemma scale_turn stride k h : (3 <= stride)%nat -> forall count data, (count * stride <= length data)%nat ->
  map (fun x => x * k) (firstn (count * stride) (turn_values count stride h data)) ++ skipn (count * stride) (turn_values count stride h data) = scale_values count stride k h data.
Proof.
  intro H3. induction count as [|count IH]; intros data H; [reflexivity|]. cbn [turn_values scale_values]. destruct (three data stride H3 ltac:(lia)) as (x & y & z & r & E & Lr). rewrite E. cbv zeta.
  set (v := turn h (V3 x y z) false). pose proof (skipn_length stride data) as Ls. specialize (IH (skipn stride data) ltac:(lia)). set (tail := turn_values count stride h (skipn stride data)) in *.
  destruct (first_chunk r tail (x3 v) (y3 v) (z3 v) stride H3 Lr) as [F1 F2]. change (S count * stride)%nat with (stride + count * stride)%nat.
  assert (D : x3 v :: y3 v :: z3 v :: r ++ tail = (x3 v :: y3 v :: z3 v :: r) ++ tail) by reflexivity. assert (Lc : length (x3 v :: y3 v :: z3 v :: r) = stride) by (cbn [length]; lia). rewrite D. rewrite <- Lc at 1 3.
  rewrite firstn_app_2, skipn_app, skipn_all2 by lia. replace (length (x3 v :: y3 v :: z3 v :: r) + count * stride - length (x3 v :: y3 v :: z3 v :: r))%nat with (count * stride)%nat by lia.
  rewrite map_app. cbn [map app]. do 3 f_equal. rewrite <- app_assoc. f_equal. exact IH.
Qed.
Lemma scale_values_back stride : (3 <= stride)%nat -> forall count data, (count * stride <= length data)%nat -> length (scale_values count stride s f data) = length data /\
  scale_values count stride s' g (scale_values count stride s f data) = data.
Proof.
  intro H3. induction count as [|count IH]; intros data H; [split; reflexivity|]. cbn [scale_values]. destruct (three data stride H3 ltac:(lia)) as (x & y & z & r & E & Lr). rewrite E. cbv zeta.
  set (v := turn f (V3 x y z) false). pose proof (skipn_length stride data) as Ls. destruct (IH (skipn stride data)) as [L1 B]; [lia|].
  assert (D : data = x :: y :: z :: r ++ skipn stride data) by (rewrite <- (firstn_skipn stride data) at 1; rewrite E; reflexivity).
  set (tail := scale_values count stride s f (skipn stride data)) in *. split.
  - cbn [length]. rewrite app_length, map_length, L1. lia.
  - destruct (first_chunk (map (fun x => x * s) r) tail (x3 v * s) (y3 v * s) (z3 v * s) stride H3) as [F1 F2]; [now rewrite map_length|]. rewrite F1, F2. cbv zeta. rewrite B. rewrite D at 2.
    assert (T : vscale s' (turn g (V3 (x3 v * s) (y3 v * s) (z3 v * s)) false) = V3 x y z).
    { replace (V3 (x3 v * s) (y3 v * s) (z3 v * s)) with (convert_length s f (V3 x y z)); [exact (length_back (V3 x y z))|]. unfold convert_length. fold v. apply vec3_ext; cbn [vscale x3 y3 z3]; ring. }
    assert (M : map (fun x => x * s') (map (fun x => x * s) r) = r).
    { rewrite map_map. rewrite (map_ext _ (fun x => x)); [apply map_id|]. intro q. rewrite Rmult_assoc, Hs. ring. }
    rewrite M. unfold vscale in T. injection T as T1 T2 T3. rewrite <- T1, <- T2, <- T3 at 1. rewrite (Rmult_comm _ s'), (Rmult_comm (y3 (turn g _ false))), (Rmult_comm (z3 (turn g _ false))). now rewrite T1, T2, T3.
Qed.
Lemma turn_values_back stride : (3 <= stride)%nat -> forall count data, (count * stride <= length data)%nat -> turn_values count stride g (turn_values count stride f data) = data.
Proof.
  intro H3. induction count as [|count IH]; intros data H; [reflexivity|]. cbn [turn_values]. destruct (three data stride H3 ltac:(lia)) as (x & y & z & r & E & Lr). rewrite E. cbv zeta.
  set (v := turn f (V3 x y z) false). pose proof (skipn_length stride data) as Ls. assert (D : data = x :: y :: z :: r ++ skipn stride data) by (rewrite <- (firstn_skipn stride data) at 1; rewrite E; reflexivity).
  set (tail := turn_values count stride f (skipn stride data)) in *. destruct (first_chunk r tail (x3 v) (y3 v) (z3 v) stride H3 Lr) as [F1 F2]. rewrite F1, F2. cbv zeta. unfold tail. rewrite IH by lia. rewrite D at 2.
  replace (V3 (x3 v) (y3 v) (z3 v)) with v by (destruct v; reflexivity). unfold v. rewrite turn_back. reflexivity.
Qed.
Lemma scale_back n (l : list R) : (n <= length l)%nat -> let l' := map (fun x => x * s) (firstn n l) ++ skipn n l in map (fun x => x * s') (firstn n l') ++ skipn n l' = l.
Proof.
  intros H l'. assert (Lf : length (map (fun x => x * s) (firstn n l)) = n) by (rewrite map_length; now apply firstn_length_le).
  unfold l'. rewrite firstn_app, skipn_app, Lf, Nat.sub_diag, firstn_O, app_nil_r, firstn_all2, skipn_all2 by lia. cbn [app skipn]. rewrite map_map. rewrite (map_ext _ (fun x => x)); [rewrite map_id; apply firstn_skipn|].
  intro q. rewrite Rmult_assoc, Hs. ring.
Qed.
Lemma source_back src : convert_source s' g (convert_source s f src) = src.
Proof.
  destruct src as [ty st l]. unfold convert_source at 2. cbn [stype stride data]. set (count := (length l / st)%nat).
  assert (Hc : (count * st <= length l)%nat) by (unfold count; destruct st; [rewrite Nat.mul_0_r; lia | rewrite Nat.mul_comm; apply Nat.mul_div_le; lia]).
  destruct (Nat.leb_spec 3 st) as [H3|H3].
  - destruct (turn_values_spec st f H3 count l Hc) as (Lt & _ & _). destruct (scale_values_back st H3 count l Hc) as [Lv Bv].
    destruct ty; [| |reflexivity]; unfold convert_source; cbn [stype stride data]; rewrite ?length_both, ?swap_back; destruct (Nat.leb_spec 3 st); try lia; destruct (has_swap f) eqn:Sw; cbn [andb].
    + destruct (has_length s) eqn:Hh.
      * rewrite (scale_turn st s f H3 count l Hc), Lv. fold count. rewrite scale_turn by (try exact H3; rewrite Lv; exact Hc). now rewrite Bv.
      * rewrite Lt. fold count. now rewrite turn_values_back.
    + destruct (has_length s) eqn:Hh; [|reflexivity]. rewrite app_length, map_length, <- app_length, firstn_skipn. fold count. now rewrite scale_back.
    + rewrite Lt. fold count. now rewrite turn_values_back.
    + reflexivity.
  - rewrite andb_false_r. destruct ty; [| |reflexivity]; unfold convert_source; cbn [stype stride data]; rewrite ?length_both, ?swap_back; destruct (Nat.leb_spec 3 st); try lia; rewrite andb_false_r; [|reflexivity].
    destruct (has_length s) eqn:Hh; [|reflexivity]. rewrite app_length, map_length, <- app_length, firstn_skipn. fold count. now rewrite scale_back.
Qed.
Lemma geometry_back x : convert_geometry s' g (convert_geometry s f x) = x.
Proof.
  unfold convert_geometry. rewrite length_both, swap_back. destruct (has_length s || has_swap f)%bool; [|reflexivity]. destruct x as [l|l|]; [| |reflexivity]; rewrite map_map; f_equal.
  - rewrite (map_ext _ (fun e => e)); [apply map_id | exact source_back].
  - rewrite (map_ext _ (fun e => e)); [apply map_id|]. intro c. rewrite map_map, (map_ext _ (fun e => e)); [apply map_id | exact length_back].
Qed.
Lemma inverse_det m : epsilon < Rabs (Determinant m) -> Determinant m * Determinant (Inverted m) = 1.
Proof. intro H. destruct (C42_inverse m H) as (I & _). apply (f_equal Determinant) in I. rewrite C42_determinant_product in I. rewrite I. vopen. ring. Qed.
Lemma skin_back sh j : Forall (fun m => affine m /\ epsilon < Rabs (Determinant m) /\ epsilon < Rabs (Determinant (Inverted m))) j ->
  match convert_skin s f sh j with Skin sh' j' => convert_skin s' g sh' j' | Morph => Morph end = Skin sh j.
Proof.
  intro F. unfold convert_skin. assert (H0 : s <> 0) by (intro E; rewrite E, Rmult_0_l in Hs; lra). destruct (has_length s || has_swap f)%bool eqn:E; rewrite ?length_both, ?swap_back, E; [|reflexivity]. rewrite matrix_back, map_map. f_equal.
  induction F as [|m j (A & D1 & D2) F IH]; [reflexivity|]. cbn [map]. f_equal; [|exact IH].
  set (c := convert_matrix s f (Inverted m)). assert (Dc : Determinant c = Determinant (Inverted m)).
  { apply (det_carries s f); [exact H0|]. apply convert_matrix_carries. now apply inverse_affine. }
  pose proof (inverse_det m D1) as K1. assert (Hc : epsilon < Rabs (Determinant c)) by now rewrite Dc. pose proof (inverse_det c Hc) as K2. rewrite Dc in K2.
  assert (Q : Determinant (Inverted c) = Determinant m).
  { assert (Determinant (Inverted m) <> 0) by (intro Z; rewrite Z, Rmult_0_r in K1; lra). apply (Rmult_eq_reg_l (Determinant (Inverted m))); [lra | assumption]. }
  rewrite double_inverse by (rewrite ?Q; assumption). unfold c. rewrite matrix_back. now apply double_inverse.
Qed.
Lemma camera_back (x : R * R) : (if has_length s' then let y := (if has_length s then (fst x * s, snd x * s) else x) in (fst y * s', snd y * s') else if has_length s then (fst x * s, snd x * s) else x) = x.
Proof. rewrite length_both. destruct (has_length s); [|reflexivity]. destruct x as [p q]. cbn [fst snd]. rewrite !Rmult_assoc, Hs, !Rmult_1_r. reflexivity. Qed.
End Back.
