(** C25 (bounding boxes) and C64 (transforming a bounding box). *)
From Coq Require Import List QArith Lqa Bool.
From Verif Require Import BoxModel BoxProofs.
Import ListNotations.
Local Open Scope Q_scope.

(** *** Specification *)
(** A box as the set of its points. *)
Definition inside (p : vec3) (b : box) : Prop :=
  vx (minimum b) <= vx p <= vx (maximum b) /\ vy (minimum b) <= vy p <= vy (maximum b) /\
  vz (minimum b) <= vz p <= vz (maximum b).
Definition proper (b : box) : Prop := exists p, inside p b.
(** [b] is the smallest box containing the points [P]. *)
Definition smallest (b : box) (P : vec3 -> Prop) : Prop :=
  (forall p, P p -> inside p b) /\
  (forall b', (forall p, P p -> inside p b') -> forall p, inside p b -> inside p b').
(** A history of Include calls. *)
Inductive operation := AddPoint (p : vec3) | AddBox (b : box).
Definition perform (b : box) (o : operation) : box :=
  match o with AddPoint p => IncludePoint b p | AddBox c => IncludeBox b c end.
Definition history (b : box) (l : list operation) : box := fold_left perform l b.
Definition same (p q : vec3) : Prop := vx p == vx q /\ vy p == vy q /\ vz p == vz q.
Definition added (o : operation) (q : vec3) : Prop :=
  match o with AddPoint p => same q p | AddBox c => inside q c end.
Definition added_by (l : list operation) (q : vec3) : Prop := exists o, In o l /\ added o q.
(** The largest coordinate an operation adds, along the axis [g]. *)
Definition top (g : vec3 -> Q) (o : operation) : Q := match o with AddPoint p => g p | AddBox c => g (maximum c) end.
Definition bottom (g : vec3 -> Q) (o : operation) : Q := match o with AddPoint p => g p | AddBox c => g (minimum c) end.
(** Included boxes have points, and all coordinates lie strictly between -FLT_MAX and FLT_MAX. *)
Definition ordinary (o : operation) : Prop :=
  match o with AddPoint _ => True | AddBox c => proper c end /\
  forall g, In g [vx; vy; vz] -> - FLT_MAX < bottom g o /\ top g o < FLT_MAX.

(** *** Axis by axis *)
Definition on (g : vec3 -> Q) (o : operation) : op1 :=
  match o with AddPoint p => Pt1 (g p) | AddBox c => Iv1 (g (minimum c)) (g (maximum c)) end.
Lemma axis : forall g, In g [vx; vy; vz] -> forall l b,
  run1 (g (minimum b), g (maximum b)) (map (on g) l) = (g (minimum (history b l)), g (maximum (history b l))).
Proof.
  intros g Hg l. induction l as [|o l IH]; intro b; [reflexivity|].
  cbn [map history fold_left run1]. fold (history (perform b o) l). rewrite <- IH. unfold run1. f_equal.
  cbn [In] in Hg. destruct Hg as [<-|[<-|[<-|[]]]]; destruct o; cbn [on step1 perform fst snd IncludePoint IncludeBox minimum maximum vx vy vz].
  all: first [reflexivity | apply surjective_pairing].
Qed.
Lemma lo_on : forall g o, lo1 (on g o) = bottom g o. Proof. intros g []; reflexivity. Qed.
Lemma hi_on : forall g o, hi1 (on g o) = top g o. Proof. intros g []; reflexivity. Qed.
Lemma inside_axes : forall p b, inside p b <-> forall g, In g [vx; vy; vz] -> g (minimum b) <= g p <= g (maximum b).
Proof.
  intros p b. split.
  - intros (A & B & C) g [<-|[<-|[<-|[]]]]; assumption.
  - intro H. repeat split; apply (H vx) || apply (H vy) || apply (H vz); cbn; auto.
Qed.
Lemma proper_axes : forall b, proper b <-> forall g, In g [vx; vy; vz] -> g (minimum b) <= g (maximum b).
Proof.
  intro b. split.
  - intros (p & H) g Hg. rewrite inside_axes in H. specialize (H g Hg). lra.
  - intro H. exists (minimum b). apply inside_axes. intros g Hg. specialize (H g Hg). lra.
Qed.
Lemma corners : forall o, (match o with AddPoint _ => True | AddBox c => proper c end) ->
  exists p q, added o p /\ added o q /\ forall g, In g [vx; vy; vz] -> g p == bottom g o /\ g q == top g o.
Proof.
  intros [p|c] H.
  - exists p, p. cbn [added]. repeat split; reflexivity.
  - exists (minimum c), (maximum c). rewrite proper_axes in H. cbn [added]. rewrite !inside_axes.
    split; [intros g Hg; specialize (H g Hg); lra|]. split; [intros g Hg; specialize (H g Hg); lra|].
    intros g _. cbn [top bottom]. split; reflexivity.
Qed.
Lemma ordered_op : forall o, (match o with AddPoint _ => True | AddBox c => proper c end) ->
  forall g, In g [vx; vy; vz] -> bottom g o <= top g o.
Proof. intros [p|c] H g Hg; cbn [top bottom]; [lra | rewrite proper_axes in H; auto]. Qed.
Lemma added_axes : forall o q, added o q -> forall g, In g [vx; vy; vz] -> bottom g o <= g q <= top g o.
Proof.
  intros [p|c] q H g Hg; cbn [added top bottom] in *.
  - destruct H as (A & B & C). destruct Hg as [<-|[<-|[<-|[]]]]; lra.
  - rewrite inside_axes in H. auto.
Qed.

Lemma smallest_from_valid : forall b l, proper b ->
  Forall (fun o => match o with AddPoint _ => True | AddBox c => proper c end) l ->
  smallest (history b l) (fun q => inside q b \/ added_by l q).
Proof.
  intros b l Hb F. rewrite proper_axes in Hb. rewrite Forall_forall in F.
  assert (R : forall g, In g [vx; vy; vz] ->
     g (minimum (history b l)) <= g (minimum b) /\ g (maximum b) <= g (maximum (history b l)) /\
     (forall o, In o l -> g (minimum (history b l)) <= bottom g o /\ top g o <= g (maximum (history b l))) /\
     (g (minimum (history b l)) == g (minimum b) \/ exists o, In o l /\ g (minimum (history b l)) == bottom g o) /\
     (g (maximum (history b l)) == g (maximum b) \/ exists o, In o l /\ g (maximum (history b l)) == top g o)).
  { intros g Hg.
    assert (Pre : Forall (fun o => lo1 o <= hi1 o) (map (on g) l)).
    { apply Forall_map, Forall_forall. intros o Ho. rewrite lo_on, hi_on. apply ordered_op; [exact (F o Ho) | exact Hg]. }
    pose proof (run_valid (map (on g) l) _ _ (Hb g Hg) Pre) as R. cbv zeta in R.
    rewrite (axis g Hg l b) in R. cbn [fst snd] in R. destruct R as (R1 & R2 & R3 & R4 & R5).
    split; [exact R1|]. split; [exact R2|]. split; [|split].
    - intros o Ho. specialize (R3 (on g o) (in_map _ _ _ Ho)). now rewrite lo_on, hi_on in R3.
    - destruct R4 as [|(o1 & Ho & E)]; [now left|]. right. apply in_map_iff in Ho. destruct Ho as (o & <- & Ho).
      rewrite lo_on in E. eauto.
    - destruct R5 as [|(o1 & Ho & E)]; [now left|]. right. apply in_map_iff in Ho. destruct Ho as (o & <- & Ho).
      rewrite hi_on in E. eauto. }
  split.
  - intros p [Hp|(o & Ho & Hp)]; rewrite inside_axes in *; intros g Hg; destruct (R g Hg) as (R1 & R2 & R3 & _).
    + specialize (Hp g Hg). lra.
    + pose proof (added_axes o p Hp g Hg). destruct (R3 o Ho). lra.
  - intros b' H p Hp. rewrite inside_axes in *. intros g Hg. specialize (Hp g Hg).
    destruct (R g Hg) as (_ & _ & _ & R4 & R5).
    assert (A : g (minimum b') <= g (minimum (history b l))).
    { destruct R4 as [E|(o & Ho & E)].
      - pose proof (H (minimum b) ltac:(left; apply inside_axes; intros h Hh; specialize (Hb h Hh); lra)) as K. rewrite inside_axes in K. specialize (K g Hg). lra.
      - destruct (corners o (F o Ho)) as (c1 & c9 & Hc & _ & Hg1). pose proof (H c1 ltac:(right; exists o; auto)) as K. rewrite inside_axes in K. specialize (K g Hg). destruct (Hg1 g Hg). lra. }
    assert (B : g (maximum (history b l)) <= g (maximum b')).
    { destruct R5 as [E|(o & Ho & E)].
      - pose proof (H (maximum b) ltac:(left; apply inside_axes; intros h Hh; specialize (Hb h Hh); lra)) as K. rewrite inside_axes in K. specialize (K g Hg). lra.
      - destruct (corners o (F o Ho)) as (c9 & c1 & _ & Hc & Hg1). pose proof (H c1 ltac:(right; exists o; auto)) as K. rewrite inside_axes in K. specialize (K g Hg). destruct (Hg1 g Hg). lra. }
    lra.
Qed.

(** *** C25 *)
(** The full statement: [forall l, l <> [] -> Forall ordinary l -> smallest (history Reset l) (added_by l)]. *)
Theorem C25_include_refuted :
  let p := V3 1 2 3 in let q := V3 0 2 5 in
  Forall ordinary [AddPoint p; AddPoint q] /\
  Contains (history Reset [AddPoint p]) p = false /\ IsValid (history Reset [AddPoint p]) = false /\
  Contains (history Reset [AddPoint p; AddPoint q]) p = false /\
  ~ smallest (history Reset [AddPoint p; AddPoint q]) (added_by [AddPoint p; AddPoint q]).
Proof.
  cbv zeta. split; [|split; [reflexivity|split; [reflexivity|split; [reflexivity|]]]].
  - apply Forall_forall. intros o [<-|[<-|[]]]; (split; [exact I|]); intros g [<-|[<-|[<-|[]]]]; vm_compute; auto.
  - intros (H & _). specialize (H (V3 1 2 3)). destruct H as ((_ & H) & _).
    + exists (AddPoint (V3 1 2 3)). split; [cbn; auto|]. repeat split; reflexivity.
    + vm_compute in H. apply H. reflexivity.
Qed.
Print Assumptions C25_include_refuted.

(** From a box that already has points, any history of Include calls gives the smallest box. *)
Theorem C25_include_valid_partial : forall b l, proper b ->
  Forall (fun o => match o with AddPoint _ => True | AddBox c => proper c end) l ->
  smallest (history b l) (fun q => inside q b \/ added_by l q).
Proof. exact smallest_from_valid. Qed.
Print Assumptions C25_include_valid_partial.

(** After Reset the result is the smallest box exactly when the first inclusion is a box, or a later
    inclusion reaches at least as high as the first point along every axis. *)
Theorem C25_include_after_reset_partial : forall o l, Forall ordinary (o :: l) ->
  (smallest (history Reset (o :: l)) (added_by (o :: l)) <->
   match o with
   | AddBox _ => True
   | AddPoint p => forall g, In g [vx; vy; vz] -> exists o', In o' l /\ g p <= top g o'
   end).
Proof.
  intros o l F. inversion F as [|? ? Ho Fl]; subst. destruct o as [p0|c].
  - cbn [history fold_left perform]. set (b1 := IncludePoint Reset p0). fold (history b1 l).
    assert (B1 : forall g, In g [vx; vy; vz] -> g (minimum b1) = g p0 /\ g (maximum b1) = - FLT_MAX).
    { destruct Ho as (_ & Ho). intros g Hg. specialize (Ho g Hg). cbn [bottom top] in Ho. destruct Ho as (H1 & H2).
      unfold b1, IncludePoint, Reset, include_coordinate. cbn [minimum maximum all3 vx vy vz].
      destruct Hg as [<-|[<-|[<-|[]]]]; cbn [vx vy vz].
      - destruct (lt_case (Q * Q) (vx p0) FLT_MAX (vx p0, - FLT_MAX)  (if lt (- FLT_MAX) (vx p0) then (FLT_MAX, vx p0) else (FLT_MAX, - FLT_MAX))) as [(_ & ->)|(K & _)]; [auto | lra].
      - destruct (lt_case (Q * Q) (vy p0) FLT_MAX (vy p0, - FLT_MAX)  (if lt (- FLT_MAX) (vy p0) then (FLT_MAX, vy p0) else (FLT_MAX, - FLT_MAX))) as [(_ & ->)|(K & _)]; [auto | lra].
      - destruct (lt_case (Q * Q) (vz p0) FLT_MAX (vz p0, - FLT_MAX)  (if lt (- FLT_MAX) (vz p0) then (FLT_MAX, vz p0) else (FLT_MAX, - FLT_MAX))) as [(_ & ->)|(K & _)]; [auto | lra]. }
    rewrite Forall_forall in Fl.
    assert (R : forall g, In g [vx; vy; vz] ->
       (g (minimum (history b1 l)) <= g p0 /\ (forall o, In o l -> g (minimum (history b1 l)) <= bottom g o) /\
        (g (minimum (history b1 l)) == g p0 \/ exists o, In o l /\ g (minimum (history b1 l)) == bottom g o)) /\
       (((exists o, In o l /\ g p0 <= top g o) /\ g p0 <= g (maximum (history b1 l)) /\
         (forall o, In o l -> top g o <= g (maximum (history b1 l))) /\ exists o, In o l /\ g (maximum (history b1 l)) == top g o)
        \/ ((forall o, In o l -> top g o < g p0) /\ g (maximum (history b1 l)) < g p0))).
    { intros g Hg. destruct (B1 g Hg) as (E1 & E2). destruct Ho as (_ & Ho). specialize (Ho g Hg). cbn [bottom top] in Ho.
      assert (Pre : Forall (fun o => lo1 o <= hi1 o /\ - FLT_MAX < hi1 o) (map (on g) l)).
      { apply Forall_map, Forall_forall. intros o Ho'. destruct (Fl o Ho') as (V & W). specialize (W g Hg).
        rewrite lo_on, hi_on. pose proof (ordered_op o V g Hg). split; lra. }
      pose proof (run_first_point (map (on g) l) (g p0) (- FLT_MAX) ltac:(lra) Pre) as R. cbv zeta in R.
      rewrite <- E1, <- E2, (axis g Hg l b1), E1 in R. cbn [fst snd] in R.
      destruct R as ((R1 & R2 & R3) & R4).
      split.
      - split; [exact R1|]. split.
        + intros o Ho'. rewrite <- lo_on. apply R2, in_map, Ho'.
        + destruct R3 as [|(o1 & Ho1 & E)]; [now left|]. right. apply in_map_iff in Ho1. destruct Ho1 as (o & <- & Ho').
          rewrite lo_on in E. eauto.
      - destruct R4 as [((o1 & Ho1 & L) & J1 & J2 & o2 & Ho2 & J3)|(J1 & J2)].
        + left. apply in_map_iff in Ho1, Ho2. destruct Ho1 as (o1' & <- & Ho1), Ho2 as (o2' & <- & Ho2).
          rewrite hi_on in *. split; [eauto|]. split; [exact J1|]. split; [|eauto].
          intros o Ho'. rewrite <- hi_on. apply J2, in_map, Ho'.
        + right. split; [|exact J2]. intros o Ho'. rewrite <- hi_on. apply J1, in_map, Ho'. }
    split.
    + intros (S & _) g Hg. destruct (R g Hg) as (_ & [(K & _)|(_ & K)]); [exact K|].
      exfalso. specialize (S p0 ltac:(exists (AddPoint p0); split; [cbn; auto | repeat split; reflexivity])).
      rewrite inside_axes in S. specialize (S g Hg). lra.
    + intro K.
      assert (R' : forall g, In g [vx; vy; vz] -> g p0 <= g (maximum (history b1 l)) /\
         (forall o, In o l -> top g o <= g (maximum (history b1 l))) /\ exists o, In o l /\ g (maximum (history b1 l)) == top g o).
      { intros g Hg. destruct (R g Hg) as (_ & [(_ & K')|(K' & _)]); [exact K'|].
        destruct (K g Hg) as (o & Ho' & L). specialize (K' o Ho'). lra. }
      split.
      * intros p (o & [<-|Ho'] & Hp); rewrite inside_axes; intros g Hg; destruct (R g Hg) as ((R1 & R2 & _) & _); destruct (R' g Hg) as (R4 & R5 & _);
          pose proof (added_axes _ p Hp g Hg) as A; [cbn [bottom top] in A; lra|].
        specialize (R2 o Ho'). specialize (R5 o Ho'). lra.
      * intros b' H p Hp. rewrite inside_axes in *. intros g Hg. specialize (Hp g Hg).
        destruct (R g Hg) as ((_ & _ & R3) & _). destruct (R' g Hg) as (_ & _ & o & Ho' & E).
        assert (A : g (minimum b') <= g (minimum (history b1 l))).
        { destruct R3 as [E'|(o' & Ho1 & E')].
          - pose proof (H p0 ltac:(exists (AddPoint p0); split; [cbn; auto | repeat split; reflexivity])) as K1. rewrite inside_axes in K1. specialize (K1 g Hg). lra.
          - destruct (corners o' (proj1 (Fl o' Ho1))) as (c1 & c9 & Hc & _ & Hg1). pose proof (H c1 ltac:(exists o'; cbn; auto)) as K1. rewrite inside_axes in K1. specialize (K1 g Hg). destruct (Hg1 g Hg). lra. }
        assert (B : g (maximum (history b1 l)) <= g (maximum b')).
        { destruct (corners o (proj1 (Fl o Ho'))) as (c9 & c1 & _ & Hc & Hg1). pose proof (H c1 ltac:(exists o; cbn; auto)) as K1. rewrite inside_axes in K1. specialize (K1 g Hg). destruct (Hg1 g Hg). lra. }
        lra.
  - split; [trivial|]. intros _. cbn [history fold_left perform]. set (b1 := IncludeBox Reset c). fold (history b1 l).
    assert (E : forall g, In g [vx; vy; vz] -> g (minimum b1) == g (minimum c) /\ g (maximum b1) == g (maximum c)).
    { destruct Ho as (V & Ho). intros g Hg. specialize (Ho g Hg). cbn [bottom top] in Ho. rewrite proper_axes in V. specialize (V g Hg).
      unfold b1, IncludeBox, Reset. cbn [minimum maximum all3 vx vy vz].
      destruct Hg as [<-|[<-|[<-|[]]]]; cbn [vx vy vz]; split;
      match goal with |- (if lt ?a ?b then _ else _) == _ => destruct (lt_case Q a b a b) as [(K & _)|(K & _)] end;
      unfold lt; destruct (Qlt_le_dec _ _); lra. }
    assert (P1 : proper b1).
    { destruct Ho as (V & _). rewrite proper_axes in *. intros g Hg. specialize (V g Hg). destruct (E g Hg). lra. }
    assert (I1 : forall q, inside q b1 <-> inside q c).
    { intro q. rewrite !inside_axes. split; intros H g Hg; specialize (H g Hg); destruct (E g Hg); lra. }
    destruct (smallest_from_valid b1 l P1) as (S1 & S2).
    { apply Forall_forall. intros o Ho'. rewrite Forall_forall in Fl. exact (proj1 (Fl o Ho')). }
    split.
    + intros p (o & [<-|Ho'] & Hp); apply S1; [left; now apply I1 | right; exists o; auto].
    + intros b' H. apply S2. intros p [Hp|(o & Ho' & Hp)]; apply H; [exists (AddBox c); split; [cbn; auto | now apply I1] | exists o; cbn; auto].
Qed.
Print Assumptions C25_include_after_reset_partial.
Example C25_demo :
  let l := [AddPoint (V3 0 2 3); AddBox (Box (V3 (-1) 0 0) (V3 1 1 4)); AddPoint (V3 0 (5 # 2) 9)] in
  Forall ordinary l /\ smallest (history Reset l) (added_by l) /\
  history Reset l = Box (V3 (-1) 0 0) (V3 1 (5 # 2) 9).
Proof.
  cbv zeta. assert (F : Forall ordinary [AddPoint (V3 0 2 3); AddBox (Box (V3 (-1) 0 0) (V3 1 1 4)); AddPoint (V3 0 (5 # 2) 9)]).
  { apply Forall_forall. intros o [<-|[<-|[<-|[]]]]; (split; [|intros g [<-|[<-|[<-|[]]]]; vm_compute; auto]);
      [exact I | | exact I].
    exists (V3 0 1 0). vm_compute. repeat split; discriminate. }
  split; [exact F|]. split; [|reflexivity]. apply C25_include_after_reset_partial; [exact F|].
  intros g [<-|[<-|[<-|[]]]].
  - exists (AddBox (Box (V3 (-1) 0 0) (V3 1 1 4))). split; [cbn; auto|]. vm_compute. discriminate.
  - exists (AddPoint (V3 0 (5 # 2) 9)). split; [cbn; auto|]. vm_compute. discriminate.
  - exists (AddPoint (V3 0 (5 # 2) 9)). split; [cbn; auto|]. vm_compute. discriminate.
Qed.

(** Contains and Overlaps decide membership and intersection; the overlap centre lies in both boxes. *)
Theorem C25_contains_overlaps : forall b c,
  (forall p, Contains b p = true <-> inside p b) /\ (IsValid b = true <-> proper b) /\
  Overlaps b c = Overlaps c b /\
  (proper b -> proper c -> (Overlaps b c = true <-> exists p, inside p b /\ inside p c) /\
   (Overlaps b c = true -> inside (overlapCenter b c) b /\ inside (overlapCenter b c) c)).
Proof.
  intros b c. split; [|split; [|split]].
  - intro p. unfold Contains, inside. rewrite !andb_true_iff, !le_spec. tauto.
  - unfold IsValid. rewrite negb_true_iff, !orb_false_iff, <- !not_true_iff_false, !lt_spec.
    rewrite proper_axes. split.
    + intros ((A & B) & C) g [<-|[<-|[<-|[]]]]; lra.
    + intro H. pose proof (H vx). pose proof (H vy). pose proof (H vz). cbn in *. repeat split; intro; intuition lra.
  - apply eq_iff_eq_true. unfold Overlaps. rewrite !andb_true_iff. tauto.
  - intros Hb Hc.
    assert (X : Overlaps b c = true -> inside (overlapCenter b c) b /\ inside (overlapCenter b c) c).
    { unfold Overlaps. rewrite !andb_true_iff, !le_spec. intros (((((A1 & A2) & A3) & A4) & A5) & A6).
      rewrite proper_axes in Hb, Hc.
      pose proof (Hb vx ltac:(cbn; auto)). pose proof (Hb vy ltac:(cbn; auto)). pose proof (Hb vz ltac:(cbn; auto)).
      pose proof (Hc vx ltac:(cbn; auto)). pose proof (Hc vy ltac:(cbn; auto)). pose proof (Hc vz ltac:(cbn; auto)).
      assert (half : forall x y, (x + y) / 2 == x * (1 # 2) + y * (1 # 2)) by (intros; field).
      unfold inside, overlapCenter. cbn [vx vy vz].
      assert (one : forall a1 a2 c1 c2, a1 <= a2 -> c1 <= c2 -> a1 <= c2 -> c1 <= a2 ->
        a1 <= (fmin a2 c2 + fmax a1 c1) / 2 <= a2 /\ c1 <= (fmin a2 c2 + fmax a1 c1) / 2 <= c2).
      { intros. rewrite half. unfold fmin, fmax. unfold lt.
        destruct (Qlt_le_dec c2 a2), (Qlt_le_dec a1 c1); lra. }
      pose proof (one _ _ _ _ H H2 A1 A2). pose proof (one _ _ _ _ H0 H3 A3 A4). pose proof (one _ _ _ _ H1 H4 A5 A6). tauto. }
    split; [|exact X]. split; [intro O; exists (overlapCenter b c); auto|].
    intros (p & (A1 & A2 & A3) & (B1 & B2 & B3)). unfold Overlaps. rewrite !andb_true_iff, !le_spec. repeat split; lra.
Qed.
Print Assumptions C25_contains_overlaps.
Example C25_overlap_demo : let b := Box (V3 0 0 0) (V3 2 2 2) in let c := Box (V3 1 (-1) 2) (V3 3 5 7) in
  proper b /\ proper c /\ Overlaps b c = true /\ overlapCenter b c = V3 (3 # 2) (2 # 2) (4 # 2) /\
  Overlaps b (Box (V3 1 (-1) 3) (V3 3 5 7)) = false.
Proof.
  cbv zeta. split; [exists (V3 1 1 1); vm_compute; repeat split; discriminate|].
  split; [exists (V3 1 0 4); vm_compute; repeat split; discriminate | vm_compute; auto].
Qed.

(** *** C64 *)
Definition image (m : affine) (b : box) (q : vec3) : Prop := exists p, inside p b /\ same q (TransformCoordinate m p).
(** The full statement: for a box with points, smaller than Infinity,
    [smallest (Transform m b) (image m b)]. *)
Definition unit_row := Row 0 1 0 0.
Theorem C64_transform_refuted :
  let m := Affine (Row (-1) 1 (-1) 0) unit_row unit_row in let b := Box (V3 0 0 0) (V3 1 1 1) in
  proper b /\ inside (V3 0 1 0) b /\ Contains (Transform m b) (TransformCoordinate m (V3 0 1 0)) = false.
Proof.
  cbv zeta. split; [exists (V3 0 1 0); vm_compute; repeat split; discriminate|].
  split; [vm_compute; repeat split; discriminate | reflexivity].
Qed.
Print Assumptions C64_transform_refuted.

(** The result is right exactly when no row of the matrix pulls the corner (min, max, min) strictly beyond
    all others. *)
Theorem C64_transform_partial : forall m b, proper b -> Equals b Infinity = false ->
  (forall p, inside p b -> forall g, In g [vx; vy; vz] -> - FLT_MAX < g (TransformCoordinate m p) < FLT_MAX) ->
  (smallest (Transform m b) (image m b) <->
   forall r, In r [rx m; ry m; rz m] ->
     ~ (cx r * (vx (maximum b) - vx (minimum b)) < 0 /\ 0 < cy r * (vy (maximum b) - vy (minimum b)) /\
        cz r * (vz (maximum b) - vz (minimum b)) < 0)).
Proof.
  intros m b Hb Hinf Hlim.
  set (T := TransformCoordinate m).
  set (n := minimum b) in *. set (x := maximum b) in *.
  set (rest := [V3 (vx n) (vy x) (vz x); V3 (vx x) (vy x) (vz n);
      V3 (vx n) (vy n) (vz x); V3 (vx x) (vy n) (vz n); V3 (vx x) (vy n) (vz x); n; x]).
  set (first := V3 (vx n) (vy x) (vz n)).
  assert (E : Transform m b = history Reset (AddPoint (T first) :: map (fun p => AddPoint (T p)) rest)).
  { unfold Transform. assert (V : IsValid b = true) by (now apply C25_contains_overlaps).
    rewrite V, Hinf.
    unfold history, rest, first, testPoints. fold n x. cbn [map fold_left negb orb perform]. fold T. reflexivity. }
  pose proof Hb as Hax. rewrite proper_axes in Hax. fold n x in Hax.
  pose proof (Hax vx ltac:(cbn; auto)) as Hx. pose proof (Hax vy ltac:(cbn; auto)) as Hy. pose proof (Hax vz ltac:(cbn; auto)) as Hz.
  assert (Hin : forall p, In p (first :: rest) -> inside p b).
  { intros p Hp. unfold inside. fold n x. unfold first, rest in Hp. cbn [In] in Hp.
    repeat (destruct Hp as [<-|Hp]; [cbn [vx vy vz]; repeat split; lra|]). destruct Hp. }
  assert (F : Forall ordinary (AddPoint (T first) :: map (fun p => AddPoint (T p)) rest)).
  { apply (proj2 (Forall_map (fun p => AddPoint (T p)) ordinary (first :: rest))). apply Forall_forall. intros p Hp.
    split; [exact I|]. intros g Hg. cbn [top bottom]. apply Hlim; auto. }
  (* the value of a row at a point of the box is bounded by its values at two corners *)
  assert (mono : forall a lo hi v, lo <= v <= hi -> (a * lo <= a * v <= a * hi) \/ (a * hi <= a * v <= a * lo)).
  { intros a lo hi v Hv. destruct (Qlt_le_dec a 0); [right | left]; nra. }
  assert (row_bounds : forall r p, inside p b ->
     (exists c, In c (first :: rest) /\ apply_row r c <= apply_row r p) /\
     (exists c, In c (first :: rest) /\ apply_row r p <= apply_row r c)).
  { intros r p (P1 & P2 & P3). fold n x in P1, P2, P3. unfold apply_row.
    destruct (mono (cx r) _ _ _ P1) as [(A1 & A2)|(A1 & A2)]; destruct (mono (cy r) _ _ _ P2) as [(B1 & B2)|(B1 & B2)];
    destruct (mono (cz r) _ _ _ P3) as [(C1 & C2)|(C1 & C2)]; split;
    first [ exists (V3 (vx n) (vy x) (vz n)); split; [unfold first, rest; cbn [In]; auto 10 | cbn [vx vy vz]; lra]
          | exists (V3 (vx n) (vy x) (vz x)); split; [unfold first, rest; cbn [In]; auto 10 | cbn [vx vy vz]; lra]
          | exists (V3 (vx x) (vy x) (vz n)); split; [unfold first, rest; cbn [In]; auto 10 | cbn [vx vy vz]; lra]
          | exists (V3 (vx n) (vy n) (vz x)); split; [unfold first, rest; cbn [In]; auto 10 | cbn [vx vy vz]; lra]
          | exists (V3 (vx x) (vy n) (vz n)); split; [unfold first, rest; cbn [In]; auto 10 | cbn [vx vy vz]; lra]
          | exists (V3 (vx x) (vy n) (vz x)); split; [unfold first, rest; cbn [In]; auto 10 | cbn [vx vy vz]; lra]
          | exists n; split; [unfold first, rest; cbn [In]; auto 10 | lra]
          | exists x; split; [unfold first, rest; cbn [In]; auto 10 | lra] ]. }
  (* the image and the corners have the same smallest box *)
  assert (corner_added : forall p, In p (first :: rest) ->
     added_by (AddPoint (T first) :: map (fun p => AddPoint (T p)) rest) (T p)).
  { intros p Hp. exists (AddPoint (T p)). split; [|repeat split; reflexivity].
    destruct Hp as [<-|Hp]; [now left|]. right. apply in_map_iff. eauto. }
  assert (axis_row : forall g, In g [vx; vy; vz] -> exists r, In r [rx m; ry m; rz m] /\ forall p, g (T p) = apply_row r p).
  { intros g [<-|[<-|[<-|[]]]]; [exists (rx m) | exists (ry m) | exists (rz m)]; cbn [In]; auto. }
  assert (same_hull : forall B, (forall q, image m b q -> inside q B) <->
     (forall q, added_by (AddPoint (T first) :: map (fun p => AddPoint (T p)) rest) q -> inside q B)).
  { intro B. split; intro H.
    - intros q (o & Ho & Hq).
      assert (exists p, In p (first :: rest) /\ o = AddPoint (T p)) as (p & Hp & ->).
      { destruct Ho as [<-|Ho]; [exists first; split; [now left | reflexivity]|].
        apply in_map_iff in Ho. destruct Ho as (p & <- & Hp). exists p. split; [now right | reflexivity]. }
      apply H. exists p. split; [now apply Hin | exact Hq].
    - intros q (p & Hp & Hq). apply inside_axes. intros g Hg. destruct (axis_row g Hg) as (r & _ & Er).
      destruct (row_bounds r p Hp) as ((c1 & Hc1 & L1) & (c2 & Hc2 & L2)).
      pose proof (H _ (corner_added c1 Hc1)) as K1. pose proof (H _ (corner_added c2 Hc2)) as K2.
      rewrite inside_axes in K1, K2. specialize (K1 g Hg). specialize (K2 g Hg). rewrite !Er in K1, K2.
      assert (g q == apply_row r p).
      { rewrite <- (Er p). destruct Hq as (Q1 & Q2 & Q3). destruct Hg as [<-|[<-|[<-|[]]]]; assumption. }
      lra. }
  assert (SS : smallest (Transform m b) (image m b) <->
     smallest (Transform m b) (added_by (AddPoint (T first) :: map (fun p => AddPoint (T p)) rest))).
  { split; intros (S1 & S2); (split; [now apply same_hull|]); intros B HB; apply S2; now apply same_hull. }
  rewrite SS, E, (C25_include_after_reset_partial (AddPoint (T first)) _ F).
  (* reaching the first corner *)
  assert (reach : forall r, (exists c, In c rest /\ apply_row r first <= apply_row r c) <->
     ~ (cx r * (vx x - vx n) < 0 /\ 0 < cy r * (vy x - vy n) /\ cz r * (vz x - vz n) < 0)).
  { intro r. unfold apply_row. split.
    - intros (c & Hc & L) (A1 & A2 & A3). unfold rest in Hc. cbn [In] in Hc. unfold first in L. cbn [vx vy vz] in L.
      repeat (destruct Hc as [<-|Hc]; [cbn [vx vy vz] in L; lra|]). destruct Hc.
    - intro N. unfold first. cbn [vx vy vz].
      destruct (Qlt_le_dec (cx r * (vx x - vx n)) 0) as [A1|A1].
      + destruct (Qlt_le_dec 0 (cy r * (vy x - vy n))) as [A2|A2].
        * destruct (Qlt_le_dec (cz r * (vz x - vz n)) 0) as [A3|A3]; [exfalso; apply N; auto|].
          exists (V3 (vx n) (vy x) (vz x)). split; [unfold rest; cbn [In]; auto | cbn [vx vy vz]; lra].
        * exists n. split; [unfold rest; cbn [In]; auto 10 | lra].
      + exists (V3 (vx x) (vy x) (vz n)). split; [unfold rest; cbn [In]; auto | cbn [vx vy vz]; lra]. }
  assert (rows : forall r, In r [rx m; ry m; rz m] -> exists g, In g [vx; vy; vz] /\ forall p, g (T p) = apply_row r p).
  { intros r [<-|[<-|[<-|[]]]]; [exists vx | exists vy | exists vz]; cbn [In]; auto. }
  split.
  - intros H r Hr. apply reach. destruct (rows r Hr) as (g & Hg & Eg). destruct (H g Hg) as (o & Ho & L).
    apply in_map_iff in Ho. destruct Ho as (p & <- & Hp). cbn [top] in L. rewrite !Eg in L. eauto.
  - intros H g Hg. destruct (axis_row g Hg) as (r & Hr & Eg). destruct (proj2 (reach r) (H r Hr)) as (c & Hc & L).
    exists (AddPoint (T c)). split; [apply in_map_iff; eauto|]. cbn [top]. rewrite !Eg. exact L.
Qed.
Print Assumptions C64_transform_partial.
(** A rotation by a quarter turn with a translation. *)
Example C64_demo : let m := Affine (Row 0 (-1) 0 10) (Row 1 0 0 0) (Row 0 0 1 (-3)) in
  let b := Box (V3 0 1 2) (V3 3 5 7) in
  proper b /\ Equals b Infinity = false /\ Transform m b = Box (V3 5 0 (-1)) (V3 9 3 4) /\
  forall r, In r [rx m; ry m; rz m] ->
     ~ (cx r * (vx (maximum b) - vx (minimum b)) < 0 /\ 0 < cy r * (vy (maximum b) - vy (minimum b)) /\
        cz r * (vz (maximum b) - vz (minimum b)) < 0).
Proof.
  cbv zeta. split; [exists (V3 0 1 2); vm_compute; repeat split; discriminate|]. split; [reflexivity|]. split; [reflexivity|].
  intros r [<-|[<-|[<-|[]]]]; cbn; intros (A & B & C); lra.
Qed.
