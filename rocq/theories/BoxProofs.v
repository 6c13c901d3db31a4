(** Proofs for C25 and C64. *)
From Coq Require Import List QArith Lqa Bool.
From Verif Require Import BoxModel.
Import ListNotations.
Local Open Scope Q_scope.

Lemma lt_spec : forall a b, lt a b = true <-> a < b.
Proof. intros. unfold lt. destruct (Qlt_le_dec a b); split; intro; auto; try discriminate. lra. Qed.
Lemma le_spec : forall a b, le a b = true <-> a <= b.
Proof. intros. unfold le. rewrite negb_true_iff, <- not_true_iff_false, lt_spec. split; intro; lra. Qed.
Lemma lt_case : forall (T : Type) a b (x y : T), (a < b /\ (if lt a b then x else y) = x) \/ (b <= a /\ (if lt a b then x else y) = y).
Proof. intros. unfold lt. destruct (Qlt_le_dec a b); auto. Qed.

(** *** One axis *)
(** An operation on one axis: a point or an interval. *)
Inductive op1 := Pt1 (p : Q) | Iv1 (lo hi : Q).
Definition lo1 (o : op1) := match o with Pt1 p => p | Iv1 l _ => l end.
Definition hi1 (o : op1) := match o with Pt1 p => p | Iv1 _ h => h end.
Definition step1 (s : Q * Q) (o : op1) : Q * Q :=
  match o with
  | Pt1 p => include_coordinate (fst s) (snd s) p
  | Iv1 l h => (if lt l (fst s) then l else fst s, if lt (snd s) h then h else snd s)
  end.
Definition run1 (s : Q * Q) (l : list op1) : Q * Q := fold_left step1 l s.
Lemma run1_snoc : forall s l o, run1 s (l ++ [o]) = step1 (run1 s l) o.
Proof. intros. unfold run1. now rewrite fold_left_app. Qed.

(** From a valid interval: the least interval containing everything. *)
Lemma step_valid : forall mn mx o, mn <= mx -> lo1 o <= hi1 o ->
  let s := step1 (mn, mx) o in
  fst s <= mn /\ fst s <= lo1 o /\ mx <= snd s /\ hi1 o <= snd s /\
  (fst s == mn \/ fst s == lo1 o) /\ (snd s == mx \/ snd s == hi1 o).
Proof.
  intros mn mx [p|l h] H H1; cbn [step1 fst snd lo1 hi1] in *.
  - unfold include_coordinate. destruct (lt_case (Q * Q) p mn (p, mx) (if lt mx p then (mn, p) else (mn, mx))) as [(A & ->)|(A & ->)].
    + cbn [fst snd]. repeat split; try lra; first [left; lra | right; lra].
    + destruct (lt_case (Q * Q) mx p (mn, p) (mn, mx)) as [(B & ->)|(B & ->)]; cbn [fst snd]; repeat split; try lra;
        first [left; lra | right; lra].
  - destruct (lt_case Q l mn l mn) as [(A & ->)|(A & ->)]; destruct (lt_case Q mx h h mx) as [(B & ->)|(B & ->)];
      repeat split; try lra; first [left; lra | right; lra].
Qed.
Lemma run_valid : forall l mn mx, mn <= mx -> Forall (fun o => lo1 o <= hi1 o) l ->
  let s := run1 (mn, mx) l in
  fst s <= mn /\ mx <= snd s /\ (forall o, In o l -> fst s <= lo1 o /\ hi1 o <= snd s) /\
  (fst s == mn \/ exists o, In o l /\ fst s == lo1 o) /\ (snd s == mx \/ exists o, In o l /\ snd s == hi1 o).
Proof.
  intros l mn mx H. induction l as [|o l IH] using rev_ind; intros F; cbv zeta.
  - cbn. repeat split; try lra; try (left; lra); intros o [].
  - apply Forall_app in F. destruct F as (F & Fo). inversion Fo; subst. specialize (IH F). cbv zeta in IH.
    rewrite run1_snoc. destruct (run1 (mn, mx) l) as (a, b) eqn:E. cbn [fst snd] in IH.
    destruct IH as (I1 & I2 & I3 & I4 & I5).
    destruct (step_valid a b o ltac:(lra) H2) as (S1 & S2 & S3 & S4 & S5 & S6).
    split; [lra|]. split; [lra|]. split.
    { intros o' Ho. apply in_app_or in Ho. destruct Ho as [Ho|[<-|[]]]; [destruct (I3 _ Ho); split; lra | split; lra]. }
    split.
    + destruct S5 as [S5|S5]; [|right; exists o; split; [apply in_or_app; cbn; auto | exact S5]].
      destruct I4 as [I4|(o' & Ho & I4)]; [left; lra | right; exists o'; split; [apply in_or_app; auto | lra]].
    + destruct S6 as [S6|S6]; [|right; exists o; split; [apply in_or_app; cbn; auto | exact S6]].
      destruct I5 as [I5|(o' & Ho & I5)]; [left; lra | right; exists o'; split; [apply in_or_app; auto | lra]].
Qed.

(** After a point arriving first: the minimum is right; the maximum is right exactly when a later operation
    reaches the first point. *)
Lemma run_first_point : forall l p0 mx0, mx0 < p0 -> Forall (fun o => lo1 o <= hi1 o /\ mx0 < hi1 o) l ->
  let s := run1 (p0, mx0) l in
  (fst s <= p0 /\ (forall o, In o l -> fst s <= lo1 o) /\ (fst s == p0 \/ exists o, In o l /\ fst s == lo1 o)) /\
  (((exists o, In o l /\ p0 <= hi1 o) /\ p0 <= snd s /\ (forall o, In o l -> hi1 o <= snd s) /\
     exists o, In o l /\ snd s == hi1 o)
   \/ ((forall o, In o l -> hi1 o < p0) /\ snd s < p0)).
Proof.
  intros l p0 mx0 H. induction l as [|o l IH] using rev_ind; intros F; cbv zeta.
  - cbn. split; [split; [lra|]; split; [intros o []|left; lra]|]. right. split; [intros o []|exact H].
  - apply Forall_app in F. destruct F as (F & Fo). inversion Fo as [|? ? Hlh _ ]; subst. specialize (IH F). cbv zeta in IH.
    rewrite run1_snoc. destruct (run1 (p0, mx0) l) as (a, b) eqn:E. cbn [fst snd] in IH.
    destruct IH as ((I1 & I2 & I3) & I4).
    (* the new minimum *)
    assert (M : let s := step1 (a, b) o in fst s <= a /\ fst s <= lo1 o /\ (fst s == a \/ fst s == lo1 o) /\
       ((snd s == b /\ hi1 o <= b) \/ (snd s == hi1 o /\ b <= hi1 o) \/ (snd s == b /\ hi1 o < a))).
    { destruct o as [p|lo hi]; cbn [step1 fst snd lo1 hi1] in *.
      - unfold include_coordinate. destruct (lt_case (Q * Q) p a (p, b) (if lt b p then (a, p) else (a, b))) as [(A & ->)|(A & ->)].
        + cbn [fst snd]. split; [lra|]. split; [lra|]. split; [right; lra|]. right. right. split; [lra|exact A].
        + destruct (lt_case (Q * Q) b p (a, p) (a, b)) as [(B & ->)|(B & ->)]; cbn [fst snd];
            (split; [lra|]); (split; [lra|]); (split; [left; lra|]).
          * right. left. split; lra.
          * left. split; lra.
      - destruct (lt_case Q lo a lo a) as [(A & ->)|(A & ->)]; destruct (lt_case Q b hi hi b) as [(B & ->)|(B & ->)];
          (split; [lra|]); (split; [lra|]); (split; [first [left; lra | right; lra]|]);
          first [right; left; split; lra | left; split; lra]. }
    cbv zeta in M. destruct M as (S1 & S2 & S3 & S4). split.
    { split; [lra|]. split.
      { intros o' Ho. apply in_app_or in Ho. destruct Ho as [Ho|[<-|[]]]; [specialize (I2 _ Ho); lra | lra]. }
      destruct S3 as [S3|S3]; [|right; exists o; split; [apply in_or_app; cbn; auto | exact S3]].
      destruct I3 as [I3|(o' & Ho & I3)]; [left; lra | right; exists o'; split; [apply in_or_app; auto | lra]]. }
    destruct I4 as [((o1 & Ho1 & Hp) & J1 & J2 & o2 & Ho2 & J3)|(J1 & J2)].
    + left. split; [exists o1; split; [apply in_or_app; auto | exact Hp]|].
      destruct S4 as [(S4 & S4')|[(S4 & S4')|(S4 & S4')]].
      * split; [lra|]. split; [|exists o2; split; [apply in_or_app; auto | lra]].
        intros o' Ho. apply in_app_or in Ho. destruct Ho as [Ho|[<-|[]]]; [specialize (J2 _ Ho); lra | lra].
      * split; [lra|]. split; [|exists o; split; [apply in_or_app; cbn; auto | lra]].
        intros o' Ho. apply in_app_or in Ho. destruct Ho as [Ho|[<-|[]]]; [specialize (J2 _ Ho); lra | lra].
      * split; [lra|]. split; [|exists o2; split; [apply in_or_app; auto | lra]].
        intros o' Ho. apply in_app_or in Ho. destruct Ho as [Ho|[<-|[]]]; [specialize (J2 _ Ho); lra | lra].
    + destruct (Qlt_le_dec (hi1 o) p0) as [L|L].
      * right. split; [|destruct S4 as [(S4 & S4')|[(S4 & S4')|(S4 & S4')]]; lra].
        intros o' Ho. apply in_app_or in Ho. destruct Ho as [Ho|[<-|[]]]; [now apply J1 | exact L].
      * left. split; [exists o; split; [apply in_or_app; cbn; auto | exact L]|].
        assert (snd (step1 (a, b) o) == hi1 o) by (destruct S4 as [(S4 & S4')|[(S4 & S4')|(S4 & S4')]]; lra).
        split; [lra|]. split; [|exists o; split; [apply in_or_app; cbn; auto | exact H0]].
        intros o' Ho. apply in_app_or in Ho. destruct Ho as [Ho|[<-|[]]]; [specialize (J1 _ Ho); lra | lra].
Qed.
