(** Property C47: type inclusion is descent. *)
From Coq Require Import List PeanoNat Lia.
From Verif Require Import TypeModel.
Import ListNotations.

(** [descends h t u]: [t] is [u] or derives from it through any number of parents. *)
Inductive descends (h : hierarchy) : nat -> nat -> Prop :=
| D_self : forall t, descends h t t
| D_parent : forall t p u, nth_error h t = Some (Some p) -> descends h p u -> descends h t u.

Lemma includes_spec : forall fuel h t u, wf h -> t < length h -> t < fuel ->
  exists b, includes fuel h t u = Some b /\ (b = true <-> descends h t u).
Proof.
  induction fuel as [|f IH]; intros h t u Hw Ht Hf; [lia|]. cbn [includes].
  destruct (Nat.eqb_spec u t) as [->|Hne]; [exists true; split; auto; split; auto; intros; constructor|].
  destruct (nth_error h t) as [[p|]|] eqn:E.
  - pose proof (Hw t p E). destruct (IH h p u) as (b & Eb & Hb); auto; try lia.
    exists b. split; auto. rewrite Hb. split; intro H1; [econstructor; eauto|].
    inversion H1; subst; [congruence|]. rewrite E in H0. injection H0 as ->. auto.
  - exists false. split; auto. split; [discriminate|]. intro H1. inversion H1; subst; [congruence|].
    rewrite E in H. discriminate.
  - apply nth_error_None in E. lia.
Qed.

Lemma descends_trans : forall h a b c, descends h a b -> descends h b c -> descends h a c.
Proof. intros h a b c H. induction H; intros; auto. econstructor; eauto. Qed.
Lemma descends_le : forall h a b, wf h -> descends h a b -> b <= a.
Proof. intros h a b Hw H. induction H; auto. apply Hw in H. lia. Qed.

Theorem C47_includes_is_descent : forall h, wf h ->
  (forall t u, t < length h -> exists b, Includes h t u = Some b /\ (b = true <-> descends h t u)) /\
  (forall t, t < length h -> Includes h t t = Some true) /\
  (forall t u v, t < length h -> u < length h -> Includes h t u = Some true -> Includes h u v = Some true ->
     Includes h t v = Some true) /\
  (forall t u, t < length h -> u < length h -> Includes h t u = Some true -> Includes h u t = Some true -> t = u).
Proof.
  intros h Hw.
  assert (H : forall t u, t < length h -> exists b, Includes h t u = Some b /\ (b = true <-> descends h t u)).
  { intros t u Ht. apply includes_spec; auto. }
  assert (H2 : forall t u, t < length h -> Includes h t u = Some true <-> descends h t u).
  { intros t u Ht. destruct (H t u Ht) as (b & E & Hb). rewrite E, <- Hb.
    split; [intro Q; injection Q; auto|intros ->; auto]. }
  split; auto. split; [intros; apply H2; auto; constructor|]. split.
  - intros t u v Ht Hu E1 E2. apply H2 in E1; auto. apply H2 in E2; auto. apply H2; eauto using descends_trans.
  - intros t u Ht Hu E1 E2. apply H2 in E1; auto. apply H2 in E2; auto.
    pose proof (descends_le _ _ _ Hw E1). pose proof (descends_le _ _ _ Hw E2). lia.
Qed.
Print Assumptions C47_includes_is_descent.
(** FUObject; FUTrackable; FCDObject; FCDObjectWithId; FUParameterizable-like sibling. *)
Example C47_demo : let h := [None; Some 0; Some 1; Some 2; Some 1] in
  wf h /\ Includes h 3 1 = Some true /\ Includes h 1 3 = Some false /\ Includes h 4 2 = Some false.
Proof.
  cbn. split; [|repeat split; reflexivity].
  intros i p H. do 5 (destruct i as [|i]; [cbn in H; try discriminate; injection H as <-; lia|]).
  destruct i; discriminate.
Qed.
