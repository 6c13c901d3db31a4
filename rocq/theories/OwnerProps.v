(** C22: every owned object is destroyed exactly once and never stays referenced by its owner. *)
From Coq Require Import List Arith Lia Bool.
From Verif Require Import OwnerModel OwnerSpec OwnerProofs.
Import ListNotations.

(** The program starts without objects. *)
Definition empty_heap : heap := Heap (fun _ => false) (fun _ => None) (fun _ => None) (fun _ => None) 0.
Definition empty_view : view := View (fun _ => false) (fun _ => None) (fun _ => None) 0.
Fixpoint run (h : heap) (ops : list op) : option heap :=
  match ops with [] => Some h | x :: r => match run_op h x with None => None | Some h1 => run h1 r end end.
Fixpoint all_allowed (s : view) (ops : list op) : Prop :=
  match ops with [] => True | x :: r => allowed s x /\ all_allowed (expected s x) r end.
Fixpoint expected_all (s : view) (ops : list op) : view :=
  match ops with [] => s | x :: r => expected_all (expected s x) r end.

Lemma empty_ok : inv empty_heap /\ same empty_heap empty_view.
Proof. repeat split; cbn; try discriminate. Qed.
Lemma run_ok ops : forall h s, inv h -> same h s -> all_allowed s ops ->
  exists h', run h ops = Some h' /\ inv h' /\ same h' (expected_all s ops).
Proof.
  induction ops as [|x ops IH]; cbn; intros h s I Sm A; [now exists h|].
  destruct A as [A1 A2]. destruct (step_ok h s x I Sm A1) as (h1 & R & I1 & S1). rewrite R. now apply IH.
Qed.

(** Missing from the full statement: assignment of one reference to another, assignment of the object a reference
    already holds, and giving an object to a second owner, for which it is false (see the refutations).  For every other
    history nothing is used or destroyed after its destruction, exactly the expected objects are destroyed, all
    references and containers hold live objects, and no object has two holders. *)
Theorem C22_ownership_partial : forall ops, all_allowed empty_view ops ->
  exists h, run empty_heap ops = Some h /\
    (forall o, alive h o = live (expected_all empty_view ops) o) /\
    (forall r, refs h r = ref_to (expected_all empty_view ops) r) /\
    (forall c, conts h c = members (expected_all empty_view ops) c) /\
    (forall r o, refs h r = Some (Some o) -> alive h o = true) /\
    (forall c l o, conts h c = Some l -> In o l -> alive h o = true) /\
    (forall r r' o, refs h r = Some (Some o) -> refs h r' = Some (Some o) -> r = r') /\
    (forall c l, conts h c = Some l -> NoDup l) /\
    (forall c c' l l' o, conts h c = Some l -> conts h c' = Some l' -> In o l -> In o l' -> c = c') /\
    (forall r c l o, refs h r = Some (Some o) -> conts h c = Some l -> ~ In o l).
Proof.
  intros ops A. destruct (run_ok ops _ _ (proj1 empty_ok) (proj2 empty_ok) A) as (h & R & (I1 & I2 & I3 & I4) & (S1 & S2 & S3 & S4)).
  exists h. split; auto. split; auto. split; auto. split; auto. split; [|split; [|split; [|split; [|split]]]].
  - intros r o H. now apply (I2 r).
  - intros c l o H Ho. now apply (proj2 (I3 c l H)).
  - intros r r' o H H'. destruct (I2 r o H), (I2 r' o H'). congruence.
  - intros c l H. now apply (I3 c).
  - intros c c' l l' o H H' Ho Ho'. destruct (proj2 (I3 c l H) o Ho), (proj2 (I3 c' l' H') o Ho'). congruence.
  - intros r c l o H H' Ho. destruct (I2 r o H), (proj2 (I3 c l H') o Ho). congruence.
Qed.
Print Assumptions C22_ownership_partial.
Example C22_demo :
  let ops := [NewObject; NewObject; NewObject; NewObject; ContNew 0; ContNew 1; RefNew 7 None;
              PushBack 0 0; PushBack 0 1; Insert 0 1 2; RefAssign 7 (Some 3); ReleaseObject 2; DetachAt 0 0; Insert 1 0 0; RefDelete 7; Clear 1] in
  all_allowed empty_view ops /\
  match run empty_heap ops with
  | Some h => map (alive h) [0; 1; 2; 3] = [false; true; false; false] /\ conts h 0 = Some [1] /\ conts h 1 = Some [] /\ refs h 7 = None
  | None => False
  end.
Proof.
  split; [|cbn; auto].
  cbn [all_allowed allowed].
  assert (T : forall s o, live s o = true -> (forall r, ref_to s r <> Some (Some o)) -> (forall c l, members s c = Some l -> ~ In o l) -> free_object s o).
  { intros s o H1 H2 H3. split; auto. intros [(r & H)|(c & l & H & Ho)]; [apply (H2 r H) | apply (H3 c l H Ho)]. }
  repeat match goal with
  | |- _ /\ _ => split
  | |- free_object _ _ => apply T; [reflexivity
     | intros r; do 9 (try destruct r as [|r]); cbn; discriminate
     | intros c l; do 3 (try destruct c as [|c]); cbn; try discriminate;
       intros E Ho; inversion E; subst; cbn in Ho; repeat (destruct Ho as [Ho|Ho]; [discriminate Ho|]); exact Ho]
  | |- True => exact I
  | |- _ <= _ => cbn; lia
  | |- _ < _ => cbn; lia
  | |- _ <> None => cbn; discriminate
  | |- _ = _ => reflexivity
  end.
Qed.

(** Releasing an object takes it out of whatever holds it, in every reachable state; nothing else changes. *)
Theorem C22_release_removes : forall ops o, all_allowed empty_view ops ->
  exists h, run empty_heap ops = Some h /\
    (alive h o = true -> exists h', Release h o = Some h' /\ alive h' o = false /\
       (forall x, x <> o -> alive h' x = alive h x) /\
       (forall r, refs h' r <> Some (Some o)) /\ (forall c l, conts h' c = Some l -> ~ In o l) /\
       (forall r, refs h r <> Some (Some o) -> refs h' r = refs h r) /\
       (forall c l, conts h c = Some l -> conts h' c = Some (filter (fun x => negb (x =? o)) l)) /\
       Release h' o = None).
Proof.
  intros ops o A. destruct (run_ok ops _ _ (proj1 empty_ok) (proj2 empty_ok) A) as (h & R & I & Sm).
  exists h. split; auto. intro Ao. destruct (Release_killed h o I Ao) as (h' & Rl & (K1 & K2 & K3 & K4 & K5)).
  exists h'. split; auto.
  assert (D : alive h' o = false) by (rewrite K1, among1, Nat.eqb_refl; cbn; apply andb_false_r).
  split; auto. split; [|split; [|split; [|split; [|split]]]].
  - intros x Hx. rewrite K1, among1. apply Nat.eqb_neq in Hx. rewrite Hx. apply andb_true_r.
  - intro r. rewrite K3. destruct (refs h r) as [[p|]|]; try discriminate. rewrite among1. destruct (Nat.eqb_spec p o); congruence.
  - intros c l. rewrite K4. destruct (conts h c) as [l0|]; [|discriminate]. intros [= <-] Ho. apply filter_In in Ho as [_ Ho].
    rewrite Nat.eqb_refl in Ho. discriminate.
  - intros r Hr. rewrite K3. destruct (refs h r) as [[p|]|]; auto. rewrite among1. destruct (Nat.eqb_spec p o); congruence.
  - intros c l Hc. rewrite K4, Hc. cbn [option_map]. f_equal. apply filter_ext. intro x. now rewrite among1.
  - unfold Release. now rewrite D.
Qed.
Print Assumptions C22_release_removes.

(** Refutation 1: after "a = b" for two references, the object still belongs to b: releasing it leaves a dangling
    pointer in a, and a's destructor uses the dead object. *)
Theorem C22_move_refuted : exists h h',
  run empty_heap [NewObject; RefNew 0 (Some 0); RefNew 1 None] = Some h /\
  (match ref_move h 1 0 with Some h1 => Release h1 0 | None => None end) = Some h' /\
  alive h' 0 = false /\ refs h' 1 = Some (Some 0) /\ ref_delete h' 1 = None.
Proof. do 2 eexists. split; [reflexivity|]. split; [reflexivity|]. repeat split. Qed.
Print Assumptions C22_move_refuted.
(** Refutation 2: assigning to a reference the object it already holds destroys the object first, for every state in which
    the reference holds a live object it owns. *)
Theorem C22_same_object_refuted : forall ops r o, all_allowed empty_view ops ->
  exists h, run empty_heap ops = Some h /\ (refs h r = Some (Some o) -> ref_assign h r (Some o) = None).
Proof.
  intros ops r o A. destruct (run_ok ops _ _ (proj1 empty_ok) (proj2 empty_ok) A) as (h & R & I & Sm).
  exists h. split; auto. intro H. destruct (proj1 (proj2 I) r o H) as [Ao Wo].
  destruct (Release_killed h o I Ao) as (h' & Rl & (K1 & K2 & K3 & K4 & K5)). unfold ref_assign. rewrite H, Rl.
  rewrite K3, H, among1, Nat.eqb_refl. unfold AttachObject, SetObjectOwner. upds. rewrite K1, among1, Nat.eqb_refl. cbn. now rewrite andb_false_r.
Qed.
Print Assumptions C22_same_object_refuted.
Example C22_same_object_demo : exists h, run empty_heap [NewObject; RefNew 0 (Some 0)] = Some h /\ refs h 0 = Some (Some 0) /\ ref_assign h 0 (Some 0) = None.
Proof. eexists. repeat split. Qed.
(** Refutation 3: an object put into two containers stays in the second one after its destruction, and the destructor of
    the second container uses it. *)
Theorem C22_two_owners_refuted : exists h,
  run empty_heap [NewObject; ContNew 0; ContNew 1; PushBack 0 0; PushBack 1 0; Clear 0] = Some h /\
  alive h 0 = false /\ conts h 1 = Some [0] /\ cont_delete h 1 = None.
Proof. eexists. split; [reflexivity|]. repeat split. Qed.
Print Assumptions C22_two_owners_refuted.
