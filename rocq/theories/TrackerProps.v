(** C23: tracked pointers and lists never refer to a destroyed object. *)
From Coq Require Import List Arith Lia Bool.
From Verif Require Import OwnerModel OwnerSpec OwnerProofs TrackerModel TrackerSpec TrackerProofs.
Import ListNotations.

Definition empty_mem : mem := Mem (fun _ => false) (fun _ => []) (fun _ => None) (fun _ => None) 0.
Definition no_view : view := View (fun _ => false) (fun _ => None) (fun _ => None) 0.
Fixpoint trun (m : mem) (ops : list top) : option mem :=
  match ops with [] => Some m | x :: r => match run_top m x with None => None | Some m1 => trun m1 r end end.
Fixpoint all_tallowed (s : view) (ops : list top) : Prop :=
  match ops with [] => True | x :: r => tallowed s x /\ all_tallowed (texpected s x) r end.
Fixpoint texpected_all (s : view) (ops : list top) : view :=
  match ops with [] => s | x :: r => texpected_all (texpected s x) r end.

Lemma empty_mem_ok : tinv empty_mem /\ tsame empty_mem no_view.
Proof.
  split; [|repeat split]. split; [|split; [|split; [|split]]]; cbn; try discriminate.
  intros [p|l] o; cbn; [discriminate | intros (xs & ? & _); discriminate].
Qed.
Lemma trun_ok ops : forall m s, tinv m -> tsame m s -> all_tallowed s ops ->
  exists m', trun m ops = Some m' /\ tinv m' /\ tsame m' (texpected_all s ops).
Proof.
  induction ops as [|x ops IH]; cbn; intros m s I Sm A; [now exists m|].
  destruct A as [A1 A2]. destruct (tstep_ok m s x I Sm A1) as (m1 & R & I1 & S1). rewrite R. now apply IH.
Qed.

(** Missing from the full statement: copy construction of tracked pointers and copies of tracked lists, and an object
    that is twice in one list; for these it is false (see the refutations).  For every other history nothing is used after
    its destruction, every pointer and list has the expected content, and all of it designates live objects. *)
Theorem C23_tracking_partial : forall ops, all_tallowed no_view ops ->
  exists m, trun empty_mem ops = Some m /\
    (forall o, obj_alive m o = live (texpected_all no_view ops) o) /\
    (forall p, ptrs m p = ref_to (texpected_all no_view ops) p) /\
    (forall l, lists m l = members (texpected_all no_view ops) l) /\
    (forall p o, ptrs m p = Some (Some o) -> obj_alive m o = true) /\
    (forall l xs o, lists m l = Some xs -> In o xs -> obj_alive m o = true).
Proof.
  intros ops A. destruct (trun_ok ops _ _ (proj1 empty_mem_ok) (proj2 empty_mem_ok) A) as (m & R & I & (S1 & S2 & S3 & S4)).
  exists m. split; auto. split; auto. split; auto. split; auto. destruct I as (I1 & I2 & _). split.
  - intros p o H. now apply (I2 (Ptr p)).
  - intros l xs o H Ho. apply (I2 (Lst l)). exists xs. auto.
Qed.
Print Assumptions C23_tracking_partial.
Definition C23_ops := [TNew; TNew; TNew; PNew 0 (Some 0); PNew 1 None; PAssignPtr 1 0; LNew 0; LNew 1; LPush 0 0; LInsert 0 0 1;
              LInsertRange 1 0 [2; 0; 1]; PAssign 0 (Some 2); TRelease 0; LErase 1 0; LRelease 0 1; PDelete 1].
Example C23_demo : all_tallowed no_view C23_ops /\
  match trun empty_mem C23_ops with
  | Some m => map (obj_alive m) [0; 1; 2] = [false; false; true] /\ ptrs m 0 = Some (Some 2) /\ ptrs m 1 = None /\
              lists m 0 = Some [] /\ lists m 1 = Some []
  | None => False
  end.
Proof.
  split; [|cbn; auto].
  cbn; repeat match goal with
  | |- _ /\ _ => split
  | |- True => exact I
  | |- NoDup _ => repeat constructor; cbn; intuition lia
  | |- forall o, _ -> _ => intros o H; repeat (destruct H as [<-|H]; [cbn; split; [reflexivity|tauto]|]); destruct H
  | |- ~ _ => cbn; intuition lia
  | |- _ <= _ => cbn; lia
  | |- _ < _ => cbn; lia
  | |- _ <> None => discriminate
  | |- _ = _ => reflexivity
  end.
Qed.

(** Trackers know exactly the live objects they hold: GetTrackerCount counts the pointers and lists that hold an object. *)
Theorem C23_trackers_exact : forall ops, all_tallowed no_view ops ->
  exists m, trun empty_mem ops = Some m /\ forall o, obj_alive m o = true -> NoDup (trackers m o) /\
    (forall p, In (Ptr p) (trackers m o) <-> ptrs m p = Some (Some o)) /\
    (forall l, In (Lst l) (trackers m o) <-> exists xs, lists m l = Some xs /\ In o xs).
Proof.
  intros ops A. destruct (trun_ok ops _ _ (proj1 empty_mem_ok) (proj2 empty_mem_ok) A) as (m & R & (I1 & I2 & I3 & I4 & I5) & _).
  exists m. split; auto. intros o Ao. split; auto. split.
  - intro p. symmetry. now apply (I3 (Ptr p)).
  - intro l. symmetry. now apply (I3 (Lst l)).
Qed.
Print Assumptions C23_trackers_exact.
Example C23_trackers_demo : match trun empty_mem (firstn 11 C23_ops) with
  | Some m => trackers m 0 = [Ptr 0; Ptr 1; Lst 0; Lst 1] | None => False end.
Proof. reflexivity. Qed.

(** Refutation 1: a copy-constructed pointer keeps a dangling address, and its destructor uses the dead object. *)
Theorem C23_copied_pointer_refuted : exists m m', trun empty_mem [TNew; PNew 0 (Some 0)] = Some m /\
  (match ptr_copy m 1 0 with Some m1 => ReleaseTrackable m1 0 | None => None end) = Some m' /\
  obj_alive m' 0 = false /\ ptrs m' 0 = Some None /\ ptrs m' 1 = Some (Some 0) /\ ptr_delete m' 1 = None.
Proof. do 2 eexists. split; [reflexivity|]. split; [reflexivity|]. repeat split. Qed.
Print Assumptions C23_copied_pointer_refuted.
(** Refutation 2: so does a copied list, whether copy-constructed or assigned; the list that is overwritten by an
    assignment stays registered with its former objects. *)
Theorem C23_copied_list_refuted :
  (exists m m', trun empty_mem [TNew; LNew 0; LPush 0 0] = Some m /\
    (match list_copy m 1 0 with Some m1 => ReleaseTrackable m1 0 | None => None end) = Some m' /\
    obj_alive m' 0 = false /\ lists m' 0 = Some [] /\ lists m' 1 = Some [0] /\ list_delete m' 1 = None) /\
  (exists m m1 m', trun empty_mem [TNew; TNew; LNew 0; LPush 0 0; LNew 1; LPush 1 1] = Some m /\
    list_assign m 1 0 = Some m1 /\ trackers m1 1 = [Lst 1] /\ lists m1 1 = Some [0] /\
    ReleaseTrackable m1 0 = Some m' /\ lists m' 1 = Some [0] /\ list_delete m' 1 = None).
Proof.
  split.
  - do 2 eexists. split; [reflexivity|]. split; [reflexivity|]. repeat split.
  - do 3 eexists. split; [reflexivity|]. split; [reflexivity|]. split; [reflexivity|]. split; [reflexivity|]. split; [reflexivity|]. repeat split.
Qed.
Print Assumptions C23_copied_list_refuted.
(** Refutation 3: an object that is twice in a list leaves one dangling entry. *)
Theorem C23_duplicate_refuted : exists m, trun empty_mem [TNew; LNew 0; LPush 0 0; LPush 0 0; TRelease 0] = Some m /\
  obj_alive m 0 = false /\ lists m 0 = Some [0] /\ list_clear m 0 = None.
Proof. eexists. split; [reflexivity|]. repeat split. Qed.
Print Assumptions C23_duplicate_refuted.
