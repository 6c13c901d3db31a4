(** C34: unique index buffers. *)
From Coq Require Import List Arith Bool NArith Lia.
From Verif Require Import PolyModel PolyProofs TriModel TriProps ReindexModel ReindexProofs.
Import ListNotations.

(** *** Specification *)
(** A polygon set of the mesh: its index lists have the same number of entries, no source is used twice, and the
    sources exist. *)
Definition set_ok {A} (m : mesh A) (s : pset nat) : Prop :=
  (forall x y, In x (pinputs s) -> In y (pinputs s) -> indices x <> [] -> indices y <> [] -> length (indices x) = length (indices y)) /\
  NoDup (map source (pinputs s)) /\ (forall x, In x (pinputs s) -> source x < length (sources m)).
(** The values of a source of the mesh. *)
Definition values {A} (m : mesh A) (d : nat) : list A := nth d (sources m) [].

Lemma set_ok_same {A} (m : mesh A) s : set_ok m s -> same_length (pinputs s).
Proof. intros (H & _) x y Ix Iy Wx Wy. unfold owns in *. apply H; auto; [destruct (indices x) | destruct (indices y)]; congruence. Qed.

(** *** The theorem *)
(** Every set gets one buffer of new indices.  The new indices of all sets are the numbers below [total], each used, no
    number in two sets.  Within a set, two corners get the same new index exactly when their old indices agree in every
    input.  Every input of the set is followed by an input of the same source which uses the buffer, and the new index
    finds the value that the old index found. *)
Theorem C34_unique_indices_partial : forall A (zero : A) (m : mesh A),
  (forall s, In s (sets m) -> ptype s <> POINTS) -> (forall s, In s (sets m) -> set_ok m s) ->
  let m' := GenerateUniqueIndices zero m in
  exists buffers total, length buffers = length (sets m) /\ length (sets m') = length (sets m) /\ length (sources m') = length (sources m) /\
  (forall v, v < total <-> exists b, In b buffers /\ In v b) /\
  (forall p q b c v, nth_error buffers p = Some b -> nth_error buffers q = Some c -> In v b -> In v c -> p = q) /\
  forall p s b, nth_error (sets m) p = Some s -> nth_error buffers p = Some b ->
    (forall i, get_indices (pinputs s) i <> [] -> length (get_indices (pinputs s) i) = length b) /\
    (forall j k v w, nth_error b j = Some v -> nth_error b k = Some w ->
       (v = w <-> forall i, i < length (pinputs s) -> nth_error (get_indices (pinputs s) i) j = nth_error (get_indices (pinputs s) i) k)) /\
    exists s', nth_error (sets m') p = Some s' /\ ptype s' = ptype s /\ pcounts s' = pcounts s /\ pholes s' = pholes s /\
      (b <> [] -> forall i, i < length (pinputs s') -> get_indices (pinputs s') i = b) /\
      forall i x, nth_error (pinputs s) i = Some x ->
        (exists i' x', nth_error (pinputs s') i' = Some x' /\ source x' = source x) /\
        forall k old new v, nth_error (get_indices (pinputs s) i) k = Some old -> nth_error b k = Some new ->
          nth_error (values m (source x)) old = Some v -> nth_error (values m' (source x)) new = Some v.
Proof.
  intros A zero m NP Ok m'.
  assert (Pt : existsb is_points (sets m) = false).
  { destruct (existsb is_points (sets m)) eqn:E; auto. apply existsb_exists in E as (s & Is & Es). exfalso. apply (NP s Is). unfold is_points in Es. destruct (ptype s); congruence. }
  unfold m', GenerateUniqueIndices. rewrite Pt. clear Pt.
  destruct (sets m) as [|s0 ss0] eqn:Es0.
  { exists [], 0. rewrite Es0. cbn [length]. split; auto. split; auto. split; auto. split; [intro v; split; [lia | intros (b & [] & _)]|]. split; intros [|p]; discriminate. }
  rewrite <- Es0 in *. clear Es0.
  destruct (unique_sets 0 (sets m)) as [buffers total] eqn:Eu. set (m1 := Mesh (map_sources (new_values zero (sets m) buffers total) 0 (sources m)) (vertex m) (sets m)).
  destruct (all_vertex_fold (A := A) (seq 0 (length (sources m1))) m1) as (F & V1 & V2 & V3 & V4 & _). fold (all_vertex m1) in V1, V2. set (m2 := all_vertex m1) in *.
  destruct (unique_sets_props _ _ _ _ Eu) as (_ & Cov & Dis & Loop). pose proof (unique_sets_length (sets m) 0) as Lb. rewrite Eu in Lb. cbn in Lb.
  assert (Ls : length (sources m1) = length (sources m)) by apply map_sources_length.
  exists buffers, total. split; auto. split.
  { cbn [sets]. rewrite enforce_sets_length, V2, map_length by (rewrite V2, map_length; auto). reflexivity. }
  split; [cbn [sources]; congruence|]. split; [intro v; rewrite <- Cov; lia|]. split; [exact Dis|].
  intros p s b Ns Nb. destruct (Loop p s b Ns Nb) as (t & u & El). assert (Is : In s (sets m)) by (eapply nth_error_In; eauto). destruct (Ok s Is) as (_ & Nd & Src). pose proof (set_ok_same m s (Ok s Is)) as Sl.
  destruct (corner_keys_props (pinputs s) Sl) as [Klen Keq]. destruct (unique_loop_props _ _ _ _ El) as (L1 & _ & _ & U).
  assert (Same : forall j k v w, nth_error b j = Some v -> nth_error b k = Some w ->
       (v = w <-> forall i, i < length (pinputs s) -> nth_error (get_indices (pinputs s) i) j = nth_error (get_indices (pinputs s) i) k)).
  { intros j k v w Nv Nw. assert (Hj : j < length b) by (apply nth_error_Some; congruence). assert (Hk : k < length b) by (apply nth_error_Some; congruence).
    destruct (nth_error (corner_keys (select_owners None (pinputs s))) j) as [kj|] eqn:Ej; [|apply nth_error_None in Ej; lia].
    destruct (nth_error (corner_keys (select_owners None (pinputs s))) k) as [kk|] eqn:Ek; [|apply nth_error_None in Ek; lia].
    rewrite (U j k v w kj kk Nv Nw Ej Ek). apply Keq; auto. }
  split; [intros i G; rewrite (Klen i G); auto|]. split; [exact Same|].
  exists (on_inputs (enforce (sources m2) b) (on_inputs F s)). split.
  { cbn [sets]. apply enforce_sets_nth; auto. rewrite V2. cbn [sets m1]. now apply map_nth_error. }
  split; [reflexivity|]. split; [reflexivity|]. split; [reflexivity|]. cbn [pinputs on_inputs].
  assert (Tot : b <> [] -> 0 < total). { intro N. destruct b as [|v b']; [congruence|]. assert (0 <= v < total) by (apply Cov; exists (v :: b'); split; [eapply nth_error_In; eauto | now left]). lia. }
  assert (Len : forall d, d < length (sources m) -> 0 < total -> values m2 d = fold_left (write (values m d)) (events d (sets m) buffers) (repeat zero total)).
  { intros d Hd Ht. unfold values. rewrite V1. cbn [sources m1]. rewrite map_sources_nth by auto. cbn [Nat.add]. unfold new_values. rewrite copy_sets_writes.
    destruct (fold_left (write (nth d (sources m) [])) (events d (sets m) buffers) (repeat zero total)) as [|a r] eqn:E; auto.
    exfalso. apply (f_equal (@length A)) in E. rewrite write_length, repeat_length in E. cbn in E. lia. }
  assert (Enf : b <> [] -> map source (enforce (sources m2) b (F (pinputs s))) = map source (F (pinputs s)) /\ forall i, i < length (F (pinputs s)) -> get_indices (enforce (sources m2) b (F (pinputs s))) i = b).
  { intro N. apply enforce_all; auto. intros d Id. assert (Hd : d < length (sources m)).
    { apply V4 in Id as [Id|Id]; [apply in_seq in Id; rewrite <- Ls; lia|]. apply in_map_iff in Id as (x & <- & Ix). now apply Src. }
    change (nth d (sources m2) []) with (values m2 d). rewrite (Len d Hd (Tot N)). intro E. apply (f_equal (@length A)) in E. rewrite write_length, repeat_length in E. specialize (Tot N). cbn in E. lia. }
  assert (Snil : b = [] -> enforce (sources m2) b (F (pinputs s)) = F (pinputs s)).
  { intros ->. apply enforce_nil. }
  assert (Sources : map source (enforce (sources m2) b (F (pinputs s))) = map source (F (pinputs s))).
  { destruct b as [|v b'] eqn:Eb; [now rewrite Snil | apply Enf; discriminate]. }
  split.
  { intros N i Hi. apply Enf; auto. rewrite <- (map_length source), <- Sources, map_length. exact Hi. }
  intros i x Nx. assert (Ix : In x (pinputs s)) by (eapply nth_error_In; eauto). split.
  { assert (I : In (source x) (map source (enforce (sources m2) b (F (pinputs s))))) by (rewrite Sources; apply V3; now apply (in_map source)).
    apply in_map_iff in I as (x' & Ex & Ix'). apply In_nth_error in Ix' as [i' Nx']. exists i', x'. auto. }
  intros k old new v No Nn Nv. assert (Ht : 0 < total) by (apply Tot; intros ->; destruct k; discriminate).
  change (nth_error (values m2 (source x)) new = Some v). rewrite Len by auto.
  assert (Fx := find_input_unique (pinputs s) (source x) i x Nd Nx eq_refl).
  apply write_spec with old; auto.
  - intros o' I. apply events_in in I as (p' & s' & b' & i' & k' & Ns' & Nb' & F' & Nn' & No').
    assert (p = p') by (eapply Dis; eauto using nth_error_In). subst p'. rewrite Ns in Ns'. injection Ns' as <-. rewrite Nb in Nb'. injection Nb' as <-. rewrite Fx in F'. injection F' as <-.
    assert (E : nth_error (get_indices (pinputs s) i) k = nth_error (get_indices (pinputs s) i) k').
    { apply (proj1 (Same k k' new new Nn Nn') eq_refl). apply nth_error_Some. congruence. }
    congruence.
  - apply events_in. exists p, s, b, i, k. auto 10.
  - rewrite repeat_length. assert (0 <= new < total) by (apply Cov; exists b; split; eapply nth_error_In; eauto). lia.
Qed.
Print Assumptions C34_unique_indices_partial.
Example C34_demo : let m := Mesh [[10; 11; 12; 13]; [70; 71]; [5; 6]] [0; 2]
    [PSet POLYGONS [3; 3] [] [Input 0 0 []; Input 0 2 [0; 1; 1; 0; 1; 1]; Input 1 1 [0; 1; 0; 0; 1; 1]]; PSet POLYGONS [3] [] [Input 0 0 [1; 2; 3]; Input 0 2 []]] in
  let m' := GenerateUniqueIndices 0 m in
  (forall s, In s (sets m) -> set_ok m s) /\ values m' 0 = [10; 11; 11; 11; 12; 13] /\ values m' 1 = [70; 71; 70; 0; 0; 0] /\ values m' 2 = [5; 6; 6; 6; 0; 0] /\
  map (fun s => map (fun i => get_indices (pinputs s) i) (seq 0 (length (pinputs s)))) (sets m') = [[[0; 1; 2; 0; 1; 1]; [0; 1; 2; 0; 1; 1]; [0; 1; 2; 0; 1; 1]]; [[3; 4; 5]; [3; 4; 5]; [3; 4; 5]]].
Proof.
  split; [|vm_compute; auto].
  intros s [<-|[<-|[]]]; (split; [|split]); cbn.
  - intros x y [<-|[<-|[<-|[]]]] [<-|[<-|[<-|[]]]]; cbn; congruence.
  - repeat constructor; cbn; intuition discriminate.
  - intros x [<-|[<-|[<-|[]]]]; cbn; lia.
  - intros x y [<-|[<-|[]]] [<-|[<-|[]]]; cbn; congruence.
  - repeat constructor; cbn; intuition discriminate.
  - intros x [<-|[<-|[]]]; cbn; lia.
Qed.

(** A mesh with a set of points is left unchanged. *)
Theorem C34_points_unchanged : forall A (zero : A) (m : mesh A), (exists s, In s (sets m) /\ ptype s = POINTS) -> GenerateUniqueIndices zero m = m.
Proof.
  intros A zero m (s & I & P). unfold GenerateUniqueIndices.
  assert (E : existsb is_points (sets m) = true) by (apply existsb_exists; exists s; split; auto; unfold is_points; now rewrite P). now rewrite E.
Qed.
Print Assumptions C34_points_unchanged.

(** Finding: a source used by two inputs of a set (two sets of texture coordinates in one source) is rewritten for the
    first one only; the other one finds wrong values. *)
Theorem C34_source_used_twice_refuted : ~ forall A (zero : A) (m : mesh A), (forall s, In s (sets m) -> ptype s <> POINTS) ->
  (forall s x y, In s (sets m) -> In x (pinputs s) -> In y (pinputs s) -> length (indices x) = length (indices y) /\ source x < length (sources m)) ->
  forall p s s' i x k old v, nth_error (sets m) p = Some s -> nth_error (sets (GenerateUniqueIndices zero m)) p = Some s' -> nth_error (pinputs s) i = Some x ->
    nth_error (get_indices (pinputs s) i) k = Some old -> nth_error (values m (source x)) old = Some v ->
    exists i' x' new, nth_error (pinputs s') i' = Some x' /\ source x' = source x /\ nth_error (get_indices (pinputs s') i') k = Some new /\ nth_error (values (GenerateUniqueIndices zero m) (source x')) new = Some v.
Proof.
  intro H. specialize (H nat 0 (Mesh [[10; 11]] [] [PSet POLYGONS [3] [] [Input 0 0 [0; 0; 0]; Input 1 0 [1; 1; 1]]])).
  destruct (H ltac:(intros s [<-|[]]; discriminate) ltac:(intros s x y [<-|[]] [<-|[<-|[]]] [<-|[<-|[]]]; cbn; auto) 0 _ _ 1 _ 0 1 11 eq_refl eq_refl eq_refl eq_refl eq_refl) as (i' & x' & new & Nx & Sx & Nn & Nv).
  vm_compute in Nx. destruct i' as [|[|[|i']]]; cbn in Nx; try discriminate; injection Nx as <-; vm_compute in Nn, Nv; injection Nn as <-; discriminate.
Qed.
Print Assumptions C34_source_used_twice_refuted.
