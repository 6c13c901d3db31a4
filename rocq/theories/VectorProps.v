(** Properties C05, C06, C55, C56 of [fm::vector]. *)
From Coq Require Import List Arith Bool Lia.
From Verif Require Import VectorModel VectorSpec VectorProofs.
Import ListNotations.

(** C05: for every history of calls inside their preconditions the run has no undefined behaviour,
    the elements are those of the list the calls denote, every one of them is initialized, and the
    size never exceeds the capacity. *)
Theorem C05_vector_is_list :
  forall (T : Type) (ops : list (op T)) (l : list T), meanings [] ops = Some l ->
  exists v, run empty_vec ops = Some v /\ contents v = map Some l /\ sized v = length l /\
            sized v <= capacity v.
Proof. exact @vector_is_list. Qed.
Print Assumptions C05_vector_is_list.

Example C05_demo :
  meanings [] [Push 1; Push 2; Push 3; Insert 1 9; InsertN 0 3 7; EraseRange 1 3; Erase 0; Pop;
               Resize 5 8; InsertRange 2 [4; 4]; Set_ 0 6; Reserve 20; Push 5]
  = Some [6; 9; 4; 4; 2; 8; 8; 5].
Proof. reflexivity. Qed.
Example C05_demo_run : exists v,
  run empty_vec [Push 1; Push 2; Push 3; Insert 1 9; InsertN 0 3 7; EraseRange 1 3; Erase 0; Pop;
               Resize 5 8; InsertRange 2 [4; 4]; Set_ 0 6; Reserve 20; Push 5] = Some v /\
  contents v = map Some [6; 9; 4; 4; 2; 8; 8; 5] /\ sized v = 8 /\ sized v <= capacity v.
Proof. apply (C05_vector_is_list nat). reflexivity. Qed.

(** C06 (full statement, refuted): "inserting one of the vector's own elements inserts the value the
    element had before the call".  A full vector reads its released buffer; a vector with room inserts
    the element's neighbour when the source lies at or after the insertion point. *)
Definition C06_statement : Prop :=
  forall (v : vec nat) (l : list nat) i j x, contents v = map Some l ->
    i <= length l -> nth_error l j = Some x ->
    exists v', insert_ref v i (Own j) = Some v' /\
               contents v' = map Some (firstn i l ++ x :: skipn i l).

Theorem C06_self_insert_refuted :
  ~ C06_statement /\
  (* push_back(v[0]) on a full vector built by one push *)
  (exists v : vec nat, run empty_vec [Push 10] = Some v /\
     insert_ref v (sized v) (Own 0) = None) /\
  (* insert(begin, v[1]) with spare capacity stores v[0] *)
  (exists v v' : vec nat, run empty_vec [Push 10; Push 20] = Some v /\ sized v < capacity v /\
     insert_ref v 0 (Own 1) = Some v' /\ contents v' = map Some [10; 10; 20]).
Proof.
  split; [|split].
  - intro H. destruct (H {| buf := [Some 10]; sized := 1 |} [10] 1 0 10 eq_refl) as (v' & E & _);
      [cbn; lia|reflexivity|discriminate E].
  - exists {| buf := [Some 10]; sized := 1 |}. split; reflexivity.
  - exists {| buf := [Some 10; Some 20; None]; sized := 2 |},
           {| buf := [Some 10; Some 10; Some 20]; sized := 3 |}.
    split; [reflexivity|]. split; [cbn; lia|]. split; reflexivity.
Qed.
Print Assumptions C06_self_insert_refuted.

(** What does hold, after any history: with spare capacity, inserting an element that precedes the
    insertion point (in particular appending any own element) is right; without spare capacity it is
    always a read of released memory. Missing from the full claim: the full vector, and sources at or
    after the insertion point (both refuted above). *)
Theorem C06_self_insert_partial :
  forall (T : Type) (ops : list (op T)) (l : list T) v i j,
  meanings [] ops = Some l -> run empty_vec ops = Some v -> i <= length l -> j < length l ->
  (sized v = capacity v -> insert_ref v i (Own j) = None) /\
  (sized v < capacity v -> j < i -> forall x, nth_error l j = Some x ->
   exists v', insert_ref v i (Own j) = Some v' /\
              contents v' = map Some (firstn i l ++ x :: skipn i l)).
Proof.
  intros T ops l v i j Hm Hrun Hi Hj.
  destruct (run_rep ops empty_vec [] l rep_empty Hm) as (v0 & E & R).
  rewrite E in Hrun. injection Hrun as ->.
  assert (Hs : sized v = length l) by (destruct R as (? & _ & Hs); exact Hs).
  split.
  - intro H. apply (insert_own_full v l); auto. congruence.
  - intros Hc Hji x Hx. destruct (insert_own_rep v l i j x R) as (v' & E' & R'); auto; [lia|].
    exists v'. split; [exact E'|]. apply rep_contents in R'. apply R'.
Qed.
Print Assumptions C06_self_insert_partial.

Example C06_demo :
  let ops := [Push 1; Push 2; Push 3; Push 4] in
  exists v v', meanings [] ops = Some [1; 2; 3; 4] /\ run empty_vec ops = Some v /\
    sized v < capacity v /\ insert_ref v 2 (Own 1) = Some v' /\
    contents v' = map Some [1; 2; 2; 3; 4].
Proof.
  exists {| buf := map Some [1; 2; 3; 4] ++ [None; None; None]; sized := 4 |},
         {| buf := map Some [1; 2; 2; 3; 4] ++ [None; None]; sized := 5 |}.
  vm_compute. repeat split; repeat constructor.
Qed.

(** C55 (full statement, refuted): "destroying a vector destroys every element copy it ever made".
    After two or more appends of a type with a destructor, some copy is never destroyed. *)
Theorem C55_element_lifetimes_balanced_refuted :
  forall n, 2 <= n -> 1 <= lf_leaked (Nat.iter n lf_push_back lf_empty).
Proof. exact lf_leaks. Qed.
Print Assumptions C55_element_lifetimes_balanced_refuted.
Example C55_demo : lf_leaked (Nat.iter 100 lf_push_back lf_empty) = 215.
Proof. vm_compute. reflexivity. Qed.

(** What does hold: no growth, no leak.  After reserving room for [n] elements, up to [n] appends
    leave exactly one live copy per element. Missing: any history in which the buffer grows. *)
Theorem C55_element_lifetimes_balanced_partial : forall n k, k <= n ->
  let s := Nat.iter k lf_push_back (lf_reserve lf_empty n) in
  lf_leaked s = 0 /\ lf_alive s = k /\ lf_size s = k.
Proof.
  intros n k Hk. cbn zeta.
  assert (H : lf_size (Nat.iter k lf_push_back (lf_reserve lf_empty n)) = k /\
              lf_alive (Nat.iter k lf_push_back (lf_reserve lf_empty n)) = k /\
              lf_cap (Nat.iter k lf_push_back (lf_reserve lf_empty n)) = n).
  { induction k as [|k IH].
    - unfold lf_reserve, lf_empty. cbn [lf_cap lf_size lf_alive Nat.iter].
      destruct n; cbn; auto.
    - change (Nat.iter (S k) lf_push_back (lf_reserve lf_empty n))
        with (lf_push_back (Nat.iter k lf_push_back (lf_reserve lf_empty n))).
      destruct IH as (I1 & I2 & I3); [lia|].
      revert I1 I2 I3. generalize (Nat.iter k lf_push_back (lf_reserve lf_empty n)).
      intros s I1 I2 I3. unfold lf_push_back. rewrite I1, I3.
      rewrite (proj2 (Nat.eqb_neq _ _)) by lia. cbn [lf_size lf_alive lf_cap]. lia. }
  unfold lf_leaked. lia.
Qed.
Print Assumptions C55_element_lifetimes_balanced_partial.
Example C55_demo_partial : lf_leaked (Nat.iter 100 lf_push_back (lf_reserve lf_empty 100)) = 0.
Proof. vm_compute. reflexivity. Qed.

(** C56 (full statement, refuted): "appending n elements makes a number of element copies bounded by a
    constant times n".  Growth is by 32 elements, so no constant works. *)
Theorem C56_append_linear_refuted :
  forall (T : Type) (x : T) (c : nat), exists n v cost,
    push_all empty_vec (repeat x n) = Some (v, cost) /\ c * n < cost.
Proof. exact @push_quadratic. Qed.
Print Assumptions C56_append_linear_refuted.
Example C56_demo : option_map snd (push_all empty_vec (repeat true 300)) = Some 1457.
Proof. vm_compute. reflexivity. Qed.
