(** Proofs for C26, C65, C66. *)
From Coq Require Import List Reals Lra Psatz.
From Verif Require Import SphereModel.
Import ListNotations.
Local Open Scope R_scope.

Definition dot (a b : vec) : R := px a * px b + py a * py b + pz a * pz b.
Lemma dot_add : forall a b, dot (add a b) (add a b) = dot a a + 2 * dot a b + dot b b.
Proof. intros [a1 a2 a3] [b1 b2 b3]. unfold dot, add; cbn [px py pz]. ring. Qed.
Lemma dot_scale : forall k a, dot (scale k a) (scale k a) = k * k * dot a a.
Proof. intros k [a1 a2 a3]. unfold dot, scale; cbn [px py pz]. ring. Qed.
Lemma length_squared : forall a, LengthSquared a = dot a a. Proof. reflexivity. Qed.
Lemma dot_pos : forall a, 0 <= dot a a.
Proof. intros [x y z]. unfold dot; cbn [px py pz]. nra. Qed.
Lemma length_pos : forall a, 0 <= Length a. Proof. intro. apply sqrt_pos. Qed.
Lemma length_sq : forall a, Length a * Length a = dot a a.
Proof. intro a. unfold Length. apply sqrt_sqrt. apply dot_pos. Qed.
Lemma cauchy : forall a b, dot a b <= Length a * Length b.
Proof.
  intros a b. pose proof (length_pos a). pose proof (length_pos b).
  destruct (Rle_dec (dot a b) 0); [nra|].
  apply Rsqr_incr_0_var; [|nra]. unfold Rsqr.
  replace (Length a * Length b * (Length a * Length b)) with (dot a a * dot b b) by (rewrite <- !length_sq; ring).
  destruct a as [a1 a2 a3], b as [b1 b2 b3]. unfold dot; cbn [px py pz].
  assert (0 <= (a1 * b2 - a2 * b1) * (a1 * b2 - a2 * b1) + (a2 * b3 - a3 * b2) * (a2 * b3 - a3 * b2) + (a3 * b1 - a1 * b3) * (a3 * b1 - a1 * b3)).
  { apply Rplus_le_le_0_compat; [apply Rplus_le_le_0_compat|]; apply Rle_0_sqr. }
  lra.
Qed.
(** Comparing a length with a non-negative number. *)
Lemma length_le : forall a r, 0 <= r -> (dot a a <= r * r <-> Length a <= r).
Proof.
  intros a r Hr. rewrite <- length_sq. pose proof (length_pos a). split; intro; [|nra].
  destruct (Rle_dec (Length a) r); [assumption|]. nra.
Qed.
Lemma length_lt : forall a r, 0 <= r -> (dot a a < r * r <-> Length a < r).
Proof.
  intros a r Hr. rewrite <- length_sq. pose proof (length_pos a). split; intro; [|nra].
  destruct (Rlt_dec (Length a) r); [assumption|]. nra.
Qed.
Lemma triangle : forall a b, Length (add a b) <= Length a + Length b.
Proof.
  intros a b. pose proof (length_pos a). pose proof (length_pos b). apply length_le; [lra|].
  pose proof (cauchy a b). pose proof (length_sq a). pose proof (length_sq b).
  rewrite dot_add.
  nra.
Qed.
Lemma length_scale : forall k a, 0 <= k -> Length (scale k a) = k * Length a.
Proof.
  intros k a Hk. pose proof (length_pos a). pose proof (length_pos (scale k a)).
  apply Rle_antisym.
  - apply length_le; [nra|]. rewrite dot_scale.
    rewrite <- length_sq. nra.
  - destruct (Rle_dec (k * Length a) (Length (scale k a))); [assumption|].
    assert (dot (scale k a) (scale k a) = k * k * dot a a) by apply dot_scale.
    rewrite <- !length_sq in H1. nra.
Qed.
Lemma length_sub_sym : forall a b, Length (sub a b) = Length (sub b a).
Proof. intros [a1 a2 a3] [b1 b2 b3]. unfold Length, sub; cbn [px py pz]. f_equal. ring. Qed.
(** A unit vector pointing from [a] to [b]. *)
Lemma direction : forall a b, exists u, dot u u = 1 /\ sub b a = scale (Length (sub b a)) u.
Proof.
  intros a b. pose proof (length_pos (sub b a)). pose proof (length_sq (sub b a)).
  destruct (Req_dec (Length (sub b a)) 0) as [E|E].
  - exists (V 1 0 0). split; [unfold dot; cbn [px py pz]; ring|]. rewrite E in *.
    destruct (sub b a) as [x y z]. unfold dot, scale in *. cbn [px py pz] in *.
    assert (x = 0 /\ y = 0 /\ z = 0) as (-> & -> & ->) by (repeat split; nra). f_equal; ring.
  - exists (scale (/ Length (sub b a)) (sub b a)). split.
    + rewrite dot_scale, <- H0. field. exact E.
    + destruct (sub b a) as [x y z]. unfold scale. cbn [px py pz]. f_equal; field; exact E.
Qed.
