(** C31 (skin influences) and C51 (morph targets). *)
From Coq Require Import List Arith ZArith QArith Lqa Lia Permutation Sorted.
From Verif Require Import SkinModel.
Import ListNotations.

(** *** C31: specification *)
Definition heavier_first (l : list pair) : Prop := StronglySorted (fun a b => weight b <= weight a) l.
(** The sum of the weights. *)
Fixpoint weight_sum (l : list pair) : Q := match l with [] => 0 | p :: r => weight p + weight_sum r end.
(** [kept] is a best choice of at most [max] pairs of weight at least [min]: it is made of [passing] pairs, as many as
    possible, sorted, and no other passing pair is heavier. *)
Definition best (max : nat) (min : Q) (ps kept rest : list pair) : Prop :=
  Permutation (filter (fun p => qle min (weight p)) ps) (kept ++ rest) /\
  length kept = Nat.min max (length (kept ++ rest)) /\ heavier_first kept /\
  (forall k r, In k kept -> In r rest -> weight r <= weight k).

Lemma qle_spec a b : qle a b = true <-> a <= b.
Proof. unfold qle. destruct (Qlt_le_dec b a); split; try discriminate; auto. intro. lra. Qed.
Lemma qlt_spec a b : qlt a b = true <-> a < b.
Proof. unfold qlt. destruct (Qlt_le_dec a b); split; try discriminate; auto. intro. lra. Qed.
Lemma insert_perm p r : Permutation (p :: r) (insert_pair p r).
Proof.
  induction r as [|x r IH]; cbn; auto. destruct (qlt (weight p) (weight x)); auto.
  eapply perm_trans; [apply perm_swap|]. now constructor.
Qed.
Lemma insert_sorted p r : heavier_first r -> heavier_first (insert_pair p r).
Proof.
  unfold heavier_first. induction r as [|x r IH]; cbn; intro S; [repeat constructor|].
  inversion S as [|? ? S1 S2]; subst. destruct (qlt (weight p) (weight x)) eqn:E.
  - apply qlt_spec in E. constructor; auto. rewrite Forall_forall in *. intros y Hy.
    apply (Permutation_in _ (Permutation_sym (insert_perm p r))) in Hy as [<-|Hy]; [lra | auto].
  - assert (L : weight x <= weight p) by (unfold qlt in E; destruct (Qlt_le_dec (weight p) (weight x)); [discriminate | auto]).
    constructor; auto. constructor; auto. rewrite Forall_forall in *. intros y Hy. specialize (S2 y Hy). cbn in S2. lra.
Qed.
Lemma sorted_last l x : heavier_first (l ++ [x]) -> heavier_first l /\ forall y, In y l -> weight x <= weight y.
Proof.
  unfold heavier_first. induction l as [|y l IH]; cbn; intro S; [split; [constructor | intros ? []]|].
  inversion S as [|? ? S1 S2]; subst. rewrite Forall_forall in S2. destruct (IH S1) as [I1 I2]. split.
  - constructor; auto. rewrite Forall_forall. intros z Hz. apply S2. apply in_or_app. auto.
  - intros z [<-|Hz]; auto. apply S2. apply in_or_app. right. now left.
Qed.
Lemma reduce_best max min ps : forall done kept rest, best max min done kept rest ->
  exists rest', best max min (done ++ ps) (fold_left (reduce_step max min) ps kept) rest'.
Proof.
  induction ps as [|p ps IH]; cbn; intros done kept rest B; [exists rest; now rewrite app_nil_r|].
  replace (done ++ p :: ps) with ((done ++ [p]) ++ ps) by now rewrite <- app_assoc.
  destruct B as (P & L & S & F). unfold reduce_step. destruct (qle min (weight p)) eqn:Q.
  - assert (P1 : Permutation (filter (fun x => qle min (weight x)) (done ++ [p])) (insert_pair p kept ++ rest)).
    { rewrite filter_app. cbn. rewrite Q. eapply perm_trans; [apply Permutation_app_comm|]. cbn.
      eapply perm_trans; [apply perm_skip, P|]. rewrite app_comm_cons. apply Permutation_app_tail, insert_perm. }
    pose proof (Permutation_length (insert_perm p kept)) as Ln. cbn in Ln. rewrite app_length in L.
    destruct (Nat.ltb_spec max (length (insert_pair p kept))) as [Lt|Ge].
    + assert (Ne : insert_pair p kept <> []) by (intro Z; rewrite Z in Ln; discriminate).
      destruct (exists_last Ne) as (k & x & E). rewrite E in *. rewrite removelast_last.
      destruct (sorted_last k x) as [S1 S2]; [rewrite <- E; now apply insert_sorted|].
      apply (IH (done ++ [p]) k (x :: rest)). split; [|split; [|split]]; auto.
      * now rewrite <- app_assoc in P1.
      * rewrite app_length in *. cbn in *. lia.
      * intros a r Ha [<-|Hr]; auto.
        pose proof (insert_perm p kept) as IP. rewrite E in IP.
        assert (Ia : In a (p :: kept)) by (apply (Permutation_in _ (Permutation_sym IP)), in_or_app; auto).
        destruct Ia as [<-|Ia]; [|auto].
        assert (Ix : In x (p :: kept)) by (apply (Permutation_in _ (Permutation_sym IP)), in_or_app; right; now left).
        destruct Ix as [<-|Ix].
        -- assert (PK : Permutation kept (k ++ [])) by exact (Permutation_cons_app_inv k [] IP). rewrite app_nil_r in PK.
           exact (F p r (Permutation_in p (Permutation_sym PK) Ha) Hr).
        -- apply Qle_trans with (weight x); auto.
    + apply (IH (done ++ [p]) (insert_pair p kept) rest). split; [|split; [|split]]; auto.
      * rewrite app_length. lia.
      * now apply insert_sorted.
      * intros a r Ha Hr. assert (length rest <> 0)%nat by (destruct rest; [destruct Hr | discriminate]). lia.
  - apply (IH (done ++ [p]) kept rest). split; [|split; [|split]]; auto. rewrite filter_app. cbn. now rewrite Q, app_nil_r.
Qed.
Lemma total_sum l : total l == weight_sum l.
Proof.
  unfold total. assert (G : forall s, fold_left (fun s p => s + weight p) l s == s + weight_sum l).
  { induction l as [|p l IH]; cbn; intro s; [ring|]. rewrite IH. ring. }
  rewrite G. ring.
Qed.
Lemma sum_scale f l : weight_sum (map (scale f) l) == weight_sum l * f.
Proof. induction l as [|p l IH]; cbn; [ring|]. rewrite IH. ring. Qed.
Lemma filter_length_le {A} (f : A -> bool) l : (length (filter f l) <= length l)%nat.
Proof. induction l as [|x l IH]; cbn; [lia|]. destruct (f x); cbn; lia. Qed.
Lemma best_start max min : best max min [] [] [].
Proof. repeat split; cbn; auto; try constructor; try tauto. lia. Qed.

(** What one vertex gets: a best choice, either everything (then nothing changes) or with its weights multiplied by one
    factor that restores the total weight.  The result is only missing when pairs are kept but their weights add up to 0. *)
Theorem C31_reduce_vertex : forall max min ps, exists kept rest, best max min ps kept rest /\
  (length kept = length ps -> reduce_vertex max min ps = Some ps /\ Permutation ps kept) /\
  (length kept <> length ps -> kept <> [] -> ~ weight_sum kept == 0 -> exists f,
     reduce_vertex max min ps = Some (map (scale f) kept) /\ weight_sum kept * f == weight_sum ps) /\
  (length kept <> length ps -> kept = [] -> reduce_vertex max min ps = Some []) /\
  (length kept <> length ps -> kept <> [] -> weight_sum kept == 0 -> reduce_vertex max min ps = None).
Proof.
  intros max min ps. destruct (reduce_best max min ps [] [] [] (best_start max min)) as (rest & B). cbn [app] in B.
  set (kept := fold_left (reduce_step max min) ps []) in *. exists kept, rest. split; auto. pose proof B as (P & L & S & F).
  assert (Le : (length kept + length rest <= length ps)%nat).
  { apply Permutation_length in P. rewrite app_length in P. rewrite <- P. apply filter_length_le. }
  unfold reduce_vertex. fold kept. split; [|split; [|split]].
  - intro E. destruct (Nat.ltb_spec (length kept) (length ps)); [lia|]. split; auto.
    assert (rest = []) by (destruct rest; [auto | cbn in Le; lia]). subst rest. rewrite app_nil_r in P.
    assert (Fl : filter (fun p => qle min (weight p)) ps = ps).
    { apply Permutation_length in P. rewrite E in P. clear - P. revert P. induction ps as [|p ps IH]; cbn; auto.
      destruct (qle min (weight p)); cbn; intro H; [f_equal; auto|]. pose proof (filter_length_le (fun p => qle min (weight p)) ps). lia. }
    now rewrite Fl in P.
  - intros E Ne N0. destruct (Nat.ltb_spec (length kept) (length ps)); [|lia]. destruct kept as [|k0 k]; [congruence|].
    destruct (Qeq_dec (total (k0 :: k)) 0) as [Z|Z]; [rewrite total_sum in Z; contradiction|].
    eexists. split; [reflexivity|]. rewrite <- !total_sum. field. exact Z.
  - intros E ->. destruct (Nat.ltb_spec (@length pair []) (length ps)); [reflexivity | cbn in *; lia].
  - intros E Ne N0. destruct (Nat.ltb_spec (length kept) (length ps)); [|lia]. destruct kept as [|k0 k]; [congruence|].
    destruct (Qeq_dec (total (k0 :: k)) 0) as [Z|Z]; [auto | rewrite total_sum in Z; contradiction].
Qed.
Print Assumptions C31_reduce_vertex.
Example C31_demo : exists r, reduce_vertex 2 (1#10) [Pair 1 (2#10); Pair 2 (5#10); Pair 3 (5#100); Pair 4 (25#100)] = Some r /\
  map joint r = [2; 4]%Z /\ weight_sum r == 1.
Proof. eexists. split; [vm_compute; reflexivity|]. split; reflexivity. Qed.

(** The statement of C31 for one vertex.  Missing from the full statement: vertices where nothing is kept or the kept
    weights add up to 0, for which the total is lost (see the refutation). *)
Theorem C31_reduce_partial : forall max min ps r, reduce_vertex max min ps = Some r ->
  ((length r <= max)%nat \/ r = ps /\ (length ps <= max)%nat) /\
  (r <> [] -> weight_sum r == weight_sum ps) /\
  (forall p, In p r -> exists q, In q ps /\ joint q = joint p /\ min <= weight q).
Proof.
  intros max min ps r R. destruct (C31_reduce_vertex max min ps) as (kept & rest & (P & L & S & F) & A & B & C & D).
  assert (Lm : (length kept <= max)%nat) by lia.
  assert (Ik : forall q, In q kept -> In q ps /\ min <= weight q).
  { intros q Hq. assert (I : In q (kept ++ rest)) by (apply in_or_app; auto).
    apply (Permutation_in _ (Permutation_sym P)) in I. apply filter_In in I as [I1 I2]. now apply qle_spec in I2. }
  destruct (Nat.eq_dec (length kept) (length ps)) as [E|E].
  - destruct (A E) as [A1 A2]. rewrite A1 in R. injection R as <-. split; [right; split; auto; lia|]. split; [reflexivity|].
    intros p Hp. exists p. apply (Permutation_in _ A2) in Hp as Hk. destruct (Ik p Hk). auto.
  - destruct kept as [|k0 k] eqn:K.
    + rewrite (C E eq_refl) in R. injection R as <-. split; [left; cbn; lia|]. split; [congruence | intros ? []].
    + destruct (Qeq_dec (weight_sum (k0 :: k)) 0) as [Z|Z].
      * rewrite D in R; auto; discriminate.
      * destruct B as (f & B1 & B2); auto; [discriminate|]. rewrite B1 in R. injection R as <-. split; [left|split].
        -- cbn in *. now rewrite map_length.
        -- intros _. change (scale f k0 :: map (scale f) k) with (map (scale f) (k0 :: k)). now rewrite sum_scale.
        -- intros p Hp. change (In p (map (scale f) (k0 :: k))) in Hp. apply in_map_iff in Hp as (q & <- & Hq). exists q. destruct (Ik q Hq). auto.
Qed.
Print Assumptions C31_reduce_partial.
(** All vertices of the controller. *)
Theorem C31_all_vertices : forall max min vs rs, ReduceInfluences max min vs = Some rs ->
  Forall2 (fun v r => reduce_vertex max min v = Some r) vs rs.
Proof.
  intros max min. induction vs as [|v vs IH]; cbn; intros rs R; [injection R as <-; constructor|].
  destruct (reduce_vertex max min v) eqn:E; [|discriminate]. destruct (ReduceInfluences max min vs); [|discriminate].
  injection R as <-. constructor; auto.
Qed.
Print Assumptions C31_all_vertices.
Example C31_all_demo : exists rs, ReduceInfluences 1 0 [[Pair 1 1]; [Pair 1 (1#4); Pair 2 (3#4)]] = Some rs /\ map (map joint) rs = [[1]; [2]]%Z.
Proof. eexists. split; [vm_compute; reflexivity | reflexivity]. Qed.

(** Refutation 1: when no influence reaches the minimum (or max is 0) the vertex loses all its weight. *)
Theorem C31_nothing_kept_refuted : forall max min ps, max = 0%nat \/ (forall p, In p ps -> weight p < min) ->
  reduce_vertex max min ps = Some [].
Proof.
  intros max min ps H. destruct (C31_reduce_vertex max min ps) as (kept & rest & (P & L & S & F) & A & B & C & D).
  assert (K : kept = []).
  { destruct H as [->|H]; [destruct kept; [auto | cbn in L; lia]|]. destruct kept as [|k0 k]; auto. exfalso.
    assert (I : In k0 ((k0 :: k) ++ rest)) by now left. apply (Permutation_in _ (Permutation_sym P)) in I. apply filter_In in I as [I1 I2].
    apply qle_spec in I2. specialize (H k0 I1). lra. }
  destruct (Nat.eq_dec (length kept) (length ps)) as [E|E]; [|auto]. destruct (A E) as [A1 A2]. rewrite A1. subst kept.
  apply Permutation_sym, Permutation_nil in A2. now subst.
Qed.
Print Assumptions C31_nothing_kept_refuted.
Example C31_nothing_kept_demo : reduce_vertex 4 (1#2) [Pair 1 (1#3); Pair 2 (1#3); Pair 3 (1#3)] = Some [].
Proof. reflexivity. Qed.
(** Refutation 2: when the kept weights add up to 0 the new weights are 0 / 0, also with the default minimum 0. *)
Theorem C31_zero_total_refuted : reduce_vertex 1 0 [Pair 1 0; Pair 2 0] = None /\
  reduce_vertex 2 (-1) [Pair 1 1; Pair 2 (-1); Pair 3 (-1)] = None.
Proof. split; reflexivity. Qed.
Print Assumptions C31_zero_total_refuted.

(** *** C51 *)
(** The kind (true for a spline) and the number of vertices of an entity. *)
Definition vertices (s : shape) : option (bool * nat) :=
  match s with Mesh (Some n) => Some (false, n) | Mesh None => Some (false, 0%nat) | Spline n => Some (true, n) | _ => None end.
Definition fits (shape_of : nat -> shape) (b : nat) (t : option nat) : Prop :=
  match t with None => True | Some g => vertices (shape_of g) <> None /\ vertices (shape_of g) = vertices (shape_of b) end.
Inductive mop := MBase (e : option nat) | MAdd (g : option nat) | MSet (i : nat) (g : option nat) | MRelease (g : nat).
Definition mstep (shape_of : nat -> shape) (m : morph) (x : mop) : option morph :=
  match x with
  | MBase e => Some (SetBaseTarget shape_of m e)
  | MAdd g => option_map fst (AddTarget shape_of m g)
  | MSet i g => SetGeometry shape_of m i g
  | MRelease g => Some (release_entity m g)
  end.
Fixpoint mrun (shape_of : nat -> shape) (m : morph) (l : list mop) : option morph :=
  match l with [] => Some m | x :: r => match mstep shape_of m x with None => None | Some m1 => mrun shape_of m1 r end end.

Definition minv (shape_of : nat -> shape) (m : morph) : Prop :=
  match base m with Some b => forall t, In t (targets m) -> fits shape_of b t | None => True end.
Lemma similar_fits shape_of m b t : base m = Some b -> IsSimilar shape_of m t = true -> fits shape_of b t.
Proof.
  unfold IsSimilar. intros ->. destruct t as [g|]; [|discriminate]. unfold fits, vertices.
  destruct (shape_of b) as [[k|]|k| |]; destruct (shape_of g) as [[n|]|n| |]; try discriminate; intro H; apply Nat.eqb_eq in H; subst; split; congruence.
Qed.
Lemma set_target_In l : forall i g t, In t (set_target l i g) -> t = g \/ In t l.
Proof. induction l as [|x l IH]; intros [|i] g t; cbn; auto; intros [H|H]; auto. apply IH in H as [|]; auto. Qed.
Lemma release_inv shape_of m g : minv shape_of m -> minv shape_of (release_entity m g).
Proof.
  unfold minv. cbn. destruct (base m) as [b|]; auto. intro H. destruct (Nat.eqb b g); auto. intros t Ht.
  apply in_map_iff in Ht as (x & <- & Hx). specialize (H x Hx). destruct x as [x|]; cbn; auto. destruct (Nat.eqb x g); cbn; auto.
Qed.
Lemma SetGeometry_inv shape_of m i g m' : minv shape_of m -> SetGeometry shape_of m i g = Some m' -> minv shape_of m'.
Proof.
  intros I. unfold SetGeometry. destruct (nth_error (targets m) i) as [old|]; [|discriminate].
  set (m1 := match old with Some o => _ | None => _ end).
  assert (I1 : minv shape_of m1) by (subst m1; destruct old as [o|]; [destruct (Nat.eqb _ 1); [now apply release_inv | auto] | auto]).
  clearbody m1. destruct g as [x|].
  - destruct (present m1 x); [|discriminate]. unfold minv in *. destruct (base m1) as [b|] eqn:B.
    + destruct (IsSimilar shape_of m1 (Some x)) eqn:S; intros [= <-]; cbn; [|rewrite B; exact I1]. intros t Ht.
      apply set_target_In in Ht as [->|Ht]; [now apply (similar_fits shape_of m1) | auto].
    + intros [= <-]. exact Logic.I.
  - unfold minv in *. destruct (base m1) eqn:B; intros [= <-]; cbn; [rewrite B; exact I1 | exact Logic.I].
Qed.
Lemma mstep_inv shape_of m x m' : minv shape_of m -> mstep shape_of m x = Some m' -> minv shape_of m'.
Proof.
  intros I. destruct x as [e|g|i g|g]; cbn.
  - intros [= <-]. unfold minv, SetBaseTarget. destruct e as [b|]; [|exact Logic.I].
    assert (G : forall t, In t (filter (IsSimilar shape_of (Morph (Some b) (targets m) (present m) (other m))) (targets m)) -> fits shape_of b t).
    { intros t Ht. apply filter_In in Ht as [_ H]. eapply similar_fits; [|exact H]. reflexivity. }
    destruct (shape_of b); cbn; auto.
  - unfold AddTarget. destruct (match g with Some x => present m x | None => true end); [|discriminate].
    destruct (match base m with None => true | Some _ => IsSimilar shape_of m g end); [|intros [= <-]; auto].
    destruct (SetGeometry _ _ _ _) as [m2|] eqn:S; [|discriminate]. intros [= <-]. eapply SetGeometry_inv; [|exact S].
    unfold minv in *. cbn. destruct (base m); auto. intros t Ht. apply in_app_iff in Ht as [Ht|[<-|[]]]; [auto | exact Logic.I].
  - apply SetGeometry_inv; auto.
  - intros [= <-]. now apply release_inv.
Qed.
(** Missing from the full statement: SetGeometry with the geometry the target already has (refuted below).  As long as no
    call uses a released geometry, every target fits the base after every history. *)
Theorem C51_targets_fit_partial : forall shape_of present other l m,
  mrun shape_of (Morph None [] present other) l = Some m ->
  forall b, base m = Some b -> forall t, In t (targets m) -> fits shape_of b t.
Proof.
  intros shape_of pr ot l m R. assert (I : minv shape_of m).
  { assert (G : forall m0, minv shape_of m0 -> mrun shape_of m0 l = Some m -> minv shape_of m).
    { clear R. induction l as [|x l IH]; cbn; intros m0 I R; [now injection R as <-|].
      destruct (mstep shape_of m0 x) as [m1|] eqn:S; [|discriminate]. eapply IH; [|exact R]. eapply mstep_inv; eauto. }
    eapply G; [|exact R]. exact Logic.I. }
  intros b B. unfold minv in I. rewrite B in I. exact I.
Qed.
Print Assumptions C51_targets_fit_partial.
(** No call fails when the entities it names exist and a target is not given the geometry it has. *)
Theorem C51_calls_succeed_partial : forall shape_of m x,
  match x with
  | MBase _ | MRelease _ => True
  | MAdd g => match g with Some e => present m e = true | None => True end
  | MSet i g => (i < length (targets m))%nat /\ nth_error (targets m) i <> Some g /\
                match g with Some e => present m e = true | None => True end
  end -> mstep shape_of m x <> None.
Proof.
  intros shape_of m x H.
  assert (SG : forall m i g, (i < length (targets m))%nat -> (g = None \/ nth_error (targets m) i <> Some g) ->
     match g with Some e => present m e = true | None => True end -> SetGeometry shape_of m i g <> None).
  { clear. intros m i g L D P. unfold SetGeometry. destruct (nth_error (targets m) i) as [old|] eqn:N; [|apply nth_error_None in N; lia].
    set (m1 := match old with Some o => _ | None => _ end).
    destruct g as [e|]; [|destruct (base m1); discriminate].
    assert (P1 : present m1 e = true).
    { subst m1. destruct old as [o|]; auto. destruct (Nat.eqb _ 1); auto. cbn. destruct (Nat.eqb_spec e o); auto. subst. destruct D; congruence. }
    rewrite P1. destruct (base m1); [destruct (IsSimilar shape_of m1 (Some e)) |]; discriminate. }
  destruct x as [e|g|i g|g]; cbn; try discriminate.
  - unfold AddTarget. assert (P : match g with Some x => present m x | None => true end = true) by (destruct g; auto). rewrite P.
    destruct (match base m with None => true | Some _ => IsSimilar shape_of m g end); [|discriminate].
    match goal with |- context [SetGeometry ?a ?b ?c ?d] => specialize (SG b c d); destruct (SetGeometry a b c d) end; [discriminate|].
    exfalso. apply SG; auto; cbn.
    + rewrite app_length. cbn. lia.
    + destruct g; [right | now left]. rewrite nth_error_app2, Nat.sub_diag by lia. cbn. congruence.
  - destruct H as (H1 & H2 & H3). apply SG; auto.
Qed.
Print Assumptions C51_calls_succeed_partial.
Definition C51_shapes (x : nat) : shape := match x with 0%nat => Mesh (Some 8%nat) | 1%nat => Mesh (Some 8%nat) | 2%nat => Mesh (Some 5%nat) | 3%nat => Spline 8 | _ => NotGeometry end.
Example C51_demo : exists m, mrun C51_shapes (Morph None [] (fun _ => true) (fun _ => 1%nat))
    [MAdd (Some 1%nat); MAdd (Some 2%nat); MAdd None; MBase (Some 0%nat); MAdd (Some 3%nat); MAdd (Some 0%nat); MSet 0 (Some 2%nat); MRelease 0%nat; MBase (Some 1%nat)] = Some m /\
  base m = Some 1%nat /\ targets m = [Some 1%nat].
Proof. eexists. split; [vm_compute; reflexivity|]. split; reflexivity. Qed.
(** Refutation: giving a target its own geometry, when nothing else tracks that geometry, releases the geometry and then
    uses it. *)
Theorem C51_same_geometry_refuted : forall shape_of m i g, nth_error (targets m) i = Some (Some g) ->
  tracker_count m g = 1%nat -> SetGeometry shape_of m i (Some g) = None.
Proof.
  intros shape_of m i g N T. unfold SetGeometry. rewrite N, T. cbn [Nat.eqb]. unfold release_entity at 1. cbn [present]. now rewrite Nat.eqb_refl.
Qed.
Print Assumptions C51_same_geometry_refuted.
Example C51_same_geometry_demo : match mrun C51_shapes (Morph None [] (fun _ => true) (fun _ => 0%nat)) [MBase (Some 0%nat); MAdd (Some 1%nat)] with
  | Some m => targets m = [Some 1%nat] /\ tracker_count m 1 = 1%nat /\ SetGeometry C51_shapes m 0 (Some 1%nat) = None | None => False end.
Proof. repeat split. Qed.
(** A rejected geometry costs the target its old one when nothing else tracks that. *)
Theorem C51_rejected_geometry_loses_old : exists m m', 
  mrun C51_shapes (Morph None [] (fun _ => true) (fun _ => 0%nat)) [MBase (Some 0%nat); MAdd (Some 1%nat)] = Some m /\ targets m = [Some 1%nat] /\
  SetGeometry C51_shapes m 0 (Some 2%nat) = Some m' /\ targets m' = [None] /\ present m' 1 = false.
Proof. do 2 eexists. split; [vm_compute; reflexivity|]. split; [reflexivity|]. split; [vm_compute; reflexivity|]. split; reflexivity. Qed.
Print Assumptions C51_rejected_geometry_loses_old.
