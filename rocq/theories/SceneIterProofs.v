(** Iteration over scene graphs: proofs. *)
From Coq Require Import List Arith Bool Lia Relations Permutation.
From Verif Require Import SceneModel SceneSpec.
Import ListNotations.

Lemma nodes_of_flat l : nodes_of l = flat_map (fun o => match o with Some i => [i] | None => [] end) l.
Proof. induction l as [|[i|] l IH]; cbn; now rewrite ?IH. Qed.
Lemma under_pure g n : under g true n = filter (first_parent g n) (chi g n).
Proof. reflexivity. Qed.
Lemma under_all g n : under g false n = chi g n ++ nodes_of (ins g n).
Proof. unfold under. now rewrite nodes_of_flat. Qed.
Lemma tree_ind' (P : tree -> Prop) : (forall n ts, Forall P ts -> P (Node n ts)) -> forall t, P t.
Proof. intro H. fix F 1. intros [n ts]. apply H. induction ts as [|t ts IH]; constructor; auto. Qed.
Lemma unfolds_root g pure n t : unfolds g pure n t -> root t = n.
Proof. now inversion 1. Qed.
Lemma unfolds_below g pure n ts m : unfolds g pure n (Node m ts) -> m = n /\ Forall2 (unfolds g pure) (under g pure n) ts.
Proof. inversion 1; subst; auto. Qed.
Lemma unfolds_exists g pure : forall n, Acc (fun c p => In c (under g pure p)) n -> exists t, unfolds g pure n t.
Proof.
  induction 1 as [n _ IH]. assert (L : forall l, incl l (under g pure n) -> exists ts, Forall2 (unfolds g pure) l ts).
  { induction l as [|c l IHl]; intro I; [exists []; constructor|]. destruct (IH c (I c (or_introl eq_refl))) as [t Ht]. destruct IHl as [ts Hts]; [intros x Hx; apply I; now right|]. exists (t :: ts). now constructor. }
  destruct (L (under g pure n)) as [ts H]; [intros x; auto|]. exists (Node n ts). now constructor.
Qed.
Lemma roots_eq g pure l ts : Forall2 (unfolds g pure) l ts -> map root ts = l.
Proof. induction 1 as [|n t l ts H F IH]; cbn; auto. now rewrite IH, (unfolds_root _ _ _ _ H). Qed.

(** *** Breadth first *)
Fixpoint size (t : tree) : nat := match t with Node _ ts => S (list_sum (map size ts)) end.
Definition weight (ts : list tree) : nat := list_sum (map size ts).
Lemma weight_app a b : weight (a ++ b) = weight a + weight b.
Proof. unfold weight. now rewrite map_app, list_sum_app. Qed.
Definition tall (ts : list tree) : nat := list_max (map height ts).
Lemma tall_app a b : tall (a ++ b) = Nat.max (tall a) (tall b).
Proof. unfold tall. now rewrite map_app, list_max_app. Qed.
Lemma tall_cons n us ts : tall (Node n us :: ts) = Nat.max (S (tall us)) (tall ts).
Proof. reflexivity. Qed.
Lemma tall_below ts : tall (flat_map below ts) <= pred (tall ts).
Proof. induction ts as [|[n us] ts IH]; [cbn; lia|]. cbn [flat_map below]. rewrite tall_app, tall_cons. lia. Qed.
Lemma weight_cons n us ts : weight (Node n us :: ts) = S (weight us) + weight ts.
Proof. reflexivity. Qed.
Lemma levels_nil d : levels d [] = [].
Proof. induction d; cbn; auto. Qed.
Lemma levels_more : forall d e ts, tall ts <= d -> levels (d + e) ts = levels d ts.
Proof.
  induction d as [|d IH]; intros e ts H.
  - destruct ts as [|[n us] ts]; [|rewrite tall_cons in H; lia]. cbn. induction e; cbn; auto.
  - cbn. f_equal. apply IH. pose proof (tall_below ts). lia.
Qed.
Lemma breadth_spec g pure : forall m ts1 ts2 before d, 2 * (weight ts1 + weight ts2) + (match ts1 with [] => 1 | _ => 0 end) <= m ->
  Forall (fun t => unfolds g pure (root t) t) (ts1 ++ ts2) -> tall (ts2 ++ flat_map below ts1) <= d ->
  exists k, forall fuel, k <= fuel -> breadth fuel g pure (before ++ map root (ts1 ++ ts2)) (length before) = Done (before ++ map root ts1 ++ levels d (ts2 ++ flat_map below ts1)).
Proof.
  induction m as [|m IH]; intros ts1 ts2 before d Hm F Hd.
  - destruct ts1 as [|[n us] ts1]; [lia | rewrite weight_cons in Hm; lia].
  - destruct ts1 as [|[n us] ts1].
    + destruct ts2 as [|t2 ts2].
      * exists 1. intros [|f] Hf; [lia|]. cbn [map app flat_map breadth]. rewrite !app_nil_r. replace (nth_error before (length before)) with (@None nat) by (symmetry; now apply nth_error_None).
        rewrite levels_nil, app_nil_r. reflexivity.
      * destruct d as [|d]; [destruct t2 as [n us]; cbn [flat_map] in Hd; rewrite app_nil_r, tall_cons in Hd; lia|].
        destruct (IH (t2 :: ts2) [] before d) as [k K].
        { change (weight []) with 0 in *. lia. } { now rewrite app_nil_r. }
        { cbn [app]. cbn [flat_map] in Hd. rewrite app_nil_r in Hd. pose proof (tall_below (t2 :: ts2)). cbn [flat_map] in *. lia. }
        exists k. intros fuel Hf. specialize (K fuel Hf). rewrite app_nil_r in K. cbn [app map]. cbn [app map] in K. rewrite K. cbn [levels flat_map app map]. rewrite app_nil_r. reflexivity.
    + cbn [app] in F. inversion F as [|? ? Fn Fr]; subst. cbn [root] in Fn. apply unfolds_below in Fn as [_ Fu].
      destruct (IH ts1 (ts2 ++ us) (before ++ [n]) d) as [k K].
      { rewrite weight_app. rewrite weight_cons in Hm. destruct ts1; lia. }
      { rewrite app_assoc. apply Forall_app. split; auto. clear - Fu. revert Fu. generalize (under g pure n). intro l. induction 1 as [|c t l ts H Ft IHt]; constructor; auto. now rewrite (unfolds_root _ _ _ _ H). }
      { rewrite <- app_assoc. rewrite !tall_app in *. cbn [flat_map below] in Hd. rewrite tall_app in Hd. lia. }
      exists (S k). intros [|f] Hf; [lia|]. cbn [breadth].
      replace (nth_error (before ++ map root ((Node n us :: ts1) ++ ts2)) (length before)) with (Some n) by (rewrite nth_error_app2, Nat.sub_diag by lia; reflexivity).
      specialize (K f ltac:(lia)). rewrite app_length in K. cbn [length] in K. rewrite Nat.add_1_r in K. pose proof (roots_eq _ _ _ _ Fu) as R.
      cbn [flat_map below]. rewrite <- app_assoc in K. rewrite app_assoc in K |- *. rewrite <- !app_assoc in K |- *. cbn [app map root] in *.
      replace (before ++ n :: map root ts1 ++ levels d (ts2 ++ us ++ flat_map below ts1)) with ((before ++ [n]) ++ map root ts1 ++ levels d (ts2 ++ us ++ flat_map below ts1)) by (rewrite <- app_assoc; reflexivity).
      rewrite <- app_assoc. cbn [app]. rewrite <- K. f_equal. rewrite !map_app, R. destruct pure; [rewrite under_pure | rewrite under_all]; now rewrite <- ?app_assoc, ?map_app; cbn [app]; rewrite <- ?app_assoc.
Qed.

(** *** Depth first *)
(** The loop gets from one state to another. *)
Definition goes (g : graph) (pure pre : bool) (st : list (nat * nat)) (cap : nat) (q : list nat) (st' : list (nat * nat)) (cap' : nat) (q' : list nat) : Prop :=
  exists k, forall fuel, depth (k + fuel) g pure pre st cap q = depth fuel g pure pre st' cap' q'.
Lemma goes_refl g pure pre st cap q : goes g pure pre st cap q st cap q.
Proof. exists 0. reflexivity. Qed.
Lemma goes_trans g pure pre st cap q st1 cap1 q1 st2 cap2 q2 : goes g pure pre st cap q st1 cap1 q1 -> goes g pure pre st1 cap1 q1 st2 cap2 q2 -> goes g pure pre st cap q st2 cap2 q2.
Proof. intros [k1 K1] [k2 K2]. exists (k1 + k2). intro fuel. rewrite <- Nat.add_assoc, K1. apply K2. Qed.
Lemma goes_step g pure pre st cap q st' cap' q' : (forall fuel, depth (S fuel) g pure pre st cap q = depth fuel g pure pre st' cap' q') -> goes g pure pre st cap q st' cap' q'.
Proof. intro H. exists 1. exact H. Qed.
Definition leaves (g : graph) : Prop := forall x i, In (Some i) (ins g x) -> no_more g i = true.
Lemma no_more_leaf g pure c t : no_more g c = true -> unfolds g pure c t -> t = Node c [].
Proof.
  unfold no_more. destruct (chi g c) eqn:C; [|discriminate]. destruct (ins g c) eqn:I; [|discriminate]. intros _ U. destruct t as [m ts]. apply unfolds_below in U as [-> F].
  unfold under in F. rewrite C, I in F. destruct pure; cbn in F; inversion F; reflexivity.
Qed.
Lemma instances_spec g : forall l k, (exists k', instances g l k = (k', nodes_of l, None) /\ k' = k + length l /\ (forall i, In (Some i) l -> no_more g i = true)) \/
  exists l1 a l2, l = l1 ++ Some a :: l2 /\ instances g l k = (k + length l1, nodes_of l1, Some a) /\ no_more g a = false /\ forall i, In (Some i) l1 -> no_more g i = true.
Proof.
  induction l as [|[i|] l IH]; intro k.
  - left. exists k. cbn. split; [reflexivity|]. split; [lia | intros ? []].
  - cbn [instances nodes_of]. destruct (no_more g i) eqn:E.
    + destruct (IH (S k)) as [(k' & Q & -> & H)|(l1 & a & l2 & -> & Q & N & H)].
      * left. rewrite Q. eexists. split; [reflexivity|]. split; [cbn; lia|]. intros j [E1|I]; [injection E1 as <-; auto | auto].
      * right. exists (Some i :: l1), a, l2. split; auto. rewrite Q. split; [cbn; do 2 f_equal; lia|]. split; auto. intros j [[= <-]|I]; auto.
    + right. exists [], i, l. split; auto. split; [cbn; now rewrite Nat.add_0_r|]. split; [auto | intros ? []].
  - cbn [instances nodes_of]. destruct (IH (S k)) as [(k' & Q & -> & H)|(l1 & a & l2 & -> & Q & N & H)].
    + left. rewrite Q. eexists. split; [reflexivity|]. split; [cbn; lia|]. intros j [|I]; [discriminate | auto].
    + right. exists (None :: l1), a, l2. split; auto. rewrite Q. split; [cbn; do 2 f_equal; lia|]. split; auto. intros j [|I]; [discriminate | auto].
Qed.
Lemma nodes_of_app a b : nodes_of (a ++ b) = nodes_of a ++ nodes_of b.
Proof. induction a as [|[i|] a IH]; cbn; now rewrite ?IH. Qed.
Lemma nodes_of_In i l : In i (nodes_of l) <-> In (Some i) l.
Proof. induction l as [|[j|] l IH]; cbn; [tauto | | ]; rewrite IH; intuition congruence. Qed.
Definition visit (pre : bool) (t : tree) : list nat := if pre then preorder t else postorder t.
Definition inside (pre : bool) (t : tree) : list nat := if pre then flat_map preorder (below t) else postorder t.
Lemma leaf_trees g pure : forall l ts, (forall i, In i l -> no_more g i = true) -> Forall2 (unfolds g pure) l ts -> forall pre, flat_map (visit pre) ts = l.
Proof.
  induction l as [|c l IH]; intros ts H F pre; inversion F as [|? t ? ts' U F']; subst; auto. rewrite (no_more_leaf _ _ _ _ (H c (or_introl eq_refl)) U) in *. cbn. rewrite IH; auto; [destruct pre; reflexivity | intros; apply H; now right].
Qed.
Lemma Forall2_length' {A B} (P : A -> B -> Prop) l m : Forall2 P l m -> length l = length m.
Proof. induction 1; cbn; auto. Qed.
(** When the stack does not move while an instance is put on it. *)
Definition safe (g : graph) (pure pre : bool) (room : nat) (t : tree) : Prop := pure = true \/ leaves g \/ (pre = false /\ height t <= room).
Lemma grown_le n cap : n <= cap -> cap <= grown n cap /\ S n <= grown n cap.
Proof. intro H. unfold grown. destruct (Nat.eqb_spec n cap); [destruct (31 <? n); lia | lia]. Qed.
Lemma height_In n ts t : In t ts -> height t < height (Node n ts).
Proof. intro I. cbn. pose proof (proj1 (list_max_le (map height ts) (list_max (map height ts))) (Nat.le_refl _)) as F. rewrite Forall_forall in F. specialize (F (height t) (in_map _ _ _ I)). lia. Qed.
Lemma depth_node g pure pre : forall t n, unfolds g pure n t -> forall rest cap q, S (length rest) <= cap -> safe g pure pre (cap - length rest) t ->
  exists cap', cap <= cap' /\ goes g pure pre ((n, 0) :: rest) cap q rest cap' (q ++ inside pre t).
Proof.
  induction t as [m ts IHts] using tree_ind'. intros n U rest cap q Hcap Sf. apply unfolds_below in U as [-> F]. rewrite Forall_forall in IHts.
  (* the children *)
  assert (Ch : forall j i us cap q, i + j = length (chi g n) -> S (length rest) <= cap -> safe g pure pre (cap - length rest) (Node n ts) -> incl us ts ->
    Forall2 (unfolds g pure) (if pure then filter (first_parent g n) (skipn i (chi g n)) else skipn i (chi g n)) us ->
    exists cap', cap <= cap' /\ goes g pure pre ((n, i) :: rest) cap q ((n, length (chi g n)) :: rest) cap' (q ++ flat_map (visit pre) us)).
  { clear cap q Hcap Sf F. induction j as [|j IHj]; intros i us cap q Hj Hcap Sf Iu Fu.
    - replace i with (length (chi g n)) in * by lia. rewrite skipn_all in Fu. exists cap. split; auto. destruct pure; cbn in Fu; inversion Fu; subst; cbn; rewrite app_nil_r; apply goes_refl.
    - destruct (nth_error (chi g n) i) as [c|] eqn:Ec; [|apply nth_error_None in Ec; lia].
      assert (Es : skipn i (chi g n) = c :: skipn (S i) (chi g n)).
      { clear - Ec. revert i Ec. generalize (chi g n). intro l. induction l as [|x l IH]; intros [|i] E; cbn in *; try discriminate; [congruence|]. now rewrite (IH i E). }
      rewrite Es in Fu.
      destruct (pure && negb (first_parent g n c)) eqn:Pu.
      + apply andb_true_iff in Pu as [-> Pf]. cbn in Fu. apply negb_true_iff in Pf. rewrite Pf in Fu. destruct (IHj (S i) us cap q) as (cap' & L & G); auto; [lia|]. exists cap'. split; auto.
        eapply goes_trans; [|exact G]. apply goes_step. intro fuel. cbn [depth]. rewrite Ec. cbn [andb]. now rewrite Pf.
      + assert (Fu' : exists t us', us = t :: us' /\ unfolds g pure c t /\ Forall2 (unfolds g pure) (if pure then filter (first_parent g n) (skipn (S i) (chi g n)) else skipn (S i) (chi g n)) us').
        { destruct pure; cbn in Fu, Pu; [apply negb_false_iff in Pu; rewrite Pu in Fu|]; inversion Fu as [|? t ? us' Ut Ft]; subst; exists t, us'; auto. }
        destruct Fu' as (t & us' & -> & Ut & Ft). assert (It : In t ts) by (apply Iu; now left). destruct (no_more g c) eqn:Nm.
        * pose proof (no_more_leaf _ _ _ _ Nm Ut) as ->. destruct (IHj (S i) us' cap (q ++ [c])) as (cap' & L & G); auto; [lia | intros x Ix; apply Iu; now right|]. exists cap'. split; auto.
          eapply goes_trans; [apply goes_step; intro fuel; cbn [depth]; rewrite Ec, Pu, Nm; reflexivity|]. cbn [flat_map]. replace (visit pre (Node c [])) with [c] by (destruct pre; reflexivity). rewrite app_assoc. exact G.
        * destruct (grown_le (S (length rest)) cap Hcap) as [G1 G2].
          destruct (IHts t It c Ut ((n, S i) :: rest) (grown (S (length rest)) cap) (if pre then q ++ [c] else q)) as (cap1 & L1 & Go1); [cbn; lia| |].
          { destruct Sf as [E|[E|[E Hh]]]; [left; auto | right; left; auto | right; right; split; auto]. cbn [length]. pose proof (height_In n ts t It). lia. }
          destruct (IHj (S i) us' cap1 ((if pre then q ++ [c] else q) ++ inside pre t)) as (cap' & L & G); auto; [lia | lia | | intros x Ix; apply Iu; now right|].
          { destruct Sf as [E|[E|[E Hh]]]; [left; auto | right; left; auto | right; right; split; auto; lia]. }
          exists cap'. split; [lia|]. eapply goes_trans; [apply goes_step; intro fuel; cbn [depth]; rewrite Ec, Pu, Nm; reflexivity|]. eapply goes_trans; [exact Go1|].
          cbn [flat_map]. replace (q ++ visit pre t ++ flat_map (visit pre) us') with (((if pre then q ++ [c] else q) ++ inside pre t) ++ flat_map (visit pre) us'); [exact G|].
          rewrite <- !app_assoc. destruct t as [c' us]. apply unfolds_below in Ut as [-> _]. unfold visit, inside. destruct pre; rewrite <- ?app_assoc; reflexivity. }
  (* the instances *)
  assert (In_ : forall m l us cap q, length l <= m -> (exists done, ins g n = done ++ l) -> pure = false -> S (length rest) <= cap -> safe g pure pre (cap - length rest) (Node n ts) -> incl us ts ->
    Forall2 (unfolds g pure) (nodes_of l) us ->
    exists cap', cap <= cap' /\ goes g pure pre ((n, length (chi g n) + (length (ins g n) - length l)) :: rest) cap q ((n, length (chi g n) + length (ins g n)) :: rest) cap' (q ++ flat_map (visit pre) us)).
  { clear cap q Hcap Sf F Ch. induction m as [|m IHm]; intros l us cap q Hm [done Hd] Hp Hcap Sf Iu Fu.
    - destruct l; [|cbn in Hm; lia]. cbn in Fu. inversion Fu. subst us. exists cap. split; auto. cbn [length]. rewrite Nat.sub_0_r. cbn. rewrite app_nil_r. apply goes_refl.
    - assert (Q : l = [] \/ 0 < length l) by (destruct l; cbn; [auto | right; lia]). destruct Q as [->|Ql].
      { cbn in Fu. inversion Fu. subst us. exists cap. split; auto. cbn [length]. rewrite Nat.sub_0_r. cbn. rewrite app_nil_r. apply goes_refl. }
      assert (Ld : length (ins g n) = length done + length l) by (rewrite Hd, app_length; reflexivity).
      set (k := length (chi g n) + (length (ins g n) - length l)).
      assert (Nn : nth_error (chi g n) k = None) by (apply nth_error_None; unfold k; lia).
      assert (Kl : k <? length (chi g n) + length (ins g n) = true) by (apply Nat.ltb_lt; unfold k; lia).
      assert (Sk : skipn (k - length (chi g n)) (ins g n) = l). { replace (k - length (chi g n)) with (length done) by (unfold k; lia). rewrite Hd, skipn_app, skipn_all, Nat.sub_diag. reflexivity. }
      destruct (instances_spec g l k) as [(k' & Q & -> & H)|(l1 & a & l2 & El & Q & N & H)].
      + exists cap. split; auto. rewrite (leaf_trees g pure (nodes_of l) us) by (auto; intros i Ii; apply H; now apply nodes_of_In).
        apply goes_step. intro fuel. cbn [depth]. rewrite Nn, Kl, Hp, Sk, Q. cbn [negb andb]. replace (k + length l) with (length (chi g n) + length (ins g n)) by (unfold k; lia). reflexivity.
      + assert (Ia : In (Some a) (ins g n)) by (rewrite Hd, El; apply in_or_app; right; apply in_or_app; right; now left).
        rewrite El, nodes_of_app in Fu. cbn [nodes_of] in Fu. apply Forall2_app_inv_l in Fu as (us1 & us2 & F1 & F2 & ->). inversion F2 as [|? ta ? us3 Ua F3]; subst us2.
        assert (Ita : In ta ts) by (apply Iu; apply in_or_app; right; now left).
        destruct Sf as [E|[E|[E Hh]]]; [congruence | rewrite (E _ _ Ia) in N; discriminate|].
        pose proof (height_In n ts ta Ita) as Hta. assert (Hpos : 0 < height ta) by (destruct ta; cbn; lia).
        destruct (IHts ta Ita a Ua ((n, S (k + length l1)) :: rest) cap (q ++ nodes_of l1)) as (cap1 & L1 & G1); [cbn; lia | right; right; split; auto; cbn [length]; lia|].
        destruct (IHm l2 us3 cap1 ((q ++ nodes_of l1) ++ inside pre ta)) as (cap2 & L2 & G2); auto.
        { rewrite El, app_length in Hm. cbn in Hm. lia. } { exists (done ++ l1 ++ [Some a]). rewrite Hd, El, <- !app_assoc. reflexivity. } { lia. } { right. right. split; auto. lia. } { intros z Iz. apply Iu. apply in_or_app. right. now right. }
        exists cap2. split; [lia|]. eapply goes_trans; [|eapply goes_trans; [exact G1|]].
        * apply goes_step. intro fuel. cbn [depth]. rewrite Nn, Kl, Hp, Sk, Q. cbn [negb andb length]. destruct (Nat.eqb_spec (S (length rest)) cap); [lia | reflexivity].
        * rewrite flat_map_app. cbn [flat_map]. rewrite (leaf_trees g pure (nodes_of l1) us1) by (auto; intros i Ii; apply H; now apply nodes_of_In).
          replace (S (k + length l1)) with (length (chi g n) + (length (ins g n) - length l2)) by (unfold k; rewrite El, app_length in Ld |- *; cbn in *; lia).
          subst pre. unfold inside, visit in *. repeat rewrite <- app_assoc in G2. repeat rewrite <- app_assoc. exact G2. }
  (* both *)
  assert (Fin : forall k cap q, nth_error (chi g n) k = None -> (k <? length (chi g n) + length (ins g n)) && negb pure = false -> goes g pure pre ((n, k) :: rest) cap q rest cap (if pre then q else q ++ [n])).
  { intros k cap0 q0 H1 H2. apply goes_step. intro fuel. cbn [depth]. now rewrite H1, H2. }
  assert (Last : forall l, inside pre (Node n ts) = flat_map (visit pre) ts ++ (if pre then [] else [n]) /\ (if pre then q ++ l else (q ++ l) ++ [n]) = q ++ l ++ (if pre then [] else [n])).
  { intro l. unfold inside, visit. split; [destruct pre; cbn [below]; [now rewrite app_nil_r | reflexivity] | destruct pre; now rewrite ?app_nil_r, <- ?app_assoc]. }
  destruct (Bool.bool_dec pure true) as [Hp|Hp]; [subst pure | apply not_true_is_false in Hp; subst pure].
  - destruct (Ch (length (chi g n)) 0 ts cap q) as (cap1 & L1 & G1); auto; [intros x; auto|]. exists cap1. split; auto.
    eapply goes_trans; [exact G1|]. destruct (Last (flat_map (visit pre) ts)) as [-> La]. rewrite <- La. apply Fin; [now apply nth_error_None | now rewrite andb_false_r].
  - rewrite under_all in F. apply Forall2_app_inv_l in F as (us1 & us2 & F1 & F2 & Ets).
    destruct (Ch (length (chi g n)) 0 us1 cap q) as (cap1 & L1 & G1); auto; [intros x Ix; rewrite Ets; apply in_or_app; auto|].
    destruct (In_ (length (ins g n)) (ins g n) us2 cap1 (q ++ flat_map (visit pre) us1)) as (cap2 & L2 & G2); auto; [exists []; reflexivity | lia | | intros x Ix; rewrite Ets; apply in_or_app; auto|].
    { destruct Sf as [E|[E|[E Hh]]]; [left; auto | right; left; auto | right; right; split; auto; lia]. }
    exists cap2. split; [lia|]. eapply goes_trans; [exact G1|]. rewrite Nat.sub_diag, Nat.add_0_r in G2. eapply goes_trans; [exact G2|].
    destruct (Last (flat_map (visit pre) ts)) as [-> La]. rewrite <- La. rewrite Ets, flat_map_app, <- app_assoc. apply Fin; [apply nth_error_None; lia|]. now rewrite Nat.ltb_irrefl.
Qed.
Lemma depth_stable g pure pre : forall fuel st cap q r k, depth fuel g pure pre st cap q = r -> r <> Fuel -> depth (fuel + k) g pure pre st cap q = r.
Proof.
  induction fuel as [|f IH]; intros st cap q r k E N; [cbn in E; congruence|]. cbn [Nat.add depth] in *. destruct st as [|[n i] rest]; auto. destruct (nth_error (chi g n) i) as [c|].
  - destruct (pure && negb (first_parent g n c)); [now apply IH|]. destruct (no_more g c); now apply IH.
  - destruct (_ && _); [|now apply IH]. destruct (instances _ _ _) as [[k' out] [a|]]; [|now apply IH]. destruct (_ =? cap); auto.
Qed.
