(** Lemmas about the sub ids of scene nodes. *)
From Coq Require Import List Arith ZArith Bool Lia Relations Permutation.
From Verif Require Import TextModel TextProofs UniqueModel UniqueProofs IdModel SceneModel SceneSpec SceneProofs SceneIterProofs SceneProps SubIdModel.
Import ListNotations.

(** The graph without its instances, and turned upside down. *)
Definition plain (g : graph) : graph := Graph (next g) (alive g) (par g) (chi g) (fun _ => []) (doc g).
Definition upside (g : graph) : graph := Graph (next g) (alive g) (chi g) (par g) (fun _ => []) (doc g).

Lemma under_plain g n : under (plain g) false n = chi g n.
Proof. unfold under. cbn. apply app_nil_r. Qed.
Lemma under_upside g n : under (upside g) false n = par g n.
Proof. unfold under. cbn. apply app_nil_r. Qed.

(** *** FindSubId *)
Lemma find_app {A} (f : A -> bool) l1 l2 : find f (l1 ++ l2) = match find f l1 with Some x => Some x | None => find f l2 end.
Proof. induction l1 as [|x l IH]; cbn; auto. destruct (f x); auto. Qed.
Lemma FindSubId_tree g sub s : forall t n, unfolds (plain g) false n t -> forall fuel, height t <= fuel ->
  FindSubId fuel g sub s n = Done (find (fun m => str_eqb (sub m) s) (preorder t)).
Proof.
  induction t as [m ts IH] using tree_ind'. intros n U fuel Hf. apply unfolds_below in U as [-> F].
  rewrite under_plain in F. cbn [height] in Hf. destruct fuel as [|f]; [lia|]. cbn [FindSubId preorder find].
  destruct (str_eqb (sub n) s); [reflexivity|].
  assert (Hh : forall t, In t ts -> height t <= f).
  { intros t It. assert (Forall (fun k => k <= f) (map height ts)) as Q by (apply list_max_le; lia).
    rewrite Forall_forall in Q. apply Q. now apply in_map. }
  clear Hf. revert Hh. induction F as [|c t cs ts Uc F IHF]; intro Hh; [reflexivity|].
  inversion IH as [|? ? IHt IHts]; subst. rewrite (IHt c Uc f) by (apply Hh; now left).
  cbn [flat_map]. rewrite find_app. destruct (find _ (preorder t)); [reflexivity|].
  apply IHF; auto. intros u Iu. apply Hh. now right.
Qed.
Lemma plain_acc g n : ok g -> Acc (fun c p => In c (under (plain g) false p)) n.
Proof. intro O. eapply Acc_sub; [|exact (ok_down g O n)]. intros x y I. now rewrite under_plain in I. Qed.
Lemma upside_acc g n : ok g -> Acc (fun c p => In c (under (upside g) false p)) n.
Proof. intro O. eapply Acc_sub; [|exact (ok_up g O n)]. intros x y I. now rewrite under_upside in I. Qed.

Lemma rt_cases {A} (R : A -> A -> Prop) a b : clos_refl_trans A R a b <-> b = a \/ clos_trans A R a b.
Proof.
  split.
  - induction 1 as [x y H|x|x y z H1 IH1 H2 IH2]; [right; now apply t_step | now left |].
    destruct IH1 as [->|IH1]; auto. destruct IH2 as [->|IH2]; auto. right. eapply t_trans; eauto.
  - intros [->|H]; [apply rt_refl|]. induction H; [now apply rt_step | eapply rt_trans; eauto].
Qed.
Lemma rt_ext {A} (R S : A -> A -> Prop) a b : (forall x y, R x y <-> S x y) -> clos_refl_trans A R a b -> clos_refl_trans A S a b.
Proof. intros E. induction 1; [apply rt_step; now apply E | apply rt_refl | eapply rt_trans; eauto]. Qed.

Lemma find_spec g n : ok g -> exists t, unfolds (plain g) false n t /\
  forall x, In x (preorder t) <-> x = n \/ descendant g n x.
Proof.
  intro O. destruct (C38_all_reached (plain g) false n (plain_acc g n O)) as (t & U & M & _).
  exists t. split; auto. intro x. rewrite M. unfold descendant. rewrite <- rt_cases.
  split; apply rt_ext; intros a b; rewrite under_plain; tauto.
Qed.

(** *** The sub ids above *)
Definition ne (s : list Z) : bool := match s with [] => false | _ => true end.
Lemma parents_breadth g sub n : forall fuel cur tree k, nth_error (n :: tree) k = Some cur -> forall q,
  breadth (S fuel) (upside g) false (n :: tree) k = Done q ->
  parents_up fuel g sub cur tree k (filter ne (map sub tree)) = Done (filter ne (map sub (tl q))).
Proof.
  induction fuel as [|f IH]; intros cur tree k Hk q B.
  - cbn [breadth] in B. rewrite Hk in B. discriminate.
  - cbn [breadth] in B. rewrite Hk in B. cbn [parents_up upside chi ins nodes_of] in *. rewrite app_nil_r in B.
    change (filter (fun s : list Z => match s with [] => false | _ :: _ => true end)) with (filter ne).
    rewrite <- filter_app, <- map_app. destruct (nth_error (tree ++ par g cur) k) as [p|] eqn:E.
    + apply IH; [exact E|]. cbn [breadth upside chi ins nodes_of]. exact B.
    + cbn [app nth_error] in B. rewrite E in B. injection B as <-. reflexivity.
Qed.
Lemma parents_spec g sub n : ok g -> sub n = [] -> exists ids f0, (forall fuel, f0 <= fuel -> parents_up fuel g sub n [] 0 [] = Done ids) /\
  forall s, s <> [] -> (In s ids <-> exists x, ancestor g x n /\ sub x = s).
Proof.
  intros O Hn. destruct (C38_all_reached (upside g) false n (upside_acc g n O)) as (t & U & M & _ & P).
  destruct (C38_iteration_partial (upside g) false n t U) as ((f0 & B) & _).
  cbn [iterate] in B. set (q := levels (height t) [t]) in *.
  assert (Q : exists r, q = n :: r).
  { subst q. destruct t as [m ts]. apply unfolds_below in U as [-> _]. cbn. eauto. }
  destruct Q as [r Q]. exists (filter ne (map sub r)), f0. split.
  - intros fuel Hf. change (@nil (list Z)) with (filter ne (map sub [])).
    rewrite (parents_breadth g sub n fuel n [] 0 eq_refl q); [now rewrite Q|]. apply B. lia.
  - intros s Hs. rewrite filter_In, in_map_iff. split.
    + intros [(x & E & I) _]. assert (Iq : In x q) by (rewrite Q; now right).
      apply (Permutation_in x (Permutation_sym P)) in Iq. apply M in Iq. apply rt_cases in Iq as [->|T]; [congruence|].
      exists x. split; auto. clear - T. unfold ancestor. induction T as [a b T|a b c T1 IH1 T2 IH2].
      * rewrite under_upside in T. now apply t_step.
      * eapply t_trans; eauto.
    + intros (x & A & E). split; [|subst s; destruct (sub x); [congruence | reflexivity]]. exists x. split; auto.
      assert (T : clos_trans nat (fun p c => In c (under (upside g) false p)) n x).
      { clear - A. unfold ancestor in A. induction A as [a b A|a b c A1 IH1 A2 IH2]; [apply t_step; now rewrite under_upside | eapply t_trans; eauto]. }
      assert (Ip : In x (preorder t)) by (apply M, rt_cases; now right).
      apply (Permutation_in x P) in Ip. rewrite Q in Ip. destruct Ip as [<-|I]; [congruence | exact I].
Qed.

(** *** The search for a free text *)
(** Some other node on a path through n has the sub id s. *)
Definition relative (g : graph) (n m : nat) : Prop := descendant g n m \/ descendant g m n.
Definition used (g : graph) (sub : nat -> list Z) (n : nat) (s : list Z) : Prop := exists m, relative g n m /\ sub m = s.

Lemma taken_spec g sub n : ok g -> sub n = [] -> forall t ids f0, unfolds (plain g) false n t ->
  (forall x, In x (preorder t) <-> x = n \/ descendant g n x) ->
  (forall s, s <> [] -> (In s ids <-> exists x, ancestor g x n /\ sub x = s)) ->
  forall s, s <> [] -> forall fuel, height t <= fuel -> f0 <= fuel -> exists b, taken fuel g sub ids n s = Done b /\ (b = true <-> used g sub n s).
Proof.
  intros O Hn t ids f0 U M I s Hs fuel Hf _. unfold taken. rewrite (FindSubId_tree g sub s t n U fuel Hf).
  destruct (find _ (preorder t)) as [m|] eqn:E.
  - apply find_some in E as [Im E]. apply str_eqb_eq in E. exists true. split; [reflexivity|]. split; auto. intros _.
    apply M in Im as [->|D]; [congruence|]. exists m. split; [now left | auto].
  - exists (existsb (str_eqb s) ids). split; [reflexivity|]. rewrite existsb_exists. split.
    + intros (x & Ix & Ex). apply str_eqb_eq in Ex. subst x. apply I in Ix as (x & A & Ex); auto. exists x. split; auto. right.
      now apply ancestor_descendant.
    + intros (m & [D|D] & Em).
      * exfalso. assert (Im : In m (preorder t)) by (apply M; now right).
        pose proof (find_none _ _ E m Im) as F. cbn in F. rewrite <- Em, str_eqb_refl in F. discriminate.
      * exists s. split; [|apply str_eqb_refl]. apply I; auto. exists m. split; auto. now apply ancestor_descendant.
Qed.

Lemma numbered_ne s k : numbered s k <> [].
Proof. unfold numbered. destruct s; discriminate. Qed.
Lemma numbered_inj s j k : (0 <= j)%Z -> (0 <= k)%Z -> numbered s j = numbered s k -> j = k.
Proof.
  intros Hj Hk E. unfold numbered in E. apply app_inv_head in E. injection E as E. unfold append_i32 in E.
  rewrite !(proj2 (Z.ltb_ge _ 0)) in E by assumption. destruct (dec_spec j Hj) as (_ & _ & V). destruct (dec_spec k Hk) as (_ & _ & W).
  rewrite <- V, <- W. now rewrite E.
Qed.

Lemma pick_spec g sub n ids subId (T : list Z -> Prop) fuel :
  (forall s, s <> [] -> exists b, taken fuel g sub ids n s = Done b /\ (b = true <-> T s)) ->
  forall left new idMod, new <> [] -> (0 <= idMod)%Z -> exists r, pick left fuel g sub ids n subId new idMod = Done r /\
  ((~ T new /\ r = new) \/
   (T new /\ exists k, k <= left /\ r = numbered subId (idMod + Z.of_nat k) /\
      (forall j, j < k -> T (numbered subId (idMod + Z.of_nat j))) /\
      (~ T r \/ k = left))).
Proof.
  intros H left. induction left as [|l IH]; intros new idMod Hn Hi; cbn [pick]; destruct (H new Hn) as (b & -> & Hb);
    destruct b; try (exists new; split; [reflexivity|]; left; split; [|reflexivity]; intro C; apply Hb in C; discriminate).
  - exists (numbered subId idMod). split; [reflexivity|]. right. split; [now apply Hb|]. exists 0. rewrite Z.add_0_r.
    repeat split; auto. intros j Hj. lia.
  - destruct (IH (numbered subId idMod) (idMod + 1)%Z (numbered_ne _ _)) as (r & -> & C); [lia|]. exists r. split; [reflexivity|]. right. split; [now apply Hb|].
    destruct C as [(C & ->)|(C & k & Hk & E & Hj & D)].
    + exists 0. rewrite Z.add_0_r. repeat split; auto; try lia.
    + exists (S k). replace (idMod + Z.of_nat (S k))%Z with (idMod + 1 + Z.of_nat k)%Z by lia. repeat split; auto; try lia.
      * intros [|j] Hj'; [now rewrite Z.add_0_r|]. replace (idMod + Z.of_nat (S j))%Z with (idMod + 1 + Z.of_nat j)%Z by lia. apply Hj. lia.
      * destruct D as [D|D]; [now left | right; lia].
Qed.

Lemma clean_ne s : s <> [] -> CleanSubId s <> [].
Proof. destruct s; [congruence|]. discriminate. Qed.
Lemma clean_length s : length (CleanSubId s) <= length s.
Proof.
  unfold CleanSubId. assert (E : forall f u, length (clean_with f u) = length u) by (intros f [|c u]; cbn; auto; now rewrite map_length).
  rewrite E, firstn_length. lia.
Qed.
Lemma numbered_not_clean s k : numbered s k <> CleanSubId s.
Proof.
  intro E. apply (f_equal (@length Z)) in E. pose proof (clean_length s). unfold numbered in E.
  rewrite !app_length in E. cbn in E. lia.
Qed.
Lemma relative_other g n m : ok g -> relative g n m -> m <> n.
Proof.
  intros O R ->. assert (D : descendant g n n) by (destruct R; assumption). apply ancestor_descendant in D; auto.
  unfold ancestor in D. revert D. apply Acc_no_cycle. apply (ok_up g O).
Qed.

(** What SetSubId does. *)
Lemma set_spec g sub n s : ok g -> s <> [] -> exists f0 r,
  (forall fuel, f0 <= fuel -> SetSubId fuel g sub n s = Done (upd (upd sub n []) n r)) /\
  ((~ used g sub n (CleanSubId s) /\ r = CleanSubId s) \/
   (used g sub n (CleanSubId s) /\ exists k, k <= 512 /\ r = numbered s (Z.of_nat k) /\
      (forall j, j < k -> used g sub n (numbered s (Z.of_nat j))) /\
      (~ used g sub n r \/ k = 512))).
Proof.
  intros O Hs. set (sub0 := upd sub n []). assert (H0 : sub0 n = []) by apply upd_same.
  destruct (find_spec g n O) as (t & U & M). destruct (parents_spec g sub0 n O H0) as (ids & f1 & P & I).
  set (f0 := Nat.max f1 (height t)).
  assert (Eu : forall u, used g sub0 n u <-> used g sub n u).
  { intro u. split; intros (m & R & E); exists m; split; auto; subst sub0; rewrite upd_other in * by (eapply relative_other; eauto); exact E. }
  assert (Tk : forall fuel, f0 <= fuel -> forall u, u <> [] -> exists b, taken fuel g sub0 ids n u = Done b /\ (b = true <-> used g sub0 n u)).
  { intros fuel Hf u Hu. apply (taken_spec g sub0 n O H0 t ids 0 U M I u Hu fuel); lia. }
  destruct (pick_spec g sub0 n ids s (used g sub0 n) f0 (Tk f0 (le_n _)) 512 (CleanSubId s) 0 (clean_ne s Hs) (Z.le_refl 0)) as (r & E & C).
  exists f0, r. split.
  - intros fuel Hf. unfold SetSubId. fold sub0. rewrite (P fuel) by lia. destruct s as [|c s]; [congruence|].
    destruct (pick_spec g sub0 n ids (c :: s) (used g sub0 n) fuel (Tk fuel Hf) 512 (CleanSubId (c :: s)) 0 (clean_ne _ Hs) (Z.le_refl 0)) as (r' & E' & C').
    rewrite E'. assert (r' = r) as ->; [|reflexivity]. clear - C C'.
    destruct C as [(C & ->)|(C & k & Hk & -> & Hj & D)]; destruct C' as [(C' & ->)|(C' & k' & Hk' & -> & Hj' & D')]; try contradiction; auto.
    rewrite !Z.add_0_l in *. destruct (Nat.lt_trichotomy k k') as [L|[->|L]]; auto.
    + destruct D as [D|D]; [|lia]. exfalso. apply D. exact (Hj' k L).
    + destruct D' as [D'|D']; [|lia]. exfalso. apply D'. exact (Hj k' L).
  - destruct C as [(C & ->)|(C & k & Hk & -> & Hj & D)]; [left | right].
    + split; auto. now rewrite <- Eu.
    + split; [now apply Eu|]. exists k. rewrite Z.add_0_l in *. repeat split; auto.
      * intros j L. apply Eu. exact (Hj j L).
      * destruct D as [D|D]; [left; now rewrite <- Eu | now right].
Qed.
