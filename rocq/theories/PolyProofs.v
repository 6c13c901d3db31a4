From Coq Require Import List Arith Bool Lia.
From Verif Require Import PolyModel PolySpec.
Import ListNotations.

Lemma sum_app a b : sum (a ++ b) = sum a + sum b.
Proof. induction a as [|x a IH]; cbn [app sum fold_right]; auto. fold (sum (a ++ b)) (sum a). lia. Qed.
#[global] Arguments entries : simpl never.
Lemma entries_cons f F : entries (f :: F) = corners f ++ entries F.
Proof. reflexivity. Qed.
Lemma entries_nil : entries [] = [].
Proof. reflexivity. Qed.
Lemma entries_app A B : entries (A ++ B) = entries A ++ entries B.
Proof. apply flat_map_app. Qed.
Lemma size_app A B : size (A ++ B) = size A + size B.
Proof. unfold size. now rewrite entries_app, sum_app. Qed.
Lemma hp_ge F : forall k x, In x (hole_positions k F) -> k < x < k + length (entries F).
Proof.
  induction F as [|[c hs] F IH]; cbn; intros k x H; [destruct H|]. rewrite entries_cons, app_length. apply in_app_iff in H as [H|H].
  - apply in_seq in H. cbn. lia.
  - apply IH in H. cbn in *. lia.
Qed.
Lemma hp_app A : forall B k, hole_positions k (A ++ B) = hole_positions k A ++ hole_positions (k + length (entries A)) B.
Proof.
  induction A as [|[c hs] A IH]; intros B k; cbn; [now rewrite Nat.add_0_r|]. rewrite IH, app_assoc. f_equal. f_equal. rewrite entries_cons, app_length. cbn. lia.
Qed.
Lemma hp_length F : forall k, length (hole_positions k F) + length F = length (entries F).
Proof. induction F as [|[c hs] F IH]; cbn; intro k; auto. rewrite entries_cons, !app_length, seq_length. specialize (IH (k + 1 + length hs)). cbn in *. lia. Qed.
Lemma hcb_app_low l : forall r x, (forall i, i < length l -> nth i l 0 <= x + i) -> hole_count_before (l ++ r) x = length l + hole_count_before r (x + length l).
Proof.
  induction l as [|h l IH]; intros r x H; cbn; [now rewrite Nat.add_0_r|]. specialize (H 0) as H0. cbn in H0.
  destruct (Nat.leb_spec h x); [|lia]. f_equal. rewrite IH; [f_equal; f_equal; lia|]. intros i Hi. specialize (H (S i)). cbn in H. lia.
Qed.
Lemma hcb_high l : forall x, (forall h, In h l -> x < h) -> hole_count_before l x = 0.
Proof. induction l as [|h l IH]; intros x H; cbn; auto. destruct (Nat.leb_spec h x); [specialize (H h (or_introl eq_refl)); lia|]. apply IH. intros; apply H; now right. Qed.

(** The position of face i: the length of the entries before. *)
Lemma hcb_pos F : forall i k, i < length F -> hole_count_before (hole_positions k F) (k + i) + i = length (entries (firstn i F)).
Proof.
  induction F as [|[c hs] F IH]; intros i k Hi; [cbn in Hi; lia|]. destruct i as [|i].
  - cbn [firstn]. rewrite hcb_high; [reflexivity|]. intros h Hh. apply hp_ge in Hh. lia.
  - cbn [hole_positions snd]. rewrite hcb_app_low.
    + rewrite seq_length. replace (k + S i + length hs) with ((k + 1 + length hs) + i) by lia. cbn in Hi.
      specialize (IH i (k + 1 + length hs)). cbn [firstn]. rewrite entries_cons, app_length. cbn [corners fst snd length]. lia.
    + intros j Hj. rewrite seq_length in Hj. rewrite seq_nth by lia. lia.
Qed.
Lemma hole_before p F i : represents p F -> i < length F -> i + GetHoleCountBefore p i = length (entries (firstn i F)).
Proof. intros [_ H] Hi. unfold GetHoleCountBefore. rewrite H. pose proof (hcb_pos F i 0 Hi). cbn in H0. lia. Qed.
Lemma split_at {A} (F : list A) i d : i < length F -> F = firstn i F ++ nth i F d :: skipn (S i) F.
Proof. revert i. induction F as [|f F IH]; intros [|i] H; cbn in *; auto; try lia. now rewrite <- IH by lia. Qed.

Lemma is_hole_hp p F x : represents p F -> is_hole p x = true <-> In x (hole_positions 0 F).
Proof.
  intros [_ H]. unfold is_hole. rewrite H, existsb_exists. split; [intros (y & Hy & E); apply Nat.eqb_eq in E; now subst | intro Hx; exists x; now rewrite Nat.eqb_refl].
Qed.
Lemma count_holes_app p l : forall x r, (forall y, In y l -> is_hole p y = true) -> is_hole p x = false -> count_holes p (l ++ x :: r) = length l.
Proof. induction l as [|y l IH]; intros x r H N; cbn; [now rewrite N|]. rewrite H by now left. f_equal. apply IH; auto. intros; apply H; now right. Qed.
Lemma count_holes_all p l : (forall y, In y l -> is_hole p y = true) -> count_holes p l = length l.
Proof. induction l as [|y l IH]; intros H; cbn; auto. rewrite H by now left. f_equal. apply IH. intros; apply H; now right. Qed.

Lemma hole_count p A f B : represents p (A ++ f :: B) -> GetHoleCount p (length A) = length (snd f).
Proof.
  intros R. pose proof R as [C H]. unfold GetHoleCount. rewrite (hole_before p _ _ R) by (rewrite app_length; cbn; lia).
  rewrite firstn_app, Nat.sub_diag, firstn_O, app_nil_r, firstn_all. rewrite C, entries_app, app_length. rewrite entries_cons.
  rewrite app_length. cbn [corners length]. set (k := length (entries A)).
  replace (k + (S (length (snd f)) + length (entries B)) - (k + 1)) with (length (snd f) + length (entries B)) by lia.
  rewrite seq_app.
  assert (HL : forall y, In y (seq (k + 1) (length (snd f))) -> is_hole p y = true).
  { intros y Hy. apply (is_hole_hp p _ y R). rewrite hp_app. apply in_or_app. right. cbn. apply in_or_app. left. fold k. exact Hy. }
  destruct B as [|g B].
  - rewrite entries_nil. cbn [length seq]. rewrite app_nil_r. rewrite count_holes_all by auto. now rewrite seq_length.
  - rewrite entries_cons. cbn [corners length app]. cbn [seq]. rewrite count_holes_app; auto; [now rewrite seq_length|].
    destruct (is_hole p (k + 1 + length (snd f))) eqn:E; auto. apply (is_hole_hp p _ _ R) in E. exfalso. rewrite hp_app in E. cbn in E.
    apply in_app_iff in E as [E|E]; [apply hp_ge in E; unfold k in E; cbn in E; lia|].
    apply in_app_iff in E as [E|E]; [apply in_seq in E; unfold k in *; lia|].
    apply in_app_iff in E as [E|E]; [apply in_seq in E; unfold k in *; lia|]. apply hp_ge in E. unfold k in *. lia.
Qed.
Lemma face_count p F i : represents p F -> below_face_count p i = (i <? length F).
Proof.
  intros [C H]. unfold below_face_count. rewrite C, H. pose proof (hp_length F 0). destruct (Nat.ltb_spec (length (entries F)) (length (hole_positions 0 F))); [lia|].
  f_equal. lia.
Qed.
Lemma offset_spec p A f B : represents p (A ++ f :: B) -> GetFaceVertexOffset p (length A) = size A.
Proof.
  intros R. pose proof R as [C H]. unfold GetFaceVertexOffset. rewrite (hole_before p _ _ R) by (rewrite app_length; cbn; lia).
  rewrite firstn_app, Nat.sub_diag, firstn_O, app_nil_r, firstn_all. rewrite C, entries_app, app_length, entries_cons, app_length. cbn [corners length].
  destruct (Nat.ltb_spec (length (entries A)) (length (entries A) + (S (length (snd f)) + length (entries B)))); [|lia].
  rewrite firstn_app, Nat.sub_diag, firstn_O, app_nil_r, firstn_all. reflexivity.
Qed.
Lemma count_spec p A f B : represents p (A ++ f :: B) -> GetFaceVertexCount p (length A) = Some (sum (corners f)).
Proof.
  intros R. pose proof R as [C H]. unfold GetFaceVertexCount. rewrite (face_count p _ _ R), app_length. cbn [length].
  destruct (Nat.ltb_spec (length A) (length A + S (length B))); [|lia].
  rewrite (hole_before p _ _ R) by (rewrite app_length; cbn; lia). rewrite (hole_count p A f B R).
  rewrite firstn_app, Nat.sub_diag, firstn_O, app_nil_r, firstn_all. rewrite C, entries_app, app_length, entries_cons, app_length.
  destruct (Nat.leb_spec (length (entries A) + (length (snd f) + 1)) (length (entries A) + (length (corners f) + length (entries B)))); [|cbn [corners length] in *; lia].
  f_equal. rewrite skipn_app, Nat.sub_diag, skipn_O, skipn_all2 by lia. cbn [app].
  replace (length (snd f) + 1) with (length (corners f)) by (cbn; lia). now rewrite firstn_app, Nat.sub_diag, firstn_O, app_nil_r, firstn_all.
Qed.

(** *** Holes *)
Lemma insert_low x a : forall b, (forall y, In y a -> y <= x) -> insert_hole x (a ++ b) = a ++ insert_hole x b.
Proof. induction a as [|y a IH]; intros b H; cbn [insert_hole app]; auto. destruct (Nat.ltb_spec x y); [specialize (H y (or_introl eq_refl)); lia|]. f_equal. apply IH. intros; apply H; now right. Qed.
Lemma insert_high x b : (forall y, In y b -> x < y) -> insert_hole x b = x :: b.
Proof. destruct b as [|y b]; intro H; cbn [insert_hole app]; auto. destruct (Nat.ltb_spec x y); auto. specialize (H y (or_introl eq_refl)). lia. Qed.
(** Which positions are faces behind the first one. *)
Inductive face_at : list face -> nat -> Prop :=
| face_second f g r : face_at (f :: g :: r) (length (corners f))
| face_later f g r x : face_at (g :: r) x -> face_at (f :: g :: r) (length (corners f) + x).
Lemma face_at_pos F x : face_at F x -> 0 < x.
Proof. induction 1; cbn; lia. Qed.
Lemma face_at_split F x : face_at F x <-> exists A f g r, F = A ++ f :: g :: r /\ x = length (entries (A ++ [f])).
Proof.
  split.
  - induction 1 as [f g r|f g r x H (A & f1 & g1 & r1 & E & L)].
    + exists [], f, g, r. cbn [app]. now rewrite entries_cons, entries_nil, app_nil_r.
    + exists (f :: A), f1, g1, r1. rewrite E. split; auto. cbn [app]. now rewrite entries_cons, app_length, L.
  - intros (A & f & g & r & -> & ->). induction A as [|a A IH]; cbn [app]; rewrite entries_cons.
    + rewrite entries_nil, app_nil_r. constructor.
    + rewrite app_length. destruct (A ++ f :: g :: r) eqn:E; [destruct A; discriminate|]. now constructor.
Qed.
Lemma join_split (A : list face) (f g : face) (r : list face) : join (A ++ f :: g :: r) (length (entries (A ++ [f]))) = A ++ (fst f, snd f ++ corners g) :: r.
Proof.
  induction A as [|a A IH].
  - cbn [app]. rewrite entries_cons, entries_nil, app_nil_r. unfold join. now rewrite Nat.eqb_refl.
  - cbn [app]. rewrite entries_cons, app_length.
    destruct (A ++ f :: g :: r) as [|b t] eqn:E; [destruct A; discriminate|].
    assert (P : 0 < length (entries (A ++ [f]))) by (rewrite entries_app, app_length, entries_cons; cbn; lia).
    change (join (a :: b :: t) (length (corners a) + length (entries (A ++ [f])))) with
      (if Nat.eqb (length (corners a) + length (entries (A ++ [f]))) (length (corners a)) then (fst a, snd a ++ corners b) :: t
       else a :: join (b :: t) (length (corners a) + length (entries (A ++ [f])) - length (corners a))).
    destruct (Nat.eqb_spec (length (corners a) + length (entries (A ++ [f]))) (length (corners a))); [lia|].
    replace (length (corners a) + length (entries (A ++ [f])) - length (corners a)) with (length (entries (A ++ [f]))) by lia. now rewrite IH.
Qed.
Lemma entries_join (A : list face) (f g : face) (r : list face) : entries (A ++ (fst f, snd f ++ corners g) :: r) = entries (A ++ f :: g :: r).
Proof. rewrite !entries_app, !entries_cons. cbn. now rewrite <- app_assoc. Qed.
Lemma hp_join (A : list face) (f g : face) (r : list face) : hole_positions 0 (A ++ (fst f, snd f ++ corners g) :: r) = insert_hole (length (entries (A ++ [f]))) (hole_positions 0 (A ++ f :: g :: r)).
Proof.
  rewrite !hp_app. set (k := 0 + length (entries A)). cbn [hole_positions snd fst]. rewrite app_length. cbn [corners length]. rewrite seq_app. cbn [seq].
  assert (Ek : length (entries (A ++ [f])) = k + 1 + length (snd f)).
  { unfold k. rewrite entries_app, app_length, entries_cons, entries_nil, app_nil_r. cbn [corners length]. lia. }
  rewrite Ek.
  rewrite insert_low by (intros y Hy; apply hp_ge in Hy; unfold k in *; lia). f_equal.
  rewrite insert_low by (intros y Hy; apply in_seq in Hy; lia). rewrite <- app_assoc. f_equal.
  rewrite insert_high.
  - cbn [app]. f_equal. f_equal; [f_equal; lia|]. f_equal. lia.
  - intros y Hy. apply in_app_iff in Hy as [Hy|Hy]; [apply in_seq in Hy; lia | apply hp_ge in Hy; lia].
Qed.

(** *** Index lists *)
Definition amap {X} (f : list X -> list X) (x : input X) : input X := Input (offset x) (source x) (f (indices x)).
Lemma first_owner_map {X} (f : list X -> list X) ins o : (forall x, In x ins -> owns (amap f x) = owns x) -> first_owner (map (amap f) ins) o = first_owner ins o.
Proof. induction ins as [|x ins IH]; intro H; cbn; auto. rewrite H by now left. rewrite IH by (intros; apply H; now right). reflexivity. Qed.
Lemma first_owner_none {X} (ins : list (input X)) o : (forall x, In x ins -> owns x = false) -> first_owner ins o = None.
Proof. induction ins as [|x ins IH]; intro H; cbn; auto. rewrite H by now left. rewrite andb_false_r, IH; auto. intros; apply H; now right. Qed.
Lemma get_map_keep {X} (f : list X -> list X) ins i : f [] = [] -> (forall x, In x ins -> owns (amap f x) = owns x) ->
  get_indices (map (amap f) ins) i = f (get_indices ins i).
Proof.
  intros F0 H. unfold get_indices, find_indices. rewrite nth_error_map. destruct (nth_error ins i) as [x|] eqn:N; cbn [option_map]; [|now rewrite F0].
  rewrite H by (eapply nth_error_In; eauto). cbn [amap offset]. rewrite first_owner_map by auto.
  destruct (owns x).
  - rewrite nth_error_map, N. reflexivity.
  - destruct (first_owner ins (offset x)) as [j|]; rewrite nth_error_map; [|now rewrite N]. destruct (nth_error ins j); cbn; auto.
Qed.
Lemma get_none_owned {X} (ins : list (input X)) i : (forall x, In x ins -> indices x = []) -> get_indices ins i = [].
Proof.
  intro H. unfold get_indices. destruct (find_indices ins i) as [j|]; auto. destruct (nth_error ins j) eqn:N; auto. apply H. eapply nth_error_In; eauto.
Qed.
Lemma first_owner_some {X} (ins : list (input X)) o : forall j, first_owner ins o = Some j -> exists x, nth_error ins j = Some x /\ owns x = true /\ offset x = o.
Proof.
  induction ins as [|x ins IH]; cbn; intros j H; [discriminate|]. destruct (Nat.eqb_spec (offset x) o); cbn in H.
  - destruct (owns x) eqn:W; [injection H as <-; exists x; auto|]. destruct (first_owner ins o) as [k|]; [|discriminate]. injection H as <-. destruct (IH k eq_refl) as (y & A & B & C). exists y. auto.
  - destruct (first_owner ins o) as [k|]; [|discriminate]. injection H as <-. destruct (IH k eq_refl) as (y & A & B & C). exists y. auto.
Qed.
(** The list an input sees is empty or the own list of some input. *)
Lemma get_own {X} (ins : list (input X)) i : get_indices ins i = [] \/ exists x, In x ins /\ owns x = true /\ get_indices ins i = indices x.
Proof.
  unfold get_indices, find_indices. destruct (nth_error ins i) as [x|] eqn:N; [|now left]. destruct (owns x) eqn:W.
  - right. exists x. rewrite N. split; auto. eapply nth_error_In; eauto.
  - destruct (first_owner ins (offset x)) as [j|] eqn:Fo.
    + apply first_owner_some in Fo as (y & A & B & C). rewrite A. right. exists y. split; auto. eapply nth_error_In; eauto.
    + left. rewrite N. unfold owns in W. destruct (indices x); [auto | discriminate].
Qed.
Lemma get_owner {X} (ins : list (input X)) i x : nth_error ins i = Some x -> owns x = true -> get_indices ins i = indices x.
Proof. intros N W. unfold get_indices, find_indices. now rewrite N, W, N. Qed.

(** AddFace on an empty set: the fold of the loop. *)
Definition fresh_step (d : nat) (s : list (input (option nat))) (i : nat) : list (input (option nat)) :=
  if Nat.eqb (length (get_indices s i)) 0 then set_indices s i (repeat None d) else s.
Lemma set_nth_length {A} (l : list A) : forall i a, length (set_nth l i a) = length l.
Proof. induction l as [|x l IH]; intros [|i] a; cbn; auto. Qed.
Lemma set_nth_same {A} (l : list A) : forall i a, i < length l -> nth_error (set_nth l i a) i = Some a.
Proof. induction l as [|x l IH]; intros [|i] a H; cbn in *; try lia; auto. apply IH. lia. Qed.
Lemma set_nth_other {A} (l : list A) : forall i j a, i <> j -> nth_error (set_nth l i a) j = nth_error l j.
Proof. induction l as [|x l IH]; intros [|i] [|j] a H; cbn in *; auto; congruence || (apply IH; congruence). Qed.
Lemma set_nth_In {A} (l : list A) : forall i a y, In y (set_nth l i a) -> y = a \/ In y l.
Proof. induction l as [|x l IH]; intros [|i] a y H; cbn in *; auto; destruct H as [H|H]; auto. apply IH in H as [|]; auto. Qed.
Lemma first_owner_set {X} (s : list (input X)) : forall i x l o, nth_error s i = Some x -> owns x = false -> l <> [] ->
  first_owner (set_nth s i (Input (offset x) (source x) l)) o <> None \/ first_owner (set_nth s i (Input (offset x) (source x) l)) o = first_owner s o /\ offset x <> o.
Proof.
  induction s as [|y s IH]; intros [|i] x l o N W L; cbn in *; try discriminate.
  - injection N as ->. rewrite W, andb_false_r. assert (owns (Input (offset x) (source x) l) = true) as -> by (unfold owns; cbn; destruct l; congruence).
    destruct (Nat.eqb_spec (offset x) o); cbn; [left; discriminate | right; auto].
  - specialize (IH i x l o N W L). destruct (Nat.eqb (offset y) o && owns y); [left; discriminate|].
    destruct IH as [IH|[IH D]].
    + left. destruct (first_owner _ o); [discriminate | congruence].
    + right. now rewrite IH.
Qed.
Lemma get_nonempty {X} (s : list (input X)) i x : nth_error s i = Some x ->
  get_indices s i <> [] <-> (owns x = true \/ first_owner s (offset x) <> None).
Proof.
  intro N. unfold get_indices, find_indices. rewrite N. destruct (owns x) eqn:W.
  - rewrite N. unfold owns in W. destruct (indices x); [discriminate|]. split; auto; discriminate.
  - destruct (first_owner s (offset x)) as [j|] eqn:Fo.
    + apply first_owner_some in Fo as (y & A & B & C). rewrite A. unfold owns in B. destruct (indices y); [discriminate|]. split; [right; discriminate | discriminate].
    + rewrite N. unfold owns in W. destruct (indices x); [|discriminate]. split; [congruence | intros [|]; congruence].
Qed.
Definition same_frame {X} (s t : list (input X)) : Prop := map offset s = map offset t /\ map source s = map source t.
Lemma set_nth_frame {X} (s : list (input X)) : forall i x l, nth_error s i = Some x ->
  same_frame (set_nth s i (Input (offset x) (source x) l)) s.
Proof.
  unfold same_frame. induction s as [|y s IH]; intros [|i] x l N; cbn in *; try discriminate.
  - injection N as ->. auto.
  - destruct (IH i x l N) as [A B]. now rewrite A, B.
Qed.
Lemma fresh_step_ok d s i : 0 < d -> (forall x, In x s -> indices x = [] \/ indices x = repeat None d) ->
  i < length s ->
  (forall x, In x (fresh_step d s i) -> indices x = [] \/ indices x = repeat None d) /\ same_frame (fresh_step d s i) s /\
  get_indices (fresh_step d s i) i <> [] /\ (forall j, get_indices s j <> [] -> get_indices (fresh_step d s i) j <> []).
Proof.
  intros D H Hi. unfold fresh_step. destruct (Nat.eqb_spec (length (get_indices s i)) 0) as [E|E].
  2:{ split; [auto|]. split; [split; auto|]. split; [intro Z; apply E; now rewrite Z | auto]. }
  apply length_zero_iff_nil in E. destruct (nth_error s i) as [x|] eqn:N; [|apply nth_error_None in N; lia].
  assert (G : ~ (owns x = true \/ first_owner s (offset x) <> None)) by (rewrite <- get_nonempty by eauto; tauto).
  assert (W : owns x = false) by (destruct (owns x); tauto).
  assert (Fo : first_owner s (offset x) = None) by (destruct (first_owner s (offset x)); [exfalso; apply G; right; discriminate | auto]).
  assert (R : repeat (@None nat) d <> []) by (destruct d; [lia | discriminate]).
  assert (E1 : set_indices s i (repeat None d) = set_nth s i (Input (offset x) (source x) (repeat None d))).
  { unfold set_indices, find_indices. now rewrite N, W, Fo, N. }
  rewrite E1. split; [|split; [|split]].
  - intros y Hy. apply set_nth_In in Hy as [->|Hy]; auto.
  - now apply set_nth_frame.
  - eapply get_nonempty; [apply set_nth_same; auto|]. left. unfold owns. cbn. destruct (repeat None d); congruence.
  - intros j Hj. destruct (nth_error s j) as [y|] eqn:Nj.
    2:{ exfalso. apply Hj. unfold get_indices, find_indices. now rewrite Nj. }
    apply (get_nonempty s j y Nj) in Hj. destruct (Nat.eq_dec i j) as [->|Ne].
    + eapply get_nonempty; [apply set_nth_same; auto|]. left. unfold owns. cbn. destruct (repeat None d); congruence.
    + eapply get_nonempty; [rewrite set_nth_other by auto; exact Nj|]. destruct Hj as [Hj|Hj]; [now left|]. right.
      destruct (first_owner_set s i x (repeat None d) (offset y) N W R) as [Z|[Z _]]; [auto | now rewrite Z].
Qed.
Lemma frame_length {X} (s t : list (input X)) : same_frame s t -> length s = length t.
Proof. intros [A _]. apply (f_equal (@length nat)) in A. now rewrite !map_length in A. Qed.
Lemma fresh_loop d : 0 < d -> forall n k s, (forall x, In x s -> indices x = [] \/ indices x = repeat None d) -> k + n <= length s ->
  let s' := fold_left (fresh_step d) (seq k n) s in
  (forall x, In x s' -> indices x = [] \/ indices x = repeat None d) /\ same_frame s' s /\
  (forall j, (k <= j < k + n \/ get_indices s j <> []) -> get_indices s' j <> []).
Proof.
  intros D. induction n as [|n IH]; cbn; intros k s H L.
  - split; auto. split; [split; auto|]. intros j [|]; [lia | auto].
  - destruct (fresh_step_ok d s k D H) as (A & B & C & E); [lia|]. destruct (IH (S k) (fresh_step d s k)) as (A1 & B1 & C1); auto.
    { rewrite (frame_length _ _ B). lia. }
    split; auto. split; [destruct B, B1; split; congruence|].
    intros j Hj. apply C1. destruct (Nat.eq_dec j k) as [->|]; [right; auto|]. destruct Hj as [Hj|Hj]; [left; lia | right; auto].
Qed.
Lemma get_of_two d (s : list (input (option nat))) j : (forall x, In x s -> indices x = [] \/ indices x = repeat None d) -> get_indices s j <> [] -> get_indices s j = repeat None d.
Proof. intros H N. destruct (get_own s j) as [E|(x & I & _ & E)]; [congruence|]. rewrite E in *. destruct (H x I); congruence. Qed.
