(** C33: triangulation of a polygon set. *)
From Coq Require Import List Arith Bool Lia.
From Verif Require Import PolyModel PolySpec PolyProofs TriModel.
Import ListNotations.

(** *** Specification *)
(** The triangles of a fan and of a strip, as lists of the corners' indices. *)
Fixpoint fan_from {X} (a : X) (l : list X) : list X :=
  match l with b :: r => match r with c :: _ => [a; b; c] ++ fan_from a r | [] => [] end | [] => [] end.
Definition fan {X} (l : list X) : list X := match l with a :: r => fan_from a r | [] => [] end.
(** Every second triangle of a strip is turned so that all face the same side. *)
Fixpoint strip {X} (flip : bool) (l : list X) : list X :=
  match l with a :: r => match r with b :: c :: _ => (if flip then [a; c; b] else [a; b; c]) ++ strip (negb flip) r | _ => [] end | [] => [] end.
Definition triangles {X} (type : prim) (l : list X) : list X := match type with TRIANGLE_STRIPS => strip false l | _ => fan l end.
(** The faces one after the other: the first [c] indices belong to the first face and so on; holes and faces with less
    than three corners are dropped.  [k] is the number of the first face. *)
Fixpoint all_triangles {X} (type : prim) (holes : list nat) (k : nat) (cs : list nat) (l : list X) : list X :=
  match cs with
  | [] => []
  | c :: r => (if existsb (Nat.eqb k) holes then [] else triangles type (firstn c l)) ++ all_triangles type holes (S k) r (skipn c l)
  end.
Fixpoint triangle_count (holes : list nat) (k : nat) (cs : list nat) : nat :=
  match cs with [] => 0 | c :: r => (if existsb (Nat.eqb k) holes then 0 else c - 2) + triangle_count holes (S k) r end.
(** One index list per offset. *)
Definition one_owner {X} (ins : list (input X)) : Prop :=
  forall i j x y, nth_error ins i = Some x -> nth_error ins j = Some y -> offset x = offset y -> owns x = true -> owns y = true -> i = j.

(** *** Index lists *)
Definition offs {X} (ins : list (input X)) (i : nat) : option nat := option_map offset (nth_error ins i).
Fixpoint assoc {X} (os : list (nat * list X)) (i : nat) : list X :=
  match os with [] => [] | (k, l) :: r => if Nat.eqb k i then l else assoc r i end.
Definition inv {X} (ins0 : list (input X)) (os : list (nat * list X)) (s : list (input X)) : Prop :=
  same_frame s ins0 /\ NoDup (map (fun e => offs ins0 (fst e)) os) /\ (forall e, In e os -> fst e < length ins0) /\
  forall i x, nth_error s i = Some x -> indices x = assoc os i.
Lemma offs_frame {X} (s t : list (input X)) i : same_frame s t -> offs s i = offs t i.
Proof. intros [A _]. unfold offs. rewrite <- !nth_error_map. now rewrite A. Qed.
Lemma assoc_not {X} (os : list (nat * list X)) i : ~ In i (map fst os) -> assoc os i = [].
Proof. induction os as [|[k l] os IH]; cbn; intro H; auto. destruct (Nat.eqb_spec k i); [exfalso; apply H; now left|]. apply IH. tauto. Qed.
Lemma assoc_mid {X} (pre post : list (nat * list X)) i l : ~ In i (map fst pre) -> assoc (pre ++ (i, l) :: post) i = l.
Proof. induction pre as [|[k m] pre IH]; cbn; intro H; [now rewrite Nat.eqb_refl|]. destruct (Nat.eqb_spec k i); [exfalso; apply H; now left|]. apply IH. tauto. Qed.
Lemma assoc_other {X} (pre post : list (nat * list X)) i j l m : i <> j -> assoc (pre ++ (i, l) :: post) j = assoc (pre ++ (i, m) :: post) j.
Proof. intro N. induction pre as [|[k q] pre IH]; cbn; [destruct (Nat.eqb_spec i j); congruence|]. destruct (Nat.eqb k j); auto. Qed.
Lemma key_unique {X Y} (f : X -> Y) (l : list X) a b : NoDup (map f l) -> In a l -> In b l -> f a = f b -> a = b.
Proof.
  induction l as [|x l IH]; cbn; intros N Ia Ib E; [destruct Ia|]. inversion N as [|? ? N1 N2]; subst.
  destruct Ia as [->|Ia], Ib as [->|Ib]; auto; exfalso; apply N1; [rewrite E | rewrite <- E]; now apply in_map.
Qed.
Lemma inv_find {X} (ins0 : list (input X)) pre i out post s : inv ins0 (pre ++ (i, out) :: post) s -> find_indices s i = Some i /\ exists x, nth_error s i = Some x.
Proof.
  intros (Fr & N & L & C). assert (Li : i < length s).
  { rewrite (frame_length _ _ Fr). apply (L (i, out)). apply in_or_app. right. now left. }
  destruct (nth_error s i) as [x|] eqn:Nx; [|apply nth_error_None in Nx; lia]. split; [|eauto]. unfold find_indices. rewrite Nx.
  destruct (owns x); auto. destruct (first_owner s (offset x)) as [j|] eqn:Fo; auto. apply first_owner_some in Fo as (y & Ny & Wy & Oy).
  f_equal. assert (Ij : In j (map fst (pre ++ (i, out) :: post))).
  { destruct (in_dec Nat.eq_dec j (map fst (pre ++ (i, out) :: post))) as [|Nj]; auto. apply (assoc_not (X := X)) in Nj. rewrite <- (C j y Ny) in Nj. unfold owns in Wy. rewrite Nj in Wy. discriminate. }
  apply in_map_iff in Ij as (e & <- & Ie).
  assert (E : e = (i, out)).
  { apply (key_unique (fun e => offs ins0 (fst e)) _ _ _ N Ie); [apply in_or_app; right; now left|]. cbn. rewrite <- !(offs_frame _ _ _ Fr). unfold offs. rewrite Ny, Nx. cbn. now f_equal. }
  now subst.
Qed.
Lemma not_pre {X} (ins0 : list (input X)) pre i (out : list X) post : NoDup (map (fun e => offs ins0 (fst e)) (pre ++ (i, out) :: post)) -> ~ In i (map fst pre).
Proof.
  intros N I. rewrite map_app in N. cbn in N. apply NoDup_remove_2 in N. apply N. apply in_or_app. left. apply in_map_iff in I as (e & <- & Ie). now apply (in_map (fun e => offs ins0 (fst e))).
Qed.
Lemma inv_get {X} (ins0 : list (input X)) pre i out post s : inv ins0 (pre ++ (i, out) :: post) s -> get_indices s i = out.
Proof.
  intros I. destruct (inv_find _ _ _ _ _ _ I) as [Fi [x Nx]]. unfold get_indices. rewrite Fi, Nx. destruct I as (Fr & N & L & C). rewrite (C i x Nx).
  apply assoc_mid. eapply not_pre; eauto.
Qed.
Lemma inv_set {X} (ins0 : list (input X)) pre i out post s l : inv ins0 (pre ++ (i, out) :: post) s -> inv ins0 (pre ++ (i, l) :: post) (set_indices s i l).
Proof.
  intros I. destruct (inv_find _ _ _ _ _ _ I) as [Fi [x Nx]]. unfold set_indices. rewrite Fi, Nx. destruct I as (Fr & N & L & C).
  assert (Fr1 := set_nth_frame s i x l Nx). split; [|split; [|split]].
  - destruct Fr, Fr1. split; congruence.
  - rewrite map_app in *. exact N.
  - intros e Ie. apply in_app_iff in Ie as [Ie|[<-|Ie]]; [apply L; apply in_or_app; now left | | apply L; apply in_or_app; right; now right].
    apply (L (i, out)). apply in_or_app. right. now left.
  - intros j y Ny. destruct (Nat.eq_dec i j) as [<-|Ne].
    + rewrite set_nth_same in Ny by (apply nth_error_Some; congruence). injection Ny as <-. cbn. symmetry. apply assoc_mid. eapply not_pre; eauto.
    + rewrite set_nth_other in Ny by auto. rewrite (C j y Ny). now apply assoc_other.
Qed.
Lemma inv_add {X} (ins0 : list (input X)) pre i out post s v : inv ins0 (pre ++ (i, out) :: post) s -> inv ins0 (pre ++ (i, out ++ [v]) :: post) (add_index s i v).
Proof. intro I. unfold add_index. rewrite (inv_get _ _ _ _ _ _ I). now apply inv_set with out. Qed.
(** Reading positions. *)
Definition reads {X} (old : list X) (ps : list nat) (vs : list X) : Prop := map (nth_error old) ps = map Some vs.
Lemma inv_add_all {X} (ins0 : list (input X)) old i pre post : forall ps vs out s, reads old ps vs -> inv ins0 (pre ++ (i, out) :: post) s ->
  exists s', add_all old i ps s = Some s' /\ inv ins0 (pre ++ (i, out ++ vs) :: post) s'.
Proof.
  induction ps as [|p ps IH]; intros [|v vs] out s R I; cbn in R; try discriminate; cbn.
  - exists s. rewrite app_nil_r. auto.
  - injection R as R1 R2. rewrite R1. destruct (IH vs (out ++ [v]) (add_index s i v) R2) as (s' & E & I'); [now apply inv_add|].
    exists s'. split; auto. now rewrite <- app_assoc in I'.
Qed.
Lemma inv_triangle {X} (ins0 : list (input X)) ps (G V : list X -> list X) : forall olds pre s, (forall o, In o olds -> reads (fst o) ps (V (fst o))) ->
  inv ins0 (pre ++ map (fun o => (snd o, G (fst o))) olds) s ->
  exists s', add_triangle olds ps s = Some s' /\ inv ins0 (pre ++ map (fun o => (snd o, G (fst o) ++ V (fst o))) olds) s'.
Proof.
  induction olds as [|[old i] olds IH]; intros pre s R I; cbn in *; [exists s; auto|].
  destruct (inv_add_all ins0 old i pre (map (fun o => (snd o, G (fst o))) olds) ps (V old) (G old) s) as (s1 & E1 & I1); auto; [apply (R (old, i)); now left|]. rewrite E1.
  destruct (IH (pre ++ [(i, G old ++ V old)]) s1) as (s2 & E2 & I2).
  - intros; apply R; now right.
  - rewrite <- app_assoc. exact I1.
  - exists s2. split; auto. rewrite <- app_assoc in I2. exact I2.
Qed.
Lemma inv_triangles {X} (ins0 : list (input X)) type off olds V : forall ts G cs s,
  (forall o t, In o olds -> In t ts -> reads (fst o) (triangle type off t) (V t (fst o))) ->
  inv ins0 (map (fun o => (snd o, G (fst o))) olds) s ->
  exists s', add_triangles type olds off ts (cs, s) = Some (cs ++ repeat 3 (length ts), s') /\
    inv ins0 (map (fun o => (snd o, G (fst o) ++ flat_map (fun t => V t (fst o)) ts)) olds) s'.
Proof.
  induction ts as [|t ts IH]; intros G cs s R I; cbn [add_triangles flat_map length repeat].
  - exists s. rewrite app_nil_r. split; auto. rewrite (map_ext _ (fun o => (snd o, G (fst o)))); auto. intros; now rewrite app_nil_r.
  - destruct (inv_triangle ins0 (triangle type off t) G (V t) olds [] s) as (s1 & E1 & I1); auto.
    { intros; apply R; auto. now left. }
    cbn [snd fst]. rewrite E1. destruct (IH (fun l => G l ++ V t l) (cs ++ [3]) s1) as (s2 & E2 & I2); auto.
    { intros; apply R; auto. now right. }
    exists s2. rewrite E2. split; [now rewrite <- app_assoc|]. rewrite (map_ext _ (fun o => (snd o, (G (fst o) ++ V t (fst o)) ++ flat_map (fun t => V t (fst o)) ts))); auto.
    intros; now rewrite app_assoc.
Qed.
(** The triangles of a face, by positions. *)
Lemma reads_nth {X} (d : X) l ps : (forall p, In p ps -> p < length l) -> reads l ps (map (fun p => nth p l d) ps).
Proof. intro H. unfold reads. rewrite map_map. apply map_ext_in. intros p I. apply nth_error_nth'. now apply H. Qed.
Lemma fan_from_spec {X} (d a : X) : forall n l, length l = n -> fan_from a l = flat_map (fun t => [a; nth t l d; nth (t + 1) l d]) (seq 0 (n - 1)).
Proof.
  intros n l. revert n. induction l as [|b l IH]; intros n L; cbn in L; subst n; auto. destruct l as [|c l]; auto.
  change (fan_from a (b :: c :: l)) with ([a; b; c] ++ fan_from a (c :: l)). rewrite (IH (length (c :: l)) eq_refl).
  replace (S (length (c :: l)) - 1) with (S (length (c :: l) - 1)) by (cbn; lia).
  cbn [seq flat_map]. f_equal. rewrite <- seq_shift. rewrite !flat_map_concat_map, map_map. f_equal.
Qed.
Lemma strip_spec {X} (d : X) : forall l flip, strip flip l = flat_map (fun t => if xorb flip (Nat.even t) then [nth t l d; nth (t + 1) l d; nth (t + 2) l d] else [nth t l d; nth (t + 2) l d; nth (t + 1) l d]) (seq 0 (length l - 2)).
Proof.
  induction l as [|a l IH]; intro flip; auto. destruct l as [|b [|c l]]; auto.
  change (strip flip (a :: b :: c :: l)) with ((if flip then [a; c; b] else [a; b; c]) ++ strip (negb flip) (b :: c :: l)). rewrite IH.
  replace (length (a :: b :: c :: l) - 2) with (S (length (b :: c :: l) - 2)) by (cbn; lia). cbn [seq flat_map]. f_equal; [destruct flip; reflexivity|].
  rewrite <- seq_shift, !flat_map_concat_map, map_map. f_equal. apply map_ext. intro t. cbn [nth Nat.add]. rewrite Nat.even_succ, <- Nat.negb_even.
  destruct flip, (Nat.even t); reflexivity.
Qed.
Lemma nth_firstn {X} (d : X) : forall n l k, k < n -> nth k (firstn n l) d = nth k l d.
Proof. induction n as [|n IH]; intros [|x l] [|k] H; cbn; auto; try lia. apply IH. lia. Qed.
Lemma nth_skipn {X} (d : X) : forall n l k, nth k (skipn n l) d = nth (n + k) l d.
Proof. induction n as [|n IH]; intros [|x l] k; cbn; auto. now destruct k. Qed.
Lemma face_triangles {X} (d : X) type off c l : off + c <= length l ->
  flat_map (fun t => map (fun p => nth p l d) (triangle type off t)) (seq 0 (c - 2)) = triangles type (firstn c (skipn off l)).
Proof.
  intro L. assert (Lf : length (firstn c (skipn off l)) = c) by (rewrite firstn_length, skipn_length; lia).
  assert (Nt : forall k, k < c -> nth k (firstn c (skipn off l)) d = nth (off + k) l d) by (intros; now rewrite nth_firstn, nth_skipn).
  assert (Fan : fan (firstn c (skipn off l)) = flat_map (fun t => [nth off l d; nth (off + t + 1) l d; nth (off + t + 2) l d]) (seq 0 (c - 2))).
  { destruct (firstn c (skipn off l)) as [|a f] eqn:E; [cbn in Lf; subst c; reflexivity|]. unfold fan. rewrite (fan_from_spec d a (length f)) by auto.
    cbn in Lf. replace (length f - 1) with (c - 2) by lia. rewrite !flat_map_concat_map. f_equal. apply map_ext_in. intros t It. apply in_seq in It.
    assert (a = nth off l d) by (specialize (Nt 0); cbn in Nt; rewrite Nt, Nat.add_0_r by lia; auto).
    assert (nth t f d = nth (off + t + 1) l d) by (specialize (Nt (S t)); cbn in Nt; rewrite Nt by lia; f_equal; lia).
    assert (nth (t + 1) f d = nth (off + t + 2) l d) by (specialize (Nt (S (t + 1))); cbn in Nt; rewrite Nt by lia; f_equal; lia). congruence. }
  destruct type; cbn [triangles triangle]; try (rewrite Fan; reflexivity).
  rewrite (strip_spec d), Lf. rewrite !flat_map_concat_map. f_equal. apply map_ext_in. intros t It. apply in_seq in It. cbn [xorb].
  rewrite !Nt by lia. rewrite !Nat.add_assoc. destruct (Nat.even t); reflexivity.
Qed.
Lemma small_face {X} type (l : list X) : length l < 3 -> triangles type l = [].
Proof. intro H. destruct l as [|a [|b [|c l]]]; cbn in H; try lia; destruct type; reflexivity. Qed.
Lemma inv_faces {X} (ins0 : list (input X)) type holes olds : forall cs index off G acc s,
  (forall o, In o olds -> off + sum cs <= length (fst o)) ->
  inv ins0 (map (fun o => (snd o, G (fst o))) olds) s ->
  exists s', add_faces type holes olds index off cs (acc, s) = Some (acc ++ repeat 3 (triangle_count holes index cs), s') /\
    inv ins0 (map (fun o => (snd o, G (fst o) ++ all_triangles type holes index cs (skipn off (fst o)))) olds) s'.
Proof.
  induction cs as [|c cs IH]; intros index off G acc s L I; cbn [add_faces triangle_count all_triangles].
  - exists s. cbn. rewrite app_nil_r. split; auto. rewrite (map_ext _ (fun o => (snd o, G (fst o)))); auto. intros; now rewrite app_nil_r.
  - cbn [sum fold_right] in L. fold (sum cs) in L.
    assert (Sk : forall l : list X, skipn c (skipn off l) = skipn (off + c) l).
    { clear. induction off as [|n IH]; intros l; cbn; auto. destruct l; [now rewrite skipn_nil | apply IH]. }
    set (vals := fun l : list X => if existsb (Nat.eqb index) holes then [] else triangles type (firstn c (skipn off l))).
    assert (Step : exists s1, (if negb (existsb (Nat.eqb index) holes) && (3 <=? c) then add_triangles type olds off (seq 0 (c - 2)) (acc, s) else Some (acc, s)) =
               Some (acc ++ repeat 3 (if existsb (Nat.eqb index) holes then 0 else c - 2), s1) /\
             inv ins0 (map (fun o => (snd o, G (fst o) ++ vals (fst o))) olds) s1).
    { unfold vals. destruct (existsb (Nat.eqb index) holes) eqn:Hh; cbn [negb andb].
      - exists s. cbn. rewrite app_nil_r. split; auto. rewrite (map_ext _ (fun o => (snd o, G (fst o)))); auto. intros; now rewrite app_nil_r.
      - destruct (Nat.leb_spec 3 c) as [Hc|Hc].
        + assert (Vd : forall o, In o olds -> exists d : X, True) by (intros o Io; specialize (L o Io); destruct (fst o) as [|d ?]; [cbn in L; lia | exists d; auto]).
          destruct olds as [|o1 olds'] eqn:Eo.
          * destruct (inv_triangles ins0 type off [] (fun _ _ => []) (seq 0 (c - 2)) G acc s) as (s1 & E1 & I1); [intros ? ? [] | exact I|].
            exists s1. rewrite E1, seq_length. split; auto.
          * destruct (Vd o1 (or_introl eq_refl)) as [d _]. rewrite <- Eo in *.
            destruct (inv_triangles ins0 type off olds (fun t l => map (fun p => nth p l d) (triangle type off t)) (seq 0 (c - 2)) G acc s) as (s1 & E1 & I1); auto.
            { intros o t Io It. apply reads_nth. apply in_seq in It. specialize (L o Io). intros p Hp. unfold triangle in Hp. destruct type; try destruct (Nat.even t); cbn in Hp; lia. }
            exists s1. rewrite E1, seq_length. split; auto.
            rewrite (map_ext_in _ (fun o => (snd o, G (fst o) ++ flat_map (fun t => map (fun p => nth p (fst o) d) (triangle type off t)) (seq 0 (c - 2))))); auto.
            intros o Io. rewrite face_triangles; auto. specialize (L o Io). lia.
        + exists s. replace (c - 2) with 0 by lia. cbn. rewrite app_nil_r. split; auto.
          rewrite (map_ext _ (fun o => (snd o, G (fst o)))); auto. intros. rewrite small_face, app_nil_r; auto. rewrite firstn_length. lia. }
    destruct Step as (s1 & E1 & I1). rewrite E1.
    destruct (IH (S index) (off + c) (fun l => G l ++ vals l) (acc ++ repeat 3 (if existsb (Nat.eqb index) holes then 0 else c - 2)) s1) as (s2 & E2 & I2); auto.
    { intros o Io. specialize (L o Io). lia. }
    exists s2. rewrite E2. split; [now rewrite <- app_assoc, <- repeat_app|].
    rewrite (map_ext _ (fun o => (snd o, (G (fst o) ++ vals (fst o)) ++ all_triangles type holes (S index) cs (skipn (off + c) (fst o))))); auto.
    intros. rewrite Sk, <- app_assoc. reflexivity.
Qed.

(** *** Collecting the old lists *)
Lemma first_owner_exists {X} (s : list (input X)) : forall j y, nth_error s j = Some y -> owns y = true -> exists k z, first_owner s (offset y) = Some k /\ nth_error s k = Some z /\ owns z = true /\ offset z = offset y.
Proof.
  intros j y N W. destruct (first_owner s (offset y)) as [k|] eqn:F.
  - destruct (first_owner_some _ _ _ F) as (z & A & B & C). exists k, z. auto.
  - exfalso. revert j N F. induction s as [|z s IH]; intros [|j] N F; cbn in *; try discriminate.
    + injection N as ->. rewrite Nat.eqb_refl, W in F. discriminate.
    + destruct (Nat.eqb (offset z) (offset y) && owns z); [discriminate|]. destruct (first_owner s (offset y)); [discriminate|]. eauto.
Qed.
(** With one list per offset, an input sees the list of the owner at its offset. *)
Lemma get_class {X} (s : list (input X)) i j x y : one_owner s -> nth_error s i = Some x -> nth_error s j = Some y -> offset x = offset y -> owns y = true -> get_indices s i = indices y.
Proof.
  intros U Nx Ny O W. unfold get_indices, find_indices. rewrite Nx. destruct (owns x) eqn:Wx.
  - rewrite Nx. assert (i = j) by (eapply U; eauto). subst. congruence.
  - destruct (first_owner_exists s j y Ny W) as (k & z & Fk & Nz & Wz & Oz). rewrite O, Fk, Nz. assert (k = j) by (eapply U; eauto). subst. congruence.
Qed.
Lemma get_class_none {X} (s : list (input X)) i x : nth_error s i = Some x -> (forall j y, nth_error s j = Some y -> offset y = offset x -> owns y = false) -> get_indices s i = [].
Proof.
  intros Nx H. unfold get_indices, find_indices. rewrite Nx, (H i x Nx eq_refl). destruct (first_owner s (offset x)) as [j|] eqn:F.
  - apply first_owner_some in F as (y & A & B & C). rewrite (H j y A C) in B. discriminate.
  - rewrite Nx. specialize (H i x Nx eq_refl). unfold owns in H. destruct (indices x); [auto | discriminate].
Qed.
Definition taken {X} (ins0 : list (input X)) (olds : list (list X * nat)) (o : nat) : Prop := In (Some o) (map (fun e => offs ins0 (snd e)) olds).
Definition cinv {X} (ins0 : list (input X)) (k : nat) (olds : list (list X * nat)) (s : list (input X)) : Prop :=
  same_frame s ins0 /\ NoDup (map (fun e => offs ins0 (snd e)) olds) /\
  (forall e, In e olds -> snd e < length ins0 /\ fst e = get_indices ins0 (snd e) /\ fst e <> []) /\
  (forall i x, i < k -> nth_error ins0 i = Some x -> get_indices ins0 i <> [] -> taken ins0 olds (offset x)) /\
  (forall i x x0, nth_error s i = Some x -> nth_error ins0 i = Some x0 -> (taken ins0 olds (offset x) /\ indices x = []) \/ (~ taken ins0 olds (offset x) /\ x = x0)).
Lemma frame_nth {X} (s t : list (input X)) i x : same_frame s t -> nth_error s i = Some x -> exists y, nth_error t i = Some y /\ offset y = offset x.
Proof.
  intros Fr N. pose proof (offs_frame s t i Fr) as E. unfold offs in E. rewrite N in E. destruct (nth_error t i) as [y|]; [|discriminate]. exists y. split; auto. cbn in E. congruence.
Qed.
Lemma collect_inv {X} (ins0 : list (input X)) : one_owner ins0 -> forall n k olds s, k + n <= length ins0 -> cinv ins0 k olds s ->
  cinv ins0 (k + n) (fst (fold_left collect_step (seq k n) (olds, s))) (snd (fold_left collect_step (seq k n) (olds, s))).
Proof.
  intro U. induction n as [|n IH]; intros k olds s L C; cbn [seq fold_left]; [now rewrite Nat.add_0_r|].
  assert (St : cinv ins0 (S k) (fst (collect_step (olds, s) k)) (snd (collect_step (olds, s) k))).
  { destruct C as (Fr & Nd & E & Cov & Cnt). unfold collect_step. cbn [fst snd].
    destruct (nth_error ins0 k) as [x0|] eqn:N0; [|apply nth_error_None in N0; lia].
    assert (Fr' : same_frame ins0 s) by (destruct Fr; split; auto).
    destruct (frame_nth _ _ _ _ Fr' N0) as (x & Nx & Ox).
    assert (T : taken ins0 olds (offset x) \/ ~ taken ins0 olds (offset x)).
    { unfold taken. destruct (in_dec (fun a b : option nat => ltac:(decide equality; apply Nat.eq_dec)) (Some (offset x)) (map (fun e => offs ins0 (snd e)) olds)); auto. }
    destruct T as [T|T].
    - assert (G : get_indices s k = []).
      { apply (get_class_none s k x Nx). intros j y Ny Oy. destruct (frame_nth _ _ _ _ Fr Ny) as (y0 & Ny0 & _).
        destruct (Cnt j y y0 Ny Ny0) as [[_ Z]|[Z _]]; [unfold owns; now rewrite Z|]. rewrite Oy in Z. contradiction. }
      rewrite G. cbn [fst snd]. split; [exact Fr|]. split; [exact Nd|]. split; [exact E|]. split; [|exact Cnt].
      intros i z Hi Nz Gz. destruct (Nat.eq_dec i k) as [->|]; [|apply (Cov i); auto; lia]. rewrite N0 in Nz. injection Nz as <-. now rewrite <- Ox.
    - assert (Sm : forall j y, nth_error s j = Some y -> offset y = offset x -> nth_error ins0 j = Some y).
      { intros j y Ny Oy. destruct (frame_nth _ _ _ _ Fr Ny) as (y0 & Ny0 & _). destruct (Cnt j y y0 Ny Ny0) as [[Z _]|[_ ->]]; auto. rewrite Oy in Z. contradiction. }
      assert (Nx0 := Sm k x Nx eq_refl).
      assert (G : get_indices s k = get_indices ins0 k).
      { destruct (get_indices ins0 k) as [|v w] eqn:G0.
        - apply (get_class_none s k x Nx). intros j y Ny Oy. destruct (owns y) eqn:Wy; auto.
          assert (Gk : get_indices ins0 k = indices y) by (apply (get_class ins0 k j x y); auto). rewrite Gk in G0. unfold owns in Wy. rewrite G0 in Wy. discriminate.
        - assert (Ne : get_indices ins0 k <> []) by (rewrite G0; discriminate). apply (get_nonempty ins0 k x Nx0) in Ne.
          assert (Ow : exists j y, nth_error ins0 j = Some y /\ owns y = true /\ offset y = offset x).
          { destruct Ne as [Ne|Ne]; [exists k, x; auto|]. destruct (first_owner ins0 (offset x)) as [j|] eqn:F; [|congruence]. apply first_owner_some in F as (y & A & B & C1). exists j, y. auto. }
          destruct Ow as (j & y & Nj & Wj & Oj). assert (Ns : nth_error s j = Some y).
          { destruct (frame_nth _ _ _ _ Fr' Nj) as (y1 & Ny1 & Oy1). assert (nth_error ins0 j = Some y1) by (apply Sm; congruence). congruence. }
          assert (Us : get_indices s k = indices y).
          { unfold get_indices, find_indices. rewrite Nx. destruct (owns x) eqn:Wx.
            - rewrite Nx. assert (k = j) by (eapply U; eauto). subst. congruence.
            - destruct (first_owner_exists s j y Ns Wj) as (m & z & Fm & Nm & Wm & Om). rewrite <- Oj, Fm, Nm.
              assert (nth_error ins0 m = Some z) by (apply Sm; congruence). assert (m = j) by (eapply U; eauto; congruence). subst. congruence. }
          rewrite Us, <- G0. symmetry. apply (get_class ins0 k j x y); auto. }
      rewrite G. destruct (get_indices ins0 k) as [|v w] eqn:G0.
      + cbn [fst snd]. split; [exact Fr|]. split; [exact Nd|]. split; [exact E|]. split; [|exact Cnt].
        intros i z Hi Nz Gz. destruct (Nat.eq_dec i k) as [->|]; [congruence | apply (Cov i); auto; lia].
      + rewrite <- G0 in *. assert (Ne : get_indices ins0 k <> []) by (rewrite G0; discriminate).
        assert (Nes : get_indices s k <> []) by congruence. cbn [fst snd]. unfold set_indices.
        assert (Fi : exists j y, find_indices s k = Some j /\ nth_error s j = Some y /\ offset y = offset x /\ owns y = true).
        { unfold find_indices. rewrite Nx. destruct (owns x) eqn:Wx; [exists k, x; auto|]. apply (get_nonempty s k x Nx) in Nes as [|Nes]; [congruence|].
          destruct (first_owner s (offset x)) as [j|] eqn:F; [|congruence]. destruct (first_owner_some _ _ _ F) as (y & A & B & C1). exists j, y. auto. }
        destruct Fi as (j & y & Fi & Ny & Oy & Wy). rewrite Fi, Ny. assert (Fr1 := set_nth_frame s j y [] Ny).
        assert (Tk : forall o, taken ins0 (olds ++ [(get_indices ins0 k, k)]) o <-> taken ins0 olds o \/ o = offset x).
        { intro o. unfold taken. rewrite map_app, in_app_iff. cbn [map snd]. assert (Ek : offs ins0 k = Some (offset x)) by (unfold offs; now rewrite Nx0). rewrite Ek. split.
          - intros [H|[H|[]]]; [now left | right; congruence].
          - intros [H| ->]; [now left | right; now left]. }
        split; [destruct Fr, Fr1; split; congruence|]. split.
        { rewrite map_app. cbn. apply NoDup_rev in Nd. rewrite <- rev_involutive. apply NoDup_rev. rewrite rev_app_distr. cbn. constructor; auto.
          intro I. apply in_rev in I. apply T. unfold taken. unfold offs at 1 in I. rewrite Nx0 in I. exact I. }
        split.
        { intros e Ie. apply in_app_iff in Ie as [Ie|[<-|[]]]; [auto|]. cbn. split; [apply nth_error_Some; congruence | auto]. }
        split.
        { intros i z Hi Nz Gz. apply Tk. destruct (Nat.eq_dec i k) as [->|]; [right; congruence | left; apply (Cov i); auto; lia]. }
        intros i z z0 Nz Nz0. destruct (Nat.eq_dec j i) as [<-|Nji].
        * rewrite set_nth_same in Nz by (apply nth_error_Some; congruence). injection Nz as <-. left. cbn. split; auto. apply Tk. now right.
        * rewrite set_nth_other in Nz by auto. destruct (Cnt i z z0 Nz Nz0) as [[A B]|[A B]]; [left; split; auto; apply Tk; auto|].
          destruct (Nat.eq_dec (offset z) (offset x)) as [Oz|Oz]; [|right; split; auto; rewrite Tk; tauto].
          left. split; [apply Tk; now right|]. destruct (owns z) eqn:Wz; [|unfold owns in Wz; destruct (indices z); [auto | discriminate]].
          exfalso. apply Nji. apply (U j i y z); auto; congruence. }
  specialize (IH (S k) (fst (collect_step (olds, s) k)) (snd (collect_step (olds, s) k))).
  rewrite <- surjective_pairing in IH. replace (k + S n) with (S k + n) by lia. apply IH; auto. lia.
Qed.
Lemma collect_spec {X} (ins : list (input X)) : one_owner ins ->
  inv ins (map (fun o => (snd o, [])) (fst (collect ins))) (snd (collect ins)) /\
  (forall o, In o (fst (collect ins)) -> fst o = get_indices ins (snd o) /\ fst o <> [] /\ snd o < length ins) /\
  (forall i x, nth_error ins i = Some x -> get_indices ins i <> [] -> exists o, In o (fst (collect ins)) /\ fst o = get_indices ins i /\ offs ins (snd o) = Some (offset x)).
Proof.
  intro U. assert (C0 : cinv ins 0 [] ins).
  { split; [split; auto|]. split; [constructor|]. split; [intros ? []|]. split; [intros; lia|]. intros i x x0 N N0. right. split; [intros [] | congruence]. }
  pose proof (collect_inv ins U (length ins) 0 [] ins (le_n _) C0) as C. fold (collect ins) in C. destruct C as (Fr & Nd & E & Cov & Cnt). cbn in Cov.
  split; [|split].
  - split; [exact Fr|]. split; [rewrite map_map; exact Nd|]. split.
    + intros e Ie. apply in_map_iff in Ie as (o & <- & Io). apply E in Io. tauto.
    + intros i x N. assert (assoc (map (fun o : list X * nat => (snd o, @nil X)) (fst (collect ins))) i = []) as ->.
      { generalize (fst (collect ins)). induction l as [|o l IH]; cbn; auto. destruct (Nat.eqb (snd o) i); auto. }
      destruct (frame_nth _ _ _ _ Fr N) as (x0 & N0 & O0). destruct (Cnt i x x0 N N0) as [[_ A]|[A ->]]; auto.
      destruct (owns x0) eqn:W; [|unfold owns in W; destruct (indices x0); [auto | discriminate]]. exfalso. apply A. apply (Cov i x0); auto.
      * apply nth_error_Some. congruence.
      * rewrite (get_owner _ _ _ N0 W). unfold owns in W. destruct (indices x0); [discriminate | congruence].
  - intros o Io. apply E in Io. tauto.
  - intros i x N G. assert (Li : i < length ins) by (apply nth_error_Some; congruence). specialize (Cov i x Li N G). unfold taken in Cov. apply in_map_iff in Cov as (o & Oo & Io). exists o. split; auto. split; auto.
    destruct (E o Io) as (Lo & Fo & No). rewrite Fo. unfold offs in Oo. destruct (nth_error ins (snd o)) as [y|] eqn:Ny; [|discriminate]. cbn in Oo. injection Oo as Oo.
    assert (Ow : exists j z, nth_error ins j = Some z /\ owns z = true /\ offset z = offset x).
    { apply (get_nonempty ins i x N) in G as [G|G]; [exists i, x; auto|]. destruct (first_owner ins (offset x)) as [j|] eqn:F; [|congruence]. apply first_owner_some in F as (z & A & B & C). exists j, z. auto. }
    destruct Ow as (j & z & Nz & Wz & Oz). rewrite (get_class ins (snd o) j y z), (get_class ins i j x z); auto; congruence.
Qed.
(** What an input sees in the end. *)
Lemma inv_see {X} (ins0 : list (input X)) os s e x i : inv ins0 os s -> In e os -> nth_error ins0 i = Some x -> offs ins0 (fst e) = Some (offset x) -> get_indices s i = snd e.
Proof.
  intros (Fr & N & L & C) Ie Nx Oe. assert (Fr' : same_frame ins0 s) by (destruct Fr; split; auto).
  destruct (frame_nth _ _ _ _ Fr' Nx) as (y & Ny & Oy).
  assert (Key : forall j z, nth_error s j = Some z -> owns z = true -> offset z = offset x -> j = fst e).
  { intros j z Nz Wz Oz. assert (Ij : In j (map fst os)).
    { destruct (in_dec Nat.eq_dec j (map fst os)) as [|Nj]; auto. apply (assoc_not (X := X)) in Nj. rewrite <- (C j z Nz) in Nj. unfold owns in Wz. rewrite Nj in Wz. discriminate. }
    apply in_map_iff in Ij as (e1 & <- & Ie1). f_equal. apply (key_unique (fun e => offs ins0 (fst e)) _ _ _ N Ie1 Ie). rewrite Oe. rewrite <- (offs_frame _ _ _ Fr). unfold offs. rewrite Nz. cbn. now f_equal. }
  assert (As : assoc os (fst e) = snd e).
  { apply in_split in Ie as (pre & post & ->). destruct e as [k l]. cbn. apply assoc_mid. eapply not_pre; eauto. }
  assert (Le : fst e < length s) by (rewrite (frame_length _ _ Fr); auto).
  destruct (nth_error s (fst e)) as [w|] eqn:Nw; [|apply nth_error_None in Nw; lia].
  assert (Ow : offset w = offset x). { destruct (frame_nth _ _ _ _ Fr Nw) as (w0 & Nw0 & Ow0). unfold offs in Oe. rewrite Nw0 in Oe. cbn in Oe. congruence. }
  assert (Iw : indices w = snd e) by (rewrite (C _ _ Nw); auto).
  unfold get_indices, find_indices. rewrite Ny. destruct (owns y) eqn:Wy.
  - rewrite Ny. assert (i = fst e) by (apply (Key i y); auto). subst. congruence.
  - destruct (first_owner s (offset y)) as [j|] eqn:F.
    + apply first_owner_some in F as (z & A & B & D). rewrite A. assert (j = fst e) by (apply (Key j z); congruence). subst. congruence.
    + rewrite Ny. unfold owns in Wy. destruct (indices y); [|discriminate]. destruct (owns w) eqn:Ww; [|unfold owns in Ww; destruct (indices w); [congruence | discriminate]].
      destruct (first_owner_exists s (fst e) w Nw Ww) as (k & z & Fk & _). congruence.
Qed.

(** *** The theorem *)
(** For every polygon set (one index list per offset) whose index lists reach to the end of the faces: nothing is read
    behind an index list, every input gets exactly the triangles of its own list, and the counts agree. *)
Theorem C33_triangulate : forall X (p : pset X), one_owner (pinputs p) ->
  (forall i, get_indices (pinputs p) i <> [] -> sum (pcounts p) <= length (get_indices (pinputs p) i)) ->
  match ptype p with
  | LINES | LINE_STRIPS | POINTS => Triangulate p = Some p
  | type =>
      exists q, Triangulate p = Some q /\ ptype q = POLYGONS /\ pholes q = [] /\
        pcounts q = repeat 3 (triangle_count (pholes p) 0 (pcounts p)) /\ length (pinputs q) = length (pinputs p) /\
        forall i, i < length (pinputs p) -> get_indices (pinputs p) i <> [] ->
          get_indices (pinputs q) i = all_triangles type (pholes p) 0 (pcounts p) (get_indices (pinputs p) i)
  end.
Proof.
  intros X [type cs hs ins] U L. cbn [ptype pinputs pcounts pholes] in *.
  destruct (collect_spec ins U) as (I0 & E & Cov).
  assert (G : type <> LINES -> type <> LINE_STRIPS -> type <> POINTS -> exists q, Triangulate (PSet type cs hs ins) = Some q /\ ptype q = POLYGONS /\ pholes q = [] /\
        pcounts q = repeat 3 (triangle_count hs 0 cs) /\ length (pinputs q) = length ins /\
        forall i, i < length ins -> get_indices ins i <> [] -> get_indices (pinputs q) i = all_triangles type hs 0 cs (get_indices ins i)).
  { intros T1 T2 T3. destruct (inv_faces ins type hs (fst (collect ins)) cs 0 0 (fun _ => []) [] (snd (collect ins))) as (s & Es & Is); auto.
    { intros o Io. destruct (E o Io) as (F1 & F2 & F3). rewrite F1 in *. cbn. now apply L. }
    exists (PSet POLYGONS (repeat 3 (triangle_count hs 0 cs)) [] s). split.
    { unfold Triangulate. cbn [ptype pinputs pcounts pholes]. rewrite (surjective_pairing (collect ins)). destruct type; try congruence; rewrite Es; reflexivity. }
    cbn [ptype pholes pcounts pinputs]. split; auto. split; auto. split; auto. split; [apply frame_length, Is|].
    intros i Hi Gi. destruct (nth_error ins i) as [x|] eqn:Nx; [|apply nth_error_None in Nx; lia]. destruct (Cov i x Nx Gi) as (o & Io & Fo & Oo).
    rewrite (inv_see ins _ s (snd o, [] ++ all_triangles type hs 0 cs (skipn 0 (fst o))) x i Is); auto.
    - cbn. now rewrite Fo.
    - apply in_map_iff. exists o. auto. }
  destruct type; try reflexivity; apply G; congruence.
Qed.
Print Assumptions C33_triangulate.
Lemma triangles_length {X} type (l : list X) : length (triangles type l) = 3 * (length l - 2).
Proof.
  assert (Fn : forall (a : X) m, length (fan_from a m) = 3 * (length m - 1)).
  { intros a m. induction m as [|b m IH]; auto. destruct m as [|c m]; auto. change (fan_from a (b :: c :: m)) with ([a; b; c] ++ fan_from a (c :: m)). rewrite app_length, IH. cbn. lia. }
  assert (Sn : forall (m : list X) f, length (strip f m) = 3 * (length m - 2)).
  { clear. induction m as [|a m IH]; intro f; auto. destruct m as [|b [|c m]]; auto.
    change (strip f (a :: b :: c :: m)) with ((if f then [a; c; b] else [a; b; c]) ++ strip (negb f) (b :: c :: m)). rewrite app_length, IH. destruct f; cbn [length]; lia. }
  destruct type; cbn [triangles]; auto; destruct l as [|a l]; auto; cbn [fan]; rewrite Fn; cbn [length]; lia.
Qed.
(** The index lists are in step with the new counts, and a face of n corners that is no hole gave n - 2 triangles of its
    own indices. *)
Theorem C33_in_step : forall X type holes cs (l : list X), sum cs <= length l ->
  length (all_triangles type holes 0 cs l) = sum (repeat 3 (triangle_count holes 0 cs)) /\
  (forall v, In v (all_triangles type holes 0 cs l) -> In v l) /\
  forall f : list X, length (triangles type f) = 3 * (length f - 2) /\ (forall v, In v (triangles type f) -> In v f).
Proof.
  intros X type holes cs l. assert (S3 : forall n, sum (repeat 3 n) = 3 * n) by (induction n as [|n IH]; cbn; auto; fold (sum (repeat 3 n)); lia).
  assert (In3 : forall f v, In v (triangles type f) -> In v (f : list X)).
  { assert (Fn : forall (a : X) m v, In v (fan_from a m) -> v = a \/ In v m).
    { intros a m v. induction m as [|b m IH]; [intros []|]. destruct m as [|c m]; [intros []|]. change (fan_from a (b :: c :: m)) with ([a; b; c] ++ fan_from a (c :: m)).
      intro I. apply in_app_iff in I as [I|I]; [cbn in I; cbn; intuition auto|]. apply IH in I as [|]; auto. right. now right. }
    assert (Sn : forall (m : list X) f v, In v (strip f m) -> In v m).
    { clear. induction m as [|a m IH]; intros f v; [intros []|]. destruct m as [|b [|c m]]; try (intros []).
      change (strip f (a :: b :: c :: m)) with ((if f then [a; c; b] else [a; b; c]) ++ strip (negb f) (b :: c :: m)). intro I.
      apply in_app_iff in I as [I|I]; [destruct f; cbn in I; cbn; intuition auto|]. right. now apply IH in I. }
    intros f v. destruct type; cbn [triangles]; try apply Sn; destruct f as [|a f]; auto; cbn [fan]; intro I; apply Fn in I as [->|I]; [now left | now right | now left | now right | now left | now right | now left | now right | now left | now right]. }
  intro L. split; [|split].
  - rewrite S3. enough (G : forall k l, sum cs <= length (l : list X) -> length (all_triangles type holes k cs l) = 3 * triangle_count holes k cs) by auto. clear l L. induction cs as [|c cs IH]; intros k l L; cbn [all_triangles triangle_count]; auto.
    cbn [sum fold_right] in L. fold (sum cs) in L. rewrite app_length, IH by (rewrite skipn_length; lia).
    destruct (existsb (Nat.eqb k) holes); cbn [length]; [lia|]. rewrite triangles_length, firstn_length. lia.
  - clear L. revert l. generalize 0. induction cs as [|c cs IH]; intros k l v I; cbn in I; [destruct I|]. apply in_app_iff in I as [I|I].
    + destruct (existsb _ holes); [destruct I|]. apply In3 in I. rewrite <- (firstn_skipn c l). apply in_or_app. now left.
    + apply IH in I. rewrite <- (firstn_skipn c l). apply in_or_app. now right.
  - intros f. split; [apply triangles_length | apply In3].
Qed.
Print Assumptions C33_in_step.
Example C33_demo : let p := PSet POLYGONS [4; 3; 5; 2] [1] [Input 0 0 []; Input 0 1 (seq 10 14); Input 1 2 (seq 50 14)] in
  one_owner (pinputs p) /\ exists q, Triangulate p = Some q /\ pcounts q = [3; 3; 3; 3; 3] /\
  get_indices (pinputs q) 1 = [10; 11; 12; 10; 12; 13; 17; 18; 19; 17; 19; 20; 17; 20; 21] /\ get_indices (pinputs q) 0 = get_indices (pinputs q) 1.
Proof.
  split.
  - intros i j x y. cbn. destruct i as [|[|[|i]]], j as [|[|[|j]]]; cbn; intros H1 H2; try (injection H1 as <-); try (injection H2 as <-); cbn; try discriminate; auto; destruct i || destruct j; discriminate.
  - eexists. split; [vm_compute; reflexivity | repeat split].
Qed.
Example C33_strip_demo : exists q, Triangulate (PSet TRIANGLE_STRIPS [5] [] [Input 0 0 [1; 2; 3; 4; 5]]) = Some q /\ get_indices (pinputs q) 0 = [1; 2; 3; 2; 4; 3; 3; 4; 5].
Proof. eexists. split; reflexivity. Qed.
