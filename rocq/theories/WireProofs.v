(** Lemmas for the import of splines. *)
From Coq Require Import String List ZArith QArith Bool Lia Lqa.
From Verif Require Import TextModel TextSpec TextProofs StringModel StringProofs XmlModel EnumModel FloatModel FloatSpec DaeModel DaeSpec DaeProofs RigModel RigSpec RigTextProofs RigProofs
  AnimModel CustomModel CustomSpec CustomReadProofs AssetSpec WireModel WireSpec.
From Verif Require LampCameraProps.
Import ListNotations.
Local Open Scope nat_scope.
Local Open Scope list_scope.

(** *** Elements *)
Lemma child_found name n c : first_child (children_of n) (is_elem name) c -> FindChildByType n name = Some c.
Proof. apply LampCameraProps.child_found. Qed.
Lemma child_missing name n : no_child (children_of n) name -> FindChildByType n name = None.
Proof. apply LampCameraProps.child_missing. Qed.
Lemma attr_iff c k v : plain v -> v <> [] -> (forall w, has_attr c k w -> plain w) -> (ReadNodeProperty c k = v <-> has_attr c k v).
Proof.
  intros Hp Hn Hw. split; intro H.
  - destruct (read_attr_has _ _ _ H Hn) as (w & A & E). rewrite (plain_same w (Hw w A)) in E. now subst w.
  - now apply has_attr_plain.
Qed.
Lemma plain_word : plain (tx "FCOLLADA").
Proof. split; [apply Forall_forall; intros c Hc; vm_compute in Hc; intuition (subst; lia)|intro H; vm_compute in H; intuition discriminate]. Qed.
Lemma technique_iff ch c : plain_profiles ch -> In c ch ->
  (named c "technique" && text_eq (ReadNodeProperty c "profile") (tx "FCOLLADA") = true <-> technique_for "FCOLLADA" c).
Proof.
  intros Hp Hc. rewrite andb_true_iff, named_iff, text_eq_spec. unfold technique_for.
  rewrite (attr_iff c "profile" (tx "FCOLLADA")); [tauto|apply plain_word|discriminate|intros w; now apply Hp].
Qed.
Lemma technique_found n q : says_technique n q -> technique_of n = Some q.
Proof.
  intros (e & He & Hp & Hq). unfold technique_of. rewrite (child_found _ _ _ He). unfold FindTechnique.
  apply find_first with (P := technique_for "FCOLLADA"); [|exact Hq]. intros d Hd. now apply (technique_iff (children_of e)).
Qed.
Lemma word_type word k : type_word word k -> TypeFromString (tx word) = k.
Proof. destruct 1; reflexivity. Qed.
Lemma type_known word k : type_word word k -> known k = true.
Proof. destruct 1; reflexivity. Qed.
Lemma type_kinds word k : type_word word k -> k = LINEAR \/ k = BEZIER \/ k = NURBS.
Proof. destruct 1; auto. Qed.
Lemma text_unique n : forall t, text_at n t -> t = all_text n.
Proof.
  revert n. fix IH 1. intros [k a c|t0] t H; inversion H as [|? ? ? ts Hf]; subst; [|reflexivity].
  cbn [all_text]. clear H. revert ts Hf. induction c as [|d c IHc]; intros ts Hf; inversion Hf as [|? u ? us H1 H2]; subst; [reflexivity|].
  cbn [concat flat_map]. rewrite (IH d u H1), (IHc us H2). reflexivity.
Qed.
Lemma holds_read n t : holds n t -> ReadNodeContentFull n = t.
Proof. intros (ts & H & ->). unfold ReadNodeContentFull. now rewrite (text_unique n ts H). Qed.
Lemma type_read n t : says_type n t -> type_of n = Some (TypeFromString t).
Proof.
  intros (q & ty & Hq & Ht & Hk). unfold type_of. rewrite (technique_found _ _ Hq). cbn [child_of]. rewrite (child_found _ _ _ Ht).
  cbn [option_map]. now rewrite (holds_read _ _ Hk).
Qed.
Lemma type_missing n : says_no_type n -> type_of n = None.
Proof.
  unfold type_of. intros [H|[(e & He & Hp & H)|(q & Hq & H)]].
  - unfold technique_of. now rewrite (child_missing _ _ H).
  - unfold technique_of. rewrite (child_found _ _ _ He). unfold FindTechnique. rewrite find_none; [reflexivity|].
    apply Forall_forall. intros d Hd. apply not_true_is_false. intro E. apply (technique_iff (children_of e)) in E; auto. now apply (H d).
  - rewrite (technique_found _ _ Hq). cbn [child_of]. now rewrite (child_missing _ _ H).
Qed.
Lemma closed_read n b : says_closed n b -> ToBoolean (ReadNodeProperty n "closed") = b.
Proof.
  intros [(H & ->)|(t & H & Hp & E)].
  - now rewrite (no_attr_read _ _ H).
  - rewrite (has_attr_plain _ _ _ H Hp). destruct t as [|c t]; cbn [ToBoolean].
    + symmetry. apply E. now left.
    + destruct (c =? 48)%Z eqn:E1; [|destruct (c =? 102)%Z eqn:E2; [|destruct (c =? 70)%Z eqn:E3]]; cbn [negb andb].
      1-3: symmetry; apply E; right; exists c, t; split; [reflexivity|]; cbn [In]; repeat match goal with X : (_ =? _)%Z = true |- _ => apply Z.eqb_eq in X; rewrite X end; auto.
      apply Z.eqb_neq in E1, E2, E3. destruct b; [reflexivity|]. destruct E as [E _]. destruct (E eq_refl) as [X|(c' & r & X & Y)]; [discriminate|].
      injection X as <- <-. cbn in Y. intuition congruence.
Qed.
Lemma degree_read n d : says_degree n d -> degree_of n = d.
Proof.
  intros (q & Hq & [(H & ->)|(c & t & Hc & Ht & Hd & Hr)]); unfold degree_of; rewrite (technique_found _ _ Hq); cbn [child_of].
  - now rewrite (child_missing _ _ H).
  - rewrite (child_found _ _ _ Hc), (has_text_read _ _ Ht). rewrite (decimal_dec d t Hd).
    pose proof (to_uint32_spec [] (dec d) []) as E. cbn [app] in E. rewrite app_nil_r in E.
    destruct (dec_spec d ltac:(lia)) as (H1 & H4 & H5). rewrite E; [cbn [fst]; exact H5|apply Forall_nil|exact H1|exact H4|exact I|rewrite H5; lia].
Qed.

(** *** Sources *)
Lemma found_child n id s : proper_id id -> (forall c v, In c (children_of n) -> has_attr c "id" v -> plain v) ->
  first_child (children_of n) (with_id id) s ->
  find (fun c => match c with Elem _ _ _ => text_eq (ReadNodeProperty c "id") id | Text _ => false end) (children_of n) = Some s.
Proof.
  intros (Hp & Hne) Hids Hf. apply find_first with (P := with_id id); auto. intros d Hd. unfold with_id. split.
  - intro H. destruct d as [nm at' c'|t]; [|discriminate]. apply text_eq_spec in H.
    destruct (read_attr_has _ _ _ H Hne) as (w & Hw & Ew). rewrite (plain_same w (Hids _ _ Hd Hw)) in Ew. subst w. exact Hw.
  - intro H. pose proof (has_attr_plain _ _ _ H Hp) as E2. destruct H as (nm & c' & pre & post & -> & _). rewrite E2. apply text_eq_refl.
Qed.
Lemma input_found n i sem s : (forall c v, In c (children_of n) -> has_attr c "id" v -> plain v) -> input_for (children_of n) i sem s ->
  ReadNodeProperty i "semantic" = sem /\ FindChildById n (ReadNodeProperty i "source") = Some s /\
  FindChildById n (tl (ReadNodeProperty i "source")) = Some s.
Proof.
  intros Hids (Hp & Hs & id & (Hid & Hh) & Ha & Hf). split; [now apply has_attr_plain|].
  rewrite (has_attr_read _ _ _ Ha), (legal_hash id Hid). cbn [tl]. unfold FindChildById.
  assert (E : drop_hash id = id). { destruct id as [|c id]; [reflexivity|]. cbn. destruct (c =? 35)%Z eqn:E; [|reflexivity]. apply Z.eqb_eq in E. subst c. now destruct (Hh id). }
  split.
  - change (drop_hash (35%Z :: id)) with id. now apply found_child.
  - destruct id as [|c id]; [now destruct Hid|]. rewrite E. now apply found_child.
Qed.
Lemma points_parsed a : forall xyz ps, points_from xyz ps -> forall rs s fuel, Forall2 (fun v r => r == v)%Q xyz rs -> parses (ToFloat a) s rs -> List.length s <= fuel ->
  exists qs, points a fuel s = Some qs /\ Forall2 same_point ps qs.
Proof.
  assert (Z0 : forall n, ToFloats a n [] = Some (repeat 0%Q n, [])).
  { induction n; cbn [ToFloats repeat]; [reflexivity|]. cbn [ToFloat]. rewrite IHn. reflexivity. }
  induction 1 as [|x|x y|x y z l ps Hp IH]; intros rs s fuel Hr Hs Hl.
  - inversion Hr; subst. apply parses_nil_inv in Hs. subst s. exists []. destruct fuel; split; constructor.
  - inversion Hr as [|? r ? l H1 H2]; subst. inversion H2; subst. inversion Hs as [|? ? s1 ? Hne E Hlt Hp]; subst. apply parses_nil_inv in Hp. subst s1.
    destruct s as [|c s]; [congruence|]. destruct fuel as [|fuel]; [cbn in Hl; lia|]. cbn [points]. unfold ToVector3.
    cbn [ToFloats]. rewrite E. cbn [ToFloat]. exists [(r, 0, 0)%Q]. split; [destruct fuel; reflexivity|]. constructor; [|constructor]. cbn. repeat split; try reflexivity. exact H1.
  - inversion Hr as [|? r ? l H1 H2]; subst. inversion H2 as [|? r2 ? l2 H3 H4]; subst. inversion H4; subst. inversion Hs as [|? ? s1 ? Hne E Hlt Hp]; subst.
    inversion Hp as [|? ? s2 ? Hne2 E2 Hlt2 Hp2]; subst. apply parses_nil_inv in Hp2. subst s2.
    destruct s as [|c s]; [congruence|]. destruct fuel as [|fuel]; [cbn in Hl; lia|]. cbn [points]. unfold ToVector3.
    cbn [ToFloats]. rewrite E, E2. cbn [ToFloat]. exists [(r, r2, 0)%Q]. split; [destruct fuel; reflexivity|]. constructor; [|constructor]. cbn. auto using Qeq_refl.
  - inversion Hr as [|? r ? l1 H1 H2]; subst. inversion H2 as [|? r2 ? l2 H3 H4]; subst. inversion H4 as [|? r3 ? l3 H5 H6]; subst.
    destruct (to_floats_split a [r; r2; r3] s l3 Hs) as (s1 & E & Hs1 & Hlt). cbn [List.length] in E. specialize (Hlt ltac:(discriminate)).
    destruct s as [|c s]; [inversion Hs; congruence|]. destruct fuel as [|fuel]; [cbn in Hl; lia|].
    destruct (IH l3 s1 fuel H6 Hs1) as (qs & Eq & Hq); [cbn in Hl; cbn in Hlt; lia|].
    cbn [points]. unfold ToVector3. rewrite E. rewrite Eq. eexists. split; [reflexivity|]. constructor; [|exact Hq]. cbn. auto.
Qed.
Lemma read_points a s xyz ps : float_source s xyz -> points_from xyz ps -> exists qs, ReadSourcePoints a s = Some qs /\ Forall2 same_point ps qs.
Proof.
  intros (nm & at' & ch & e & t & -> & Ht & Hn & H) Hp. unfold ReadSourcePoints, FindChildByType. cbn [children_of].
  rewrite (find_elem _ _ _ H). cbn [RigModel.content_of]. rewrite (has_text_read _ _ Ht).
  destruct (floats_of_parse a t xyz Hn) as (rs & Hs & Hk). unfold ToVector3List. eapply points_parsed; eauto.
Qed.
Lemma points_total xyz : exists ps, points_from xyz ps.
Proof.
  assert (H : forall n xyz, List.length xyz <= n -> exists ps, points_from xyz ps).
  { induction n as [|n IH]; intros l Hl; [destruct l; [eexists; constructor|cbn in Hl; lia]|].
    destruct l as [|x [|y [|z l]]]; [eexists; constructor|eexists; constructor|eexists; constructor|].
    destruct (IH l) as (ps & Hp); [cbn in Hl; lia|]. eexists. constructor. exact Hp. }
  apply (H _ _ (le_n _)).
Qed.

(** *** Inputs *)
Lemma no_source_cons x l k : no_source (x :: l) k -> fst x <> tx k /\ no_source l k.
Proof. intro H. inversion H; auto. Qed.
Lemma last_cons x l k s : last_source (x :: l) k s -> last_source l k s \/ (no_source l k /\ x = (tx k, s)).
Proof.
  intros (b & c & E & H). destruct b as [|y b]; cbn in E; injection E as -> ->; [right; split; [exact H|reflexivity]|]. left. exists b, c. auto.
Qed.
Lemma last_not_none l k s : last_source l k s -> no_source l k -> False.
Proof. intros (b & c & -> & H) N. unfold no_source in N. rewrite Forall_app in N. destruct N as (_ & N). inversion N. cbn in *. congruence. Qed.
Ltac congruence_tx := match goal with L : ?x = ?y, E : ?x = ?z |- _ => rewrite E in L; discriminate L end.
Lemma read_cvs_spec a n : (forall c v, In c (children_of n) -> has_attr c "id" v -> plain v) -> forall ins l, inputs_for (children_of n) ins l -> reads_floats l "POSITION" -> forall old,
  exists cvs, read_cvs a n ins old = Some (true, cvs) /\ (no_source l "POSITION" -> cvs = old) /\ (forall s, last_source l "POSITION" s -> ReadSourcePoints a s = Some cvs).
Proof.
  intros Hids ins l H. induction H as [|i [sem s] ins l Hi _ IH]; intros Hr old.
  - exists old. split; [reflexivity|]. split; [auto|]. intros s (b & c & E & _). destruct b; discriminate.
  - inversion Hr as [|? ? Hx Hr']; subst. cbn [fst snd] in *. destruct (input_found n i sem s Hids Hi) as (E1 & E2 & _). cbn [read_cvs]. rewrite E1, E2.
    destruct (text_eq sem (tx "POSITION")) eqn:E.
    + apply text_eq_spec in E. destruct (Hx E) as (v & Hv). destruct (points_total v) as (ps & Hps).
      destruct (read_points a s v ps Hv Hps) as (qs & Eq & _). rewrite Eq. destruct (IH Hr' qs) as (cvs & A & B & C). exists cvs. split; [exact A|]. split.
      * intro N. apply no_source_cons in N. cbn [fst] in N. now destruct N.
      * intros s' L. apply last_cons in L as [L|(N & L)]; [now apply C|]. injection L as _ ->. now rewrite (B N).
    + destruct (IH Hr' old) as (cvs & A & B & C). exists cvs. split; [exact A|]. split.
      * intro N. apply no_source_cons in N. apply B, N.
      * intros s' L. apply last_cons in L as [L|(N & L)]; [now apply C|]. injection L as L _. rewrite L, text_eq_refl in E. discriminate.
Qed.
Lemma read_nurbs_spec a n : (forall c v, In c (children_of n) -> has_attr c "id" v -> plain v) -> forall ins l, inputs_for (children_of n) ins l ->
  reads_floats l "WEIGHTS" -> reads_floats l "KNOTS" -> forall ow ok,
  exists ws ks, read_nurbs a n ins ow ok = Some (true, (ws, ks)) /\
    (no_source l "WEIGHTS" -> ws = ow) /\ (no_source l "KNOTS" -> ks = ok) /\
    (forall s, last_source l "WEIGHTS" s -> exists old, ReadSourceFloats a (Some s) old = Some ws) /\
    (forall s, last_source l "KNOTS" s -> exists old, ReadSourceFloats a (Some s) old = Some ks).
Proof.
  intros Hids ins l H. induction H as [|i [sem s] ins l Hi _ IH]; intros Hw Hk ow ok.
  - exists ow, ok. split; [reflexivity|]. split; [auto|]. split; [auto|]. split; intros s (b & c & E & _); destruct b; discriminate.
  - inversion Hw as [|? ? Hx Hw']; subst. inversion Hk as [|? ? Hy Hk']; subst. cbn [fst snd] in *. destruct (input_found n i sem s Hids Hi) as (E1 & _ & E2).
    cbn [read_nurbs]. rewrite E2. cbv zeta. rewrite E1.
    destruct (text_eq sem (tx "KNOTS")) eqn:E; [|destruct (text_eq sem (tx "WEIGHTS")) eqn:F].
    + apply text_eq_spec in E. destruct (Hy E) as (v & Hv). destruct (read_floats a s v ok Hv) as (rs & Er & _). rewrite Er.
      destruct (IH Hw' Hk' ow rs) as (ws & ks & A & B & C & D & G). exists ws, ks. split; [exact A|]. split; [|split; [|split]].
      * intro N. apply no_source_cons in N. now apply B.
      * intro N. apply no_source_cons in N. cbn [fst] in N. now destruct N.
      * intros s' L. apply last_cons in L as [L|(N & L)]; [now apply D|]. injection L as L _. congruence_tx.
      * intros s' L. apply last_cons in L as [L|(N & L)]; [now apply G|]. injection L as _ ->. exists ok. now rewrite (C N).
    + apply text_eq_spec in F. destruct (Hx F) as (v & Hv). destruct (read_floats a s v ow Hv) as (rs & Er & _). rewrite Er.
      destruct (IH Hw' Hk' rs ok) as (ws & ks & A & B & C & D & G). exists ws, ks. split; [exact A|]. split; [|split; [|split]].
      * intro N. apply no_source_cons in N. cbn [fst] in N. now destruct N.
      * intro N. apply no_source_cons in N. now apply C.
      * intros s' L. apply last_cons in L as [L|(N & L)]; [now apply D|]. injection L as _ ->. exists ow. now rewrite (B N).
      * intros s' L. apply last_cons in L as [L|(N & L)]; [now apply G|]. injection L as L _. congruence_tx.
    + destruct (IH Hw' Hk' ow ok) as (ws & ks & A & B & C & D & G). exists ws, ks. split; [exact A|]. split; [|split; [|split]].
      * intro N. apply no_source_cons in N. now apply B.
      * intro N. apply no_source_cons in N. now apply C.
      * intros s' L. apply last_cons in L as [L|(N & L)]; [now apply D|]. injection L as L _. rewrite L, text_eq_refl in F. discriminate.
      * intros s' L. apply last_cons in L as [L|(N & L)]; [now apply G|]. injection L as L _. rewrite L, text_eq_refl in E. discriminate.
Qed.
Lemma same_point_trans p q r : same_point p q -> same_point p r -> same_point q r.
Proof. destruct p as [[x y] z], q as [[x1 y1] z1], r as [[x2 y2] z2]. cbn. intros (-> & -> & ->) (-> & -> & ->). repeat split; reflexivity. Qed.
Lemma Forall2_both {A B C} (R : A -> B -> Prop) (R' : A -> C -> Prop) (T : B -> C -> Prop) : (forall x y z, R x y -> R' x z -> T y z) ->
  forall l m m', Forall2 R l m -> Forall2 R' l m' -> Forall2 T m m'.
Proof. intros HT l m m' H. revert m'. induction H as [|x y l m Hx _ IH]; intros m' H'; inversion H' as [|? z ? k Hz Hk]; subst; constructor; eauto. Qed.

(** *** One spline *)
Lemma valid_iff k w : k = LINEAR \/ k = BEZIER \/ k = NURBS -> (0 <= w_degree w < 4294967296)%Z ->
  (Z.of_nat (List.length (w_cvs w)) < 9223372036854775808)%Z -> (Z.of_nat (List.length (w_knots w)) < 9223372036854775808)%Z ->
  (IsValid k w = true <-> complete k w).
Proof.
  intros Hk Hd Hn Hm. unfold IsValid, complete. destruct Hk as [-> |[-> | ->]].
  - change (LINEAR =? LINEAR)%Z with true. cbn [LINEAR]. rewrite Nat.leb_le. split; [intro H; split; [auto|discriminate]|intros (H & _); now apply H].
  - split; [intros _; split; discriminate|reflexivity].
  - change (NURBS =? LINEAR)%Z with false. change (NURBS =? BEZIER)%Z with false. cbv iota. rewrite !andb_true_iff, negb_true_iff, Nat.eqb_neq, Nat.eqb_eq, Z.eqb_eq. split.
    + intros ((H1 & H2) & H3). split; [discriminate|]. intros _. split; [intro E; rewrite E in H1; now apply H1|]. split; [auto|].
      destruct (Z.leb_spec 0 (Z.of_nat (List.length (w_knots w)) - w_degree w - 1)) as [L|L].
      * rewrite Z.mod_small in H3; lia.
      * exfalso. replace (Z.of_nat (List.length (w_knots w)) - w_degree w - 1)%Z with ((Z.of_nat (List.length (w_knots w)) - w_degree w - 1 + 18446744073709551616) + (-1) * 18446744073709551616)%Z in H3 by lia.
        rewrite Z.mod_add in H3 by lia. rewrite Z.mod_small in H3; lia.
    + intros (_ & H). destruct (H eq_refl) as (H1 & H2 & H3). split; [split|]; [destruct (w_cvs w); [congruence|discriminate]|auto|]. rewrite Z.mod_small; lia.
Qed.
Lemma same_complete k w w' : same_wire w w' -> complete k w -> complete k w'.
Proof.
  intros [_ _ H1 H2 H3 H4] (A & B). apply Forall2_len in H1 as L1. apply Forall2_len in H2 as L2. apply Forall2_len in H3 as L3. split; intro E.
  - rewrite <- L1. auto.
  - destruct (B E) as (B1 & B2 & B3). rewrite <- L1, <- L2, <- L3, H4. split; [|auto]. intro N. rewrite N in L1. destruct (w_cvs w); [congruence|discriminate].
Qed.
Lemma same_sym w w' : same_wire w w' -> same_wire w' w.
Proof.
  intros [H1 H2 H3 H4 H5 H6]. constructor; auto.
  - clear - H3. induction H3 as [|p q l m H _ IH]; constructor; auto. destruct p as [[x y] z], q as [[x1 y1] z1]. cbn in *. destruct H as (-> & -> & ->). repeat split; reflexivity.
  - clear - H4. induction H4; constructor; auto. now symmetry.
  - clear - H5. induction H5; constructor; auto. now symmetry.
Qed.
Theorem load_typed a n k w : says_spline n k w -> exists w', same_wire w w' /\ LoadTyped a k n = Some (IsValid k w', w').
Proof.
  intros [(word & Hty & Hw) (b & Hb & Hform) Hname Hids (cv & ins & l & xyz & ps & Hcv & Hins & Hl & Rp & Sp & Hps & Hcvs & HN & HO)].
  unfold LoadTyped, LoadSpline. rewrite (child_found _ _ _ Hcv), (closed_read _ _ Hb).
  assert (Ei : inputs_of cv = ins) by (apply inputs_filter; exact Hins). rewrite Ei.
  destruct (read_cvs_spec a n Hids ins l Hl Rp []) as (cvs & E & N & L). rewrite E.
  assert (Hc : Forall2 same_point (w_cvs w) cvs).
  { destruct Sp as [(Ns & ->)|(s & Ls & Fs)].
    - rewrite (N Ns). inversion Hps; subst. inversion Hcvs; constructor.
    - destruct (read_points a s xyz ps Fs Hps) as (qs & Eq & Hq). rewrite (L s Ls) in Eq. injection Eq as <-.
      exact (Forall2_both same_point same_point same_point same_point_trans _ _ _ Hcvs Hq). }
  assert (Hf : form_of b = w_form w) by (rewrite Hform; destruct b; reflexivity).
  destruct (k =? NURBS)%Z eqn:Ek.
  - apply Z.eqb_eq in Ek. destruct (HN Ek) as (Rw & Rk & (vw & Sw & Ew) & (vk & Sk & Ek2) & Hd).
    destruct (read_nurbs_spec a n Hids ins l Hl Rw Rk [] []) as (ws & ks & E2 & N1 & N2 & L1 & L2). rewrite E2, (degree_read _ _ Hd).
    assert (T : forall x y z : Q, (y == x -> z == x -> z == y)%Q) by (intros x y z -> ->; reflexivity).
    eexists. split; [|reflexivity]. constructor; cbn; auto.
    + destruct Sw as [(Ns & ->)|(s & Ls & Fs)]; [rewrite (N1 Ns); inversion Ew; constructor|].
      destruct (L1 s Ls) as (old & E3). destruct (read_floats a s vw old Fs) as (rs & E4 & H4). rewrite E3 in E4. injection E4 as <-. eapply Forall2_both; [|exact Ew|exact H4]. cbn. eauto.
    + destruct Sk as [(Ns & ->)|(s & Ls & Fs)]; [rewrite (N2 Ns); inversion Ek2; constructor|].
      destruct (L2 s Ls) as (old & E3). destruct (read_floats a s vk old Fs) as (rs & E4 & H4). rewrite E3 in E4. injection E4 as <-. eapply Forall2_both; [|exact Ek2|exact H4]. cbn. eauto.
  - apply Z.eqb_neq in Ek. destruct (HO Ek) as (O1 & O2 & O3). eexists. split; [|reflexivity]. constructor; cbn; auto; rewrite ?O1, ?O2; constructor.
Qed.

(** *** All splines *)
Lemma load_skip a : forall l status g, Forall no_spline l -> LoadGeometrySpline a status g l = Some (status, g).
Proof.
  induction l as [|n l IH]; intros status g H; [reflexivity|]. inversion H as [|? ? Hn Hl]; subst. cbn [LoadGeometrySpline].
  destruct Hn as [Hn|Hn]; [apply named_not in Hn; rewrite Hn; auto|]. rewrite (type_missing _ Hn). destruct (named n "spline"); auto.
Qed.
Lemma load_app a : forall l m status g, LoadGeometrySpline a status g (l ++ m) =
  match LoadGeometrySpline a status g l with Some (s, h) => LoadGeometrySpline a s h m | None => None end.
Proof.
  induction l as [|n l IH]; intros m status g; [reflexivity|]. cbn [LoadGeometrySpline app]. destruct (named n "spline"); [|auto].
  destruct (type_of n) as [k|]; [|auto]. destruct (known k); [|reflexivity]. destruct (LoadTyped a k n) as [[[|] w]|]; auto.
Qed.
Lemma load_geometry a pre l : no_shape pre -> (forall n r, l = n :: r -> is_elem "spline" n) -> l <> [] ->
  LoadGeometry a (pre ++ l) = option_map (fun x => (fst x, Some (snd x))) (LoadGeometrySpline a true no_wires l).
Proof.
  intros Hp Hl Hne. induction Hp as [|c pre (H1 & H2 & H3) _ IH].
  - destruct l as [|n r]; [congruence|]. destruct (Hl n r eq_refl) as (at' & ch & ->). reflexivity.
  - cbn [app LoadGeometry]. apply named_not in H1, H2, H3. rewrite H1, H2, H3. exact IH.
Qed.
