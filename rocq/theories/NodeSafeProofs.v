(** Reading any scene XML. *)
From Coq Require Import String List ZArith QArith Bool Lia Relations.
From Verif Require Import TextModel TextProofs StringModel FloatModel FloatProps DaeModel DaeSpec RigSpec RigProofs UriModel SceneModel SceneSpec SceneProofs SubIdProps NodeModel NodeSpec NodeLoadProofs.
From Verif Require IdModel UniqueModel SubIdModel.
Import ListNotations.
Local Open Scope nat_scope.
Local Open Scope list_scope.

Lemma xml_ind' (P : xml -> Prop) : (forall n a ch, Forall P ch -> P (Elem n a ch)) -> (forall t, P (Text t)) -> forall x, P x.
Proof. intros H1 H2. fix F 1. intros [n a ch|t]; [apply H1|apply H2]. induction ch as [|c ch IH]; constructor; auto. Qed.
(** *** Numbers and references *)
Lemma floats_safe n : forall s, ~ In 73%Z s -> exists l s', ToFloats Wrapping n s = Some (l, s').
Proof.
  induction n as [|n IH]; intros s H; [cbn; eauto|]. cbn [ToFloats]. destruct s as [|z s0] eqn:E.
  - cbn [ToFloat]. destruct (IH []) as (l & s' & El); [intros []|]. rewrite El. eauto.
  - rewrite <- E in *. destruct (C78_safe s H) as (q & s1 & Eq & _ & H1); [subst; discriminate|]. rewrite Eq.
    destruct (IH s1 H1) as (l & s' & El). rewrite El. eauto.
Qed.
Lemma transform_safe k c : calm c -> exists r, LoadTransform Wrapping k c = Some r.
Proof.
  intro H. assert (T : ~ In 73%Z (ReadNodeContentDirect c)).
  { unfold ReadNodeContentDirect. destruct c as [n a ch|t]; cbn [children_of]; [|intros []]. inversion H as [|? ? ? F]; subst.
    destruct ch as [|[? ? ?|t] ch]; try (intros []). apply Forall_inv in F. now inversion F. }
  unfold LoadTransform. destruct k; try (destruct (C78_list_safe _ T) as (rs & E); rewrite E; cbn [option_map]; eauto).
  unfold ToMatrix. destruct (ReadNodeContentDirect c) as [|z s] eqn:E; [cbn; eauto|]. rewrite <- E in *. destruct (floats_safe 16 _ T) as (l & s' & El). rewrite El. cbn. eauto.
Qed.
Lemma parse_wrapping t : exists u, parse Wrapping t = Some u.
Proof.
  assert (G : forall u sch dl sd hi h, exists r, parse_host Wrapping u sch dl sd hi h = Some r).
  { intros u sch dl sd hi h. unfold parse_host. set (name := firstn (h - hi) (skipn hi u)).
    destruct (find_char 58 name 0) as [i|].
    - destruct (to_int32_wrapping (skipn (i + 1) name)) as (v & r & E & _). rewrite E. cbv beta iota zeta.
      repeat match goal with |- context [if ?b then _ else _] => destruct b | |- context [match find_char ?a ?b ?c with _ => _ end] => destruct (find_char a b c) end; eauto.
    - repeat match goal with |- context [if ?b then _ else _] => destruct b | |- context [match find_char ?a ?b ?c with _ => _ end] => destruct (find_char a b c) end; eauto. }
  unfold parse. destruct t as [|z t]; [eauto|]. generalize (replace 92 47 (z :: t)) as u. intro u. cbv beta iota zeta.
  repeat match goal with |- context [if ?b then _ else _] => destruct b | |- context [match find_char ?a ?b ?c with _ => _ end] => destruct (find_char a b c) end; eauto.
Qed.

(** *** The document stays in order *)
Record sound (st : lstate) : Prop := {
  n_hist : history (l_graph st);
  n_nodes : forall k, k < next (l_graph st) -> SceneModel.alive (l_graph st) k = true;
  n_count : List.length (IdModel.objects (l_doc st)) = next (l_graph st);
  n_objs : Forall (fun o => IdModel.alive o = true) (IdModel.objects (l_doc st));
  n_roots : Forall (fun r => r < next (l_graph st)) (l_roots st) }.
Definition objs_ok (n : nat) (d : IdModel.document) : Prop := List.length (IdModel.objects d) = n /\ Forall (fun o => IdModel.alive o = true) (IdModel.objects d).
Lemma set_nth_length (l : list IdModel.object) i x : List.length (IdModel.set_nth l i x) = List.length l.
Proof. revert i. induction l as [|y l IH]; intros [|i]; cbn; auto. Qed.
Lemma set_nth_Forall (P : IdModel.object -> Prop) (l : list IdModel.object) i x : Forall P l -> P x -> Forall P (IdModel.set_nth l i x).
Proof. intros H Hx. revert i. induction H; intros [|i]; cbn; auto. Qed.
Lemma put_ok n d m i s u : objs_ok n d -> objs_ok n (IdModel.put d m i {| IdModel.daeId := s; IdModel.unique := u; IdModel.alive := true |}).
Proof. intros (H1 & H2). split; cbn; [now rewrite set_nth_length|now apply set_nth_Forall]. Qed.
Lemma remove_id_ok n d i : objs_ok n d -> objs_ok n (IdModel.RemoveDaeId d i).
Proof. intro H. unfold IdModel.RemoveDaeId. destruct (IdModel.object_at d i) as [o|]; auto. destruct (IdModel.unique o); auto. now apply put_ok. Qed.
Lemma set_id_ok n d i t : objs_ok n d -> objs_ok n (IdModel.SetDaeId d i t).
Proof.
  intro H. unfold IdModel.SetDaeId. pose proof (remove_id_ok n d i H) as H1. destruct (IdModel.object_at (IdModel.RemoveDaeId d i) i) as [o|]; auto.
  destruct (UniqueModel.insert (IdModel.doc_names (IdModel.RemoveDaeId d i)) (IdModel.CleanId t)). now apply put_ok.
Qed.
Lemma get_id_ok n d i : objs_ok n d -> i < n -> exists s d', IdModel.GetDaeId d i = (Some s, d') /\ objs_ok n d'.
Proof.
  intros H Hi. unfold IdModel.GetDaeId, IdModel.object_at. destruct H as (H1 & H2).
  destruct (nth_error (IdModel.objects d) i) as [o|] eqn:E; [|apply nth_error_None in E; lia].
  rewrite Forall_forall in H2. rewrite (H2 o (nth_error_In _ _ E)). destruct (IdModel.unique o).
  - do 2 eexists. split; [reflexivity|]. split; auto. now apply Forall_forall.
  - destruct (UniqueModel.insert (IdModel.doc_names d) (match IdModel.daeId o with [] => IdModel.unknown_object | s => s end)) as [s m].
    do 2 eexists. split; [reflexivity|]. apply put_ok. split; auto. now apply Forall_forall.
Qed.
(** *** Searching *)
Lemma find_ends g id n : ok g -> next g = n -> forall k, SceneModel.alive g k = true -> forall d, objs_ok n d ->
  exists f0 o d', (forall fuel, f0 <= fuel -> FindDaeId fuel g id d k = Done (o, d')) /\ objs_ok n d' /\ (forall x, o = Some x -> x < n).
Proof.
  intros O En k. induction (ok_down g O k) as [k _ IH]. intros Ak d Hd.
  assert (Hk : k < n) by (rewrite <- En; now apply (ok_next g O)).
  destruct (get_id_ok n d k Hd Hk) as (s & d1 & E & Hd1).
  destruct (UniqueModel.str_eqb s id) eqn:Es.
  - exists 1, (Some k), d1. split; [|split; auto; intros x [= <-]; auto]. intros [|f] Hf; [lia|]. cbn [FindDaeId]. now rewrite E, Es.
  - assert (L : forall l, incl l (chi g k) -> forall d, objs_ok n d -> exists f0 o d', (forall f, f0 <= f ->
      (fix loop (d : IdModel.document) (l : list nat) : res (option nat * IdModel.document) :=
         match l with [] => Done (None, d) | c :: r => match FindDaeId f g id d c with Done (None, d2) => loop d2 r | found => found end end) d l = Done (o, d')) /\
      objs_ok n d' /\ (forall x, o = Some x -> x < n)).
    { induction l as [|c l IHl]; intros Hl d2 Hd2; [exists 0, None, d2; split; [reflexivity|split; [auto|discriminate]]|].
      assert (Hc : In c (chi g k)) by (apply Hl; now left).
      destruct (IH c Hc (proj2 (ok_alive g O _ _ Hc)) d2 Hd2) as (f1 & o & d3 & F & Hd3 & Ho). destruct o as [x|].
      - exists f1, (Some x), d3. split; [intros f Hf; now rewrite F|auto].
      - destruct (IHl (fun y h => Hl y (or_intror h)) d3 Hd3) as (f2 & o & d4 & F2 & H2). exists (max f1 f2), o, d4. split; [|exact H2].
        intros f Hf. rewrite F by lia. apply F2. lia. }
    destruct (L (chi g k) (incl_refl _) d1 Hd1) as (f0 & o & d' & F & H). exists (S f0), o, d'. split; [|exact H].
    intros [|f] Hf; [lia|]. cbn [FindDaeId]. rewrite E, Es. apply F. lia.
Qed.
Lemma find_scene_ends g id n : ok g -> next g = n -> (forall k, k < n -> SceneModel.alive g k = true) -> forall roots, Forall (fun r => r < n) roots -> forall d, objs_ok n d ->
  exists f0 o d', (forall fuel, f0 <= fuel -> FindSceneNode fuel g id d roots = Done (o, d')) /\ objs_ok n d' /\ (forall x, o = Some x -> x < n).
Proof.
  intros O En Hal. induction 1 as [|r l Hr _ IH]; intros d Hd; [exists 0, None, d; split; [reflexivity|split; [auto|discriminate]]|].
  destruct (find_ends g id n O En r (Hal r Hr) d Hd) as (f1 & o & d1 & F & H1 & Ho). destruct o as [x|].
  - exists f1, (Some x), d1. split; auto. intros fuel Hf. cbn [FindSceneNode]. now rewrite F.
  - destruct (IH d1 H1) as (f2 & o & d2 & F2 & H2). exists (max f1 f2), o, d2. split; [|exact H2]. intros fuel Hf. cbn [FindSceneNode]. rewrite F by lia. apply F2. lia.
Qed.
Lemma add_alive fuel g n c b g' : AddChildNode fuel g n c = Done (b, g') -> next g' = next g /\ forall k, SceneModel.alive g' k = SceneModel.alive g k.
Proof.
  unfold AddChildNode. destruct c as [c|]; [|intros [= _ <-]; auto]. destruct (n =? c); [intros [= _ <-]; auto|]. destruct (contains c (chi g n)); [intros [= _ <-]; auto|].
  destruct (search fuel g c (rev (par g n))) as [[]| |]; intros [= _ <-]; auto.
Qed.
(** What a step of the reader does: it ends the same way with all fuel that is enough. *)
Definition settles (a : arith) (safe : Prop) (n : nat) (F : nat -> res (bool * lstate)) : Prop :=
  exists f0 r, (forall fuel, f0 <= fuel -> F fuel = r) /\ r <> Fuel /\ (a = Wrapping -> safe -> r <> Bad) /\
  (forall b st, r = Done (b, st) -> sound st /\ n <= next (l_graph st)).
Lemma settles_weaken a (safe safe' : Prop) n n' F : n' <= n -> (safe' -> safe) -> settles a safe n F -> settles a safe' n' F.
Proof. intros Hn Hs (f0 & r & H1 & H2 & H3 & H4). exists f0, r. split; [|split; [|split]]; auto. intros b st E. destruct (H4 b st E). split; auto. lia. Qed.
Lemma settles_ext a safe n F G f0 : (forall fuel, f0 <= fuel -> F fuel = G fuel) -> settles a safe n G -> settles a safe n F.
Proof. intros H (f1 & r & H1 & H2). exists (max f0 f1), r. split; auto. intros fuel Hf. rewrite H by lia. apply H1. lia. Qed.
Lemma settles_done a safe n b st : sound st -> n <= next (l_graph st) -> settles a safe n (fun _ => Done (b, st)).
Proof. intros H Hn. exists 0, (Done (b, st)). split; auto. split; [discriminate|]. split; [discriminate|]. intros b' st' [= _ <-]. auto. Qed.
Lemma head_ends st i n : sound st -> i < next (l_graph st) -> exists f0 st1, (forall fuel, f0 <= fuel -> LoadHead fuel st i n = Done st1) /\ sound st1 /\ l_graph st1 = l_graph st.
Proof.
  intros Hs Hi. unfold LoadHead. set (st0 := LoadEntity st i n).
  assert (H0 : sound st0 /\ l_graph st0 = l_graph st).
  { unfold st0, LoadEntity. destruct Hs as [S1 S2 S3 S4 S5].
    assert (Hd : objs_ok (next (l_graph st)) (match ReadNodeProperty n "id" with [] => IdModel.RemoveDaeId (l_doc st) i | _ => IdModel.SetDaeId (l_doc st) i (ReadNodeProperty n "id") end)).
    { destruct (ReadNodeProperty n "id"); [apply remove_id_ok|apply set_id_ok]; split; auto. }
    destruct Hd as (D1 & D2). split; [|reflexivity]. constructor; cbn [l_graph l_doc l_roots]; auto. }
  destruct H0 as (H0 & Eg). destruct (C76_choice (l_graph st0) (l_sub st0) i (ReadNodeProperty n "sid") (n_hist _ H0)) as (f0 & sub & E & _).
  eexists f0, _. split; [intros fuel Hf; rewrite E by exact Hf; reflexivity|]. split; [|exact Eg]. destruct H0 as [S1 S2 S3 S4 S5]. constructor; cbn [l_graph l_doc l_roots]; auto.
Qed.
Lemma new_sound st : sound st -> sound (NewSceneNode st) /\ next (l_graph (NewSceneNode st)) = S (next (l_graph st)).
Proof.
  intros [S1 S2 S3 S4 S5]. split; [|reflexivity]. constructor; cbn [NewSceneNode l_graph l_doc l_roots NewNode next SceneModel.alive IdModel.NewObject IdModel.objects].
  - now apply h_new.
  - intros k Hk. unfold upd. destruct (Nat.eqb_spec k (next (l_graph st))); auto. apply S2. lia.
  - rewrite app_length, S3. cbn. lia.
  - apply Forall_app. auto.
  - revert S5. apply Forall_impl. intros; lia.
Qed.
Lemma entity_sound st : sound st -> forall i st1, AddEntity st = (i, st1) -> sound st1 /\ i < next (l_graph st1) /\ next (l_graph st) <= next (l_graph st1).
Proof.
  intros Hs i st1 [= <- <-]. destruct (new_sound st Hs) as ([S1 S2 S3 S4 S5] & En). cbn [l_graph] in *. split; [|cbn; lia]. constructor; cbn [l_graph l_doc l_roots]; auto.
  apply Forall_app. split; [exact S5|]. constructor; [cbn; lia|constructor].
Qed.
Lemma child_ends st i : sound st -> i < next (l_graph st) -> exists f0 st1, (forall fuel, f0 <= fuel -> AddNewChild fuel st i = Done (next (l_graph st), st1)) /\ sound st1 /\ next (l_graph st1) = S (next (l_graph st)).
Proof.
  intros Hs Hi. destruct (new_sound st Hs) as (N & En). unfold AddNewChild. pose proof (history_ok _ (n_hist _ N)) as O.
  assert (A1 : SceneModel.alive (l_graph (NewSceneNode st)) i = true) by (apply (n_nodes _ N); lia).
  assert (A2 : SceneModel.alive (l_graph (NewSceneNode st)) (next (l_graph st)) = true) by (apply (n_nodes _ N); lia).
  assert (E : exists f0 b g, forall fuel, f0 <= fuel -> AddChildNode fuel (l_graph (NewSceneNode st)) i (Some (next (l_graph st))) = Done (b, g)).
  { destruct (add_spec _ i (next (l_graph st)) O A1 A2) as (f0 & [(_ & _ & _ & E)|(_ & E)]); eauto. }
  destruct E as (f0 & b & g & E). exists f0, (with_graph (NewSceneNode st) g). split; [intros fuel Hf; now rewrite E|].
  destruct (add_alive _ _ _ _ _ _ (E f0 (le_n _))) as (G1 & G2). destruct N as [S1 S2 S3 S4 S5].
  split; [|cbn [with_graph l_graph]; lia]. constructor; cbn [with_graph l_graph l_doc l_roots]; try rewrite G1; auto.
  - apply (h_add f0 _ i (Some (next (l_graph st))) b g S1 A1); [intros x [= <-]; exact A2|auto].
  - intros k Hk. rewrite G2. auto.
Qed.
Lemma instance_ends a st i c : sound st -> i < next (l_graph st) ->
  (exists f0 st1, (forall fuel, f0 <= fuel -> LoadNodeInstance fuel a st i c = Done st1) /\ sound st1 /\ next (l_graph st1) = next (l_graph st)) \/
  a = Strict /\ forall fuel, LoadNodeInstance fuel a st i c = Bad.
Proof.
  intros Hs Hi. unfold LoadNodeInstance. destruct (parse a (ReadNodeProperty c "url")) as [u|] eqn:Ep.
  2:{ right. split; auto. destruct a; auto. destruct (parse_wrapping (ReadNodeProperty c "url")) as (u & E). congruence. }
  left. destruct (IsFile (path u)); [exists 0, st; auto|]. pose proof (history_ok _ (n_hist _ Hs)) as O.
  destruct (find_scene_ends (l_graph st) (fragment u) _ O eq_refl (n_nodes _ Hs) _ (n_roots _ Hs) (l_doc st) (conj (n_count _ Hs) (n_objs _ Hs))) as (f1 & o & d & F & (D1 & D2) & Ho).
  destruct Hs as [S1 S2 S3 S4 S5]. destruct o as [k|].
  - specialize (Ho k eq_refl).
    assert (E : exists f0 b g, forall fuel, f0 <= fuel -> AddChildNode fuel (l_graph st) i (Some k) = Done (b, g)).
    { destruct (add_spec _ i k O (S2 i Hi) (S2 k Ho)) as (f0 & [(_ & _ & _ & E)|(_ & E)]); eauto. }
    destruct E as (f2 & b & g & E). exists (max f1 f2), (with_graph (with_doc st d) g). split; [intros fuel Hf; rewrite F by lia; rewrite E by lia; reflexivity|].
    destruct (add_alive _ _ _ _ _ _ (E f2 (le_n _))) as (G1 & G2). cbn [with_graph with_doc l_graph]. split; [|exact G1].
    constructor; cbn [with_graph with_doc l_graph l_doc l_roots]; try rewrite G1; auto.
    + apply (h_add f2 _ i (Some k) b g S1 (S2 i Hi)); [intros x [= <-]; auto|auto].
    + intros m Hm. rewrite G2. auto.
  - exists f1, (with_doc st d). split; [intros fuel Hf; now rewrite F|]. split; [|reflexivity]. constructor; cbn [with_doc l_graph l_doc l_roots]; auto.
Qed.
Lemma node_ends a other : forall n, (exists nm at0 ch, n = Elem nm at0 ch) -> forall st i, sound st -> i < next (l_graph st) ->
  settles a (calm n) (next (l_graph st)) (fun fuel => LoadSceneNode fuel a other st i n).
Proof.
  induction n as [nm at0 ch IHch|t] using xml_ind'; [|intros (? & ? & ? & ?); discriminate]. intros _ st i Hs Hi.
  destruct (head_ends st i (Elem nm at0 ch) Hs Hi) as (f0 & st1 & E & H1 & Eg).
  apply (settles_ext _ _ _ _ (fun fuel => children_loop fuel a other i st1 true ch) f0).
  { intros fuel Hf. rewrite load_eq, E by exact Hf. reflexivity. }
  apply (settles_weaken _ (Forall calm ch) _ (next (l_graph st1))); [rewrite Eg; lia|now inversion 1|].
  assert (Hi1 : i < next (l_graph st1)) by now rewrite Eg. clear E Hs Eg Hi. generalize true as status. revert st1 H1 Hi1.
  induction IHch as [|c ch IHc _ IH]; intros st1 H1 Hi1 status.
  - apply (settles_done _ _ _ status st1); auto.
  - destruct c as [cn ca cc|t].
    2:{ apply (settles_weaken _ (Forall calm ch) _ (next (l_graph st1))); [lia|now inversion 1|]. exact (IH st1 H1 Hi1 status). }
    destruct (named (Elem cn ca cc) "node") eqn:N1.
    { destruct (child_ends st1 i H1 Hi1) as (f1 & st2 & E2 & H2 & En2).
      destruct (IHc (ex_intro _ cn (ex_intro _ ca (ex_intro _ cc eq_refl))) st2 (next (l_graph st1)) H2) as (f2 & r & R1 & R2 & R3 & R4); [lia|].
      apply (settles_ext _ _ _ _ (fun fuel => match r with Done (true, st2) => children_loop fuel a other i st2 true ch | stop => stop end) (max f1 f2)).
      { intros fuel Hf. cbn [children_loop]. rewrite N1, E2 by lia. rewrite R1 by lia. destruct r as [[[] ?]| |]; reflexivity. }
      destruct r as [[[] st3]| |].
      - destruct (R4 true st3 eq_refl) as (H3 & L3). apply (settles_weaken _ (Forall calm ch) _ (next (l_graph st3))); [lia|now inversion 1|]. apply IH; auto. lia.
      - destruct (R4 false st3 eq_refl) as (H3 & L3). apply (settles_done _ _ _ false st3); auto. lia.
      - congruence.
      - exists 0, Bad. split; auto. split; [discriminate|]. split; [intros Ha Hc; exfalso; apply (R3 Ha); [now inversion Hc|reflexivity]|discriminate]. }
    destruct (named (Elem cn ca cc) "instance_node") eqn:N2.
    { destruct (instance_ends a st1 i (Elem cn ca cc) H1 Hi1) as [(f1 & st2 & E2 & H2 & En2)|(Ha & E2)].
      - apply (settles_ext _ _ _ _ (fun fuel => children_loop fuel a other i st2 status ch) f1).
        { intros fuel Hf. cbn [children_loop]. rewrite N1, N2, E2 by lia. reflexivity. }
        apply (settles_weaken _ (Forall calm ch) _ (next (l_graph st2))); [lia|now inversion 1|]. apply IH; auto. lia.
      - apply (settles_ext _ _ _ _ (fun fuel => Bad) 0).
        { intros fuel Hf. cbn [children_loop]. rewrite N1, N2, E2 by lia. reflexivity. }
        exists 0, Bad. split; auto. split; [discriminate|]. split; [congruence|discriminate]. }
    assert (Skip : forall st2 b, l_graph st2 = l_graph st1 -> sound st2 -> settles a (Forall calm (Elem cn ca cc :: ch)) (next (l_graph st1)) (fun fuel => children_loop fuel a other i st2 b ch)).
    { intros st2 b Eg2 H2. apply (settles_weaken _ (Forall calm ch) _ (next (l_graph st2))); [rewrite Eg2; lia|now inversion 1|]. apply IH; auto. now rewrite Eg2. }
    destruct (named (Elem cn ca cc) "extra") eqn:N3.
    { apply (settles_ext _ _ _ _ (fun fuel => children_loop fuel a other i st1 status ch) 0); [intros; cbn [children_loop]; now rewrite N1, N2, N3|]. now apply Skip. }
    destruct (named (Elem cn ca cc) "asset") eqn:N4.
    { apply (settles_ext _ _ _ _ (fun fuel => children_loop fuel a other i st1 status ch) 0); [intros; cbn [children_loop]; now rewrite N1, N2, N3, N4|]. now apply Skip. }
    destruct (GetTransformType (Elem cn ca cc)) as [k|] eqn:N5.
    + destruct (LoadTransform a k (Elem cn ca cc)) as [[b v]|] eqn:N6.
      * apply (settles_ext _ _ _ _ (fun fuel => children_loop fuel a other i (add_transform st1 i (Elem cn ca cc) v) (status && b) ch) 0).
        { intros. cbn [children_loop]. now rewrite N1, N2, N3, N4, N5, N6. }
        apply Skip; [reflexivity|]. destruct H1 as [S1 S2 S3 S4 S5]. constructor; cbn; auto.
      * apply (settles_ext _ _ _ _ (fun fuel => Bad) 0). { intros. cbn [children_loop]. now rewrite N1, N2, N3, N4, N5, N6. }
        exists 0, Bad. split; auto. split; [discriminate|]. split; [|discriminate]. intros -> Hc. exfalso. apply Forall_inv in Hc. destruct (transform_safe k _ Hc). congruence.
    + apply (settles_ext _ _ _ _ (fun fuel => children_loop fuel a other i st1 (status && other (Elem cn ca cc)) ch) 0); [intros; cbn [children_loop]; now rewrite N1, N2, N3, N4, N5|]. now apply Skip.
Qed.
Lemma scenes_end a other : forall l st status, sound st -> settles a (Forall calm l) (next (l_graph st)) (fun fuel => LoadScenes fuel a other st status l).
Proof.
  induction l as [|c l IH]; intros st status Hs; [apply (settles_done _ _ _ status st); auto|].
  destruct c as [cn ca cc|t].
  2:{ apply (settles_weaken _ (Forall calm l) _ (next (l_graph st))); [lia|now inversion 1|]. apply IH; auto. }
  destruct (named (Elem cn ca cc) "asset" || named (Elem cn ca cc) "extra") eqn:N.
  { apply (settles_ext _ _ _ _ (fun fuel => LoadScenes fuel a other st status l) 0); [intros; cbn [LoadScenes]; now rewrite N|].
    apply (settles_weaken _ (Forall calm l) _ (next (l_graph st))); [lia|now inversion 1|]. apply IH; auto. }
  destruct (AddEntity st) as [i st1] eqn:E. destruct (entity_sound st Hs i st1 E) as (H1 & Hi & Hle).
  destruct (node_ends a other (Elem cn ca cc) (ex_intro _ cn (ex_intro _ ca (ex_intro _ cc eq_refl))) st1 i H1 Hi) as (f2 & r & R1 & R2 & R3 & R4).
  apply (settles_ext _ _ _ _ (fun fuel => match r with Done (ok, st2) => LoadScenes fuel a other st2 (status && ok) l | Fuel => Fuel | Bad => Bad end) f2).
  { intros fuel Hf. cbn [LoadScenes]. rewrite N, E, R1 by lia. reflexivity. }
  destruct r as [[b st2]| |].
  - destruct (R4 b st2 eq_refl) as (H2 & L2). apply (settles_weaken _ (Forall calm l) _ (next (l_graph st2))); [lia|now inversion 1|]. apply IH; auto.
  - congruence.
  - exists 0, Bad. split; auto. split; [discriminate|]. split; [intros Ha Hc; exfalso; apply (R3 Ha); [now inversion Hc|reflexivity]|discriminate].
Qed.
Lemma start_sound names : sound (no_scenes names).
Proof. constructor; cbn; auto; try constructor. intros k Hk. lia. Qed.
