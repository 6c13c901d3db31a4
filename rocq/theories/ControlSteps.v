(** One operation on controllers. *)
From Coq Require Import List Arith Bool Lia.
From Verif Require Import ControlModel ControlSpec ControlProofs.
Import ListNotations.

Definition Fit (w : world) : Prop := forall c l g s, path w c l (Some g) -> shape_of w g = Some s ->
  (forall b ts x t, control_of w c = Some (Morph b ts) -> In (Some x) ts -> shape_of w x = Some t -> similar s t = true) /\
  (forall e i n, control_of w c = Some (Skin e i n) -> n = vertex_count s).

(** The outcome of an operation. *)
Definition fine (w : world) (o : option world) (c : Prop) : Prop := exists w', o = Some w' /\ Inv w' /\ (Fit w -> c -> Fit w').
Lemma fine_weaken : forall w o (c c' : Prop), fine w o c -> (c' -> c) -> fine w o c'.
Proof. intros w o c c' (w' & E & H1 & H2) H. exists w'. auto. Qed.

(** *** Operations that only take away *)
Record smaller (w w' : world) : Prop := {
  Z_cut : cut w w';
  Z_count : count w' = count w;
  Z_gone : forall i, ent w i = None -> ent w' i = None;
  Z_shape : forall i, ent w' i <> None -> shape_of w' i = shape_of w i;
  Z_targets : forall c b ts g, control_of w' c = Some (Morph b ts) -> In (Some g) ts ->
    ent w' g <> None /\ exists b0 ts0, control_of w c = Some (Morph b0 ts0) /\ In (Some g) ts0;
  Z_ids : forall c e i n, control_of w' c = Some (Skin e (Some i) n) -> exists e0 n0, control_of w c = Some (Skin e0 (Some i) n0);
  Z_skin : forall c e i n, control_of w' c = Some (Skin (Some e) i n) -> i = Some e }.
Lemma smaller_Inv : forall w w', Inv w -> smaller w w' -> Inv w'.
Proof.
  intros w w' HI HZ. constructor.
  - intros i Hi. rewrite (Z_count _ _ HZ) in Hi. apply (Z_gone _ _ HZ). now apply (I_fresh _ HI).
  - intros i Hi. assert (Hw : ent w i <> None) by (intro X; apply Hi; now apply (Z_gone _ _ HZ)).
    destruct (I_path _ HI i Hw) as (l & r & Hp). eapply cut_forward; eauto. apply HZ.
  - intros c b ts g Hc Hg. destruct (Z_targets _ _ HZ _ _ _ _ Hc Hg) as (Ha & b0 & ts0 & H0 & H1). rewrite (Z_shape _ _ HZ g Ha). eapply I_targets; eauto.
  - intros c e i n Hc. rewrite (Z_count _ _ HZ). destruct (Z_ids _ _ HZ _ _ _ _ Hc) as (e0 & n0 & H0). eapply I_ids; eauto.
  - apply (Z_skin _ _ HZ).
Qed.
Lemma smaller_Fit : forall w w', smaller w w' -> Fit w ->
  (forall c e i n, control_of w' c = Some (Skin e i n) -> GetBaseTarget w' c <> None -> exists e0 i0, control_of w c = Some (Skin e0 i0 n)) -> Fit w'.
Proof.
  intros w w' HZ HF HS c l g s Hp Hs. pose proof (cut_back _ _ _ _ _ (Z_cut _ _ HZ) Hp) as Hp0.
  assert (Hs0 : shape_of w g = Some s) by (rewrite <- (Z_shape _ _ HZ g); auto; apply shape_ent in Hs as (y & Hs); congruence).
  destruct (HF c l g s Hp0 Hs0) as (F1 & F2). split.
  - intros b ts x t Hc Hx Ht. destruct (Z_targets _ _ HZ _ _ _ _ Hc Hx) as (Ha & b0 & ts0 & H0 & H1).
    eapply F1; eauto. rewrite <- (Z_shape _ _ HZ x); auto.
  - intros e i n Hc. destruct (HS c e i n Hc) as (e0 & i0 & H0); [|eauto].
    destruct (path_controller _ _ _ _ _ Hp Hc) as (l' & _ & Hb). destruct (GetBaseTarget w' c); [discriminate|]. destruct Hb; discriminate.
Qed.

(** A controller becomes something with no more base and no more targets than before. *)
Lemma put_smaller : forall w c k k', Inv w -> control_of w c = Some k ->
  (forall b, GetBaseTarget (put w c (Controller k')) c = Some b -> GetBaseTarget w c = Some b) ->
  (forall b ts g, k' = Morph b ts -> In (Some g) ts -> exists b0 ts0, k = Morph b0 ts0 /\ In (Some g) ts0) ->
  (forall e i n, k' = Skin e (Some i) n -> exists e0 n0, k = Skin e0 (Some i) n0) ->
  (forall e i n, k' = Skin (Some e) i n -> i = Some e) ->
  smaller w (put w c (Controller k')).
Proof.
  intros w c k k' HI Hk H1 H2 H3 H4. constructor; auto.
  - constructor.
    + intros i _. eapply put_sort; eauto.
    + intros i b Hb. assert (Hb0 : GetBaseTarget w i = Some b).
      { destruct (Nat.eq_dec i c) as [->|Hn]; auto. now rewrite put_base_other in Hb. }
      split; auto. apply put_alive. assert (Hi : ent w i <> None).
      { destruct (base_controller _ _ _ Hb0) as (k0 & Hk0). apply control_ent in Hk0 as (y & Hk0). congruence. }
      destruct (I_path _ HI i Hi) as (l & r & Hp). destruct (base_controller _ _ _ Hb0) as (k0 & Hk0).
      destruct (path_controller _ _ _ _ _ Hp Hk0) as (l' & _ & Hq). rewrite Hb0 in Hq. eapply path_alive; eauto.
  - intros i Hi. destruct (ent (put w c (Controller k')) i) eqn:E; auto. assert (X : ent (put w c (Controller k')) i <> None) by congruence.
    apply put_alive in X. congruence.
  - intros i _. eapply put_shape; eauto.
  - intros d b ts g Hd Hg. assert (Ht : exists b0 ts0, control_of w d = Some (Morph b0 ts0) /\ In (Some g) ts0).
    { destruct (Nat.eq_dec d c) as [->|Hn].
      - rewrite (put_control _ _ _ _ Hk) in Hd. injection Hd as ->. destruct (H2 _ _ _ eq_refl Hg) as (b0 & ts0 & -> & Hi). eauto.
      - rewrite put_control_other in Hd by auto. eauto. }
    split; auto. apply put_alive. destruct Ht as (b0 & ts0 & Ht & Hi). destruct (I_targets _ HI _ _ _ _ Ht Hi) as (s & Hs). apply shape_ent in Hs as (y & Hs). congruence.
  - intros d e i n Hd. destruct (Nat.eq_dec d c) as [->|Hn].
    + rewrite (put_control _ _ _ _ Hk) in Hd. injection Hd as ->. destruct (H3 _ _ _ eq_refl) as (e0 & n0 & ->). eauto.
    + rewrite put_control_other in Hd by auto. eauto.
  - intros d e i n Hd. destruct (Nat.eq_dec d c) as [->|Hn].
    + rewrite (put_control _ _ _ _ Hk) in Hd. injection Hd as ->. eauto.
    + rewrite put_control_other in Hd by auto. eapply I_skin; eauto.
Qed.

Lemma put_base : forall w c k k', control_of w c = Some k -> GetBaseTarget (put w c (Controller k')) c =
  match k' with Skin e i _ => GetEntity w e i | Morph b _ => b | Plain => None end.
Proof. intros w c k k' H. unfold GetBaseTarget. rewrite (put_control _ _ _ _ H). destruct k'; auto. apply put_entity. Qed.

Lemma create_spec : forall w c k k', Inv w -> control_of w c = Some k -> k' = Skin None None 0 \/ k' = Morph None [] ->
  fine w (Some (put w c (Controller k'))) True.
Proof.
  intros w c k k' HI Hk Hk'.
  assert (HZ : smaller w (put w c (Controller k'))).
  { eapply put_smaller; eauto; try (destruct Hk' as [->| ->]); try discriminate; try (rewrite (put_base _ _ _ _ Hk); cbn; discriminate);
      try (intros ? ? ? E; injection E as <- <-; intros []). }
  exists (put w c (Controller k')). split; auto. split; [eapply smaller_Inv; eauto|]. intros HF _. eapply smaller_Fit; eauto.
  intros d e i n Hd Hb. destruct (Nat.eq_dec d c) as [->|Hn].
  - exfalso. apply Hb. rewrite (put_base _ _ _ _ Hk). destruct Hk' as [->| ->]; reflexivity.
  - rewrite put_control_other in Hd by auto. eauto.
Qed.

Lemma influence_spec : forall w c n, Inv w -> is_skin w c -> fine w (SetInfluenceCount w c n) (GetBaseTarget w c = None).
Proof.
  intros w c n HI (e & i & m & Hk). unfold SetInfluenceCount. rewrite Hk.
  assert (HZ : smaller w (put w c (Controller (Skin e i n)))).
  { eapply put_smaller; eauto; try discriminate.
    - intros b. rewrite (put_base _ _ _ _ Hk). unfold GetBaseTarget. now rewrite Hk.
    - intros e0 i0 n0 E. injection E as <- -> <-. eauto.
    - intros e0 i0 n0 E. injection E as -> <- <-. eapply I_skin; eauto. }
  eexists. split; [reflexivity|]. split; [eapply smaller_Inv; eauto|]. intros HF Hn. eapply smaller_Fit; eauto.
  intros d e0 i0 n0 Hd Hb. destruct (Nat.eq_dec d c) as [->|Hd'].
  - exfalso. apply Hb. rewrite (put_base _ _ _ _ Hk). unfold GetBaseTarget in Hn. now rewrite Hk in Hn.
  - rewrite put_control_other in Hd by auto. eauto.
Qed.

(** *** Releasing *)
Lemma release_ent : forall w o j, ent (release w o) j = if Nat.eqb j o then None else option_map (fun x => Item (listed x) (forget o (content x))) (ent w j).
Proof. reflexivity. Qed.
Lemma release_control : forall w o c k', control_of (release w o) c = Some k' -> c <> o /\ exists k, control_of w c = Some k /\
  match k with
  | Plain => k' = Plain
  | Skin (Some e) i n => k' = (if Nat.eqb e o then Skin None None n else Skin (Some e) i n)
  | Skin None i n => k' = Skin None i n
  | Morph b ts => k' = Morph (drop o b) (map (drop o) ts)
  end.
Proof.
  intros w o c k' H. unfold control_of in *. rewrite release_ent in H. destruct (Nat.eqb_spec c o) as [->|Hn]; [discriminate|]. split; auto.
  destruct (ent w c) as [[y [s|[|[e|] i n|b ts]|]]|]; cbn in H; try discriminate; eexists; (split; [reflexivity|]); cbn; try congruence.
  destruct (Nat.eqb e o); congruence.
Qed.
Lemma drop_some : forall o p b, drop o p = Some b -> p = Some b /\ b <> o.
Proof. intros o [e|] b H; cbn in H; [|discriminate]. destruct (Nat.eqb_spec e o); [discriminate|]. injection H as ->. auto. Qed.
Lemma drop_in : forall o ts g, In (Some g) (map (drop o) ts) -> In (Some g) ts /\ g <> o.
Proof. intros o ts g H. apply in_map_iff in H as (p & E & H). apply drop_some in E as (-> & Hn). auto. Qed.
Lemma release_alive : forall w o j, j <> o -> (ent (release w o) j <> None <-> ent w j <> None).
Proof. intros w o j H. rewrite release_ent. rewrite (proj2 (Nat.eqb_neq _ _) H). destruct (ent w j); cbn; split; congruence. Qed.
Lemma release_shape : forall w o j, j <> o -> shape_of (release w o) j = shape_of w j.
Proof.
  intros w o j H. unfold shape_of. rewrite release_ent. rewrite (proj2 (Nat.eqb_neq _ _) H).
  destruct (ent w j) as [[y [s|[|[e|] i n|b ts]|]]|]; cbn; auto. now destruct (Nat.eqb e o).
Qed.
Lemma release_sort : forall w o j, j <> o -> sort_of (release w o) j = sort_of w j.
Proof.
  intros w o j H. unfold sort_of. rewrite release_ent. rewrite (proj2 (Nat.eqb_neq _ _) H).
  destruct (ent w j) as [[y [s|[|[e|] i n|b ts]|]]|]; cbn; auto. now destruct (Nat.eqb e o).
Qed.
Lemma release_find : forall w o i b, FindEntity (release w o) i = Some b -> FindEntity w i = Some b /\ b <> o.
Proof.
  intros w o i b H. unfold FindEntity in *. rewrite release_ent in H. destruct (Nat.eqb_spec i o) as [->|Hn]; [discriminate|].
  destruct (ent w i) as [x|]; [|discriminate]. cbn in H. destruct (listed x); [|discriminate]. injection H as <-. auto.
Qed.
Lemma release_base : forall w o c b, GetBaseTarget (release w o) c = Some b -> GetBaseTarget w c = Some b /\ b <> o.
Proof.
  intros w o c b H. unfold GetBaseTarget in *. destruct (control_of (release w o) c) as [k'|] eqn:Hk; [|discriminate].
  apply release_control in Hk as (Hc & k & Hk & E). rewrite Hk. destruct k as [|[e|] i n|p ts]; subst; try discriminate.
  - destruct (Nat.eqb_spec e o); cbn in H; [discriminate|]. injection H as <-. auto.
  - cbn in *. destruct i as [i|]; [|discriminate]. now apply release_find.
  - now apply drop_some.
Qed.
Lemma release_smaller : forall w o, Inv w -> smaller w (release w o).
Proof.
  intros w o HI. constructor; auto.
  - constructor.
    + intros i Hi. apply release_sort. intros ->. apply Hi. rewrite release_ent. now rewrite Nat.eqb_refl.
    + intros i b Hb. apply release_base in Hb as (Hb & Hn). split; auto. apply release_alive; auto.
      destruct (base_controller _ _ _ Hb) as (k & Hk). assert (Hi : ent w i <> None) by (apply control_ent in Hk as (y & X); congruence).
      destruct (I_path _ HI i Hi) as (l & r & Hp). destruct (path_controller _ _ _ _ _ Hp Hk) as (l' & _ & Hq). rewrite Hb in Hq. eapply path_alive; eauto.
  - intros i Hi. rewrite release_ent, Hi. now destruct (Nat.eqb i o).
  - intros i Hi. apply release_shape. intros ->. apply Hi. rewrite release_ent. now rewrite Nat.eqb_refl.
  - intros c b ts g Hc Hg. apply release_control in Hc as (Hn & k & Hk & E). destruct k as [|[e|] i n|p ts0]; try discriminate E.
    + destruct (Nat.eqb e o); discriminate E.
    + injection E as -> ->. apply drop_in in Hg as (Hg & Hgo). split; eauto. apply release_alive; auto.
      destruct (I_targets _ HI _ _ _ _ Hk Hg) as (s & Hs). apply shape_ent in Hs as (y & Hs). congruence.
  - intros c e i n Hc. apply release_control in Hc as (Hn & k & Hk & E). destruct k as [|[e0|] i0 n0|p ts0]; try discriminate E.
    + destruct (Nat.eqb e0 o); [discriminate E|]. injection E as -> <- ->. eauto.
    + injection E as -> <- ->. eauto.
  - intros c e i n Hc. apply release_control in Hc as (Hn & k & Hk & E). destruct k as [|[e0|] i0 n0|p ts0]; try discriminate E.
    destruct (Nat.eqb e0 o); [discriminate E|]. injection E as -> -> ->. eapply I_skin; eauto.
Qed.
Lemma release_spec : forall w o, Inv w -> Inv (release w o) /\ (Fit w -> Fit (release w o)).
Proof.
  intros w o HI. pose proof (release_smaller w o HI) as HZ. split; [eapply smaller_Inv; eauto|]. intro HF. eapply smaller_Fit; eauto.
  intros c e i n Hc _. apply release_control in Hc as (Hn & k & Hk & E). destruct k as [|[e0|] i0 n0|p ts0]; try discriminate E.
  - destruct (Nat.eqb e0 o); injection E as -> -> ->; eauto.
  - injection E as -> -> ->. eauto.
Qed.

(** *** Other targets with the same base *)
Lemma same_base_path : forall w w', (forall i, sort_of w' i = sort_of w i) -> (forall i, GetBaseTarget w' i = GetBaseTarget w i) ->
  forall e l r, path w e l r -> path w' e l r.
Proof.
  intros w w' Hs Hb e l r H. induction H as [e s X|e Ho|e k Hk X|e b l r X H IH].
  - assert (Y : sort_of w' e = Some S_geometry) by (rewrite Hs; apply shape_sort; eauto). apply shape_sort in Y as (s' & Y). eapply P_geometry; eauto.
  - apply P_other. now rewrite Hs.
  - assert (Y : sort_of w' e = Some S_controller) by (rewrite Hs; apply control_sort; eauto). apply control_sort in Y as (k' & Y).
    eapply P_none; eauto. now rewrite Hb.
  - eapply P_step; eauto. now rewrite Hb.
Qed.
Lemma retarget : forall w c b ts ts', Inv w -> control_of w c = Some (Morph b ts) ->
  (forall g, In (Some g) ts' -> In (Some g) ts \/ exists s, shape_of w g = Some s) ->
  let w' := put w c (Controller (Morph b ts')) in
  Inv w' /\ (forall e l r, path w' e l r <-> path w e l r) /\
  (Fit w -> (forall l g s x t, path w c l (Some g) -> shape_of w g = Some s -> In (Some x) ts' -> ~ In (Some x) ts -> shape_of w x = Some t -> similar s t = true) -> Fit w').
Proof.
  intros w c b ts ts' HI Hk Ht w'.
  assert (Hs : forall i, sort_of w' i = sort_of w i) by (intro i; eapply put_sort; eauto).
  assert (Hsh : forall i, shape_of w' i = shape_of w i) by (intro i; eapply put_shape; eauto).
  assert (Hb : forall i, GetBaseTarget w' i = GetBaseTarget w i).
  { intro i. destruct (Nat.eq_dec i c) as [->|Hn]; [|now apply put_base_other]. unfold w'. rewrite (put_base _ _ _ _ Hk). unfold GetBaseTarget. now rewrite Hk. }
  assert (Hp : forall e l r, path w' e l r <-> path w e l r) by (intros e l r; split; apply same_base_path; auto).
  assert (Hc : control_of w' c = Some (Morph b ts')) by (eapply put_control; eauto).
  split; [|split; auto].
  - constructor.
    + intros i Hi. pose proof (I_fresh _ HI i Hi) as Hf. destruct (ent w' i) eqn:E; auto. assert (X : ent w' i <> None) by congruence. apply put_alive in X. congruence.
    + intros i Hi. apply put_alive in Hi. destruct (I_path _ HI i Hi) as (l & r & Hq). exists l, r. now apply Hp.
    + intros d b0 ts0 g Hd Hg. rewrite Hsh. destruct (Nat.eq_dec d c) as [->|Hn].
      * rewrite Hc in Hd. injection Hd as <- <-. destruct (Ht g Hg) as [H|H]; auto. eapply I_targets; eauto.
      * unfold w' in Hd. rewrite put_control_other in Hd by auto. eapply I_targets; eauto.
    + intros d e i n Hd. destruct (Nat.eq_dec d c) as [->|Hn]; [congruence|]. unfold w' in Hd. rewrite put_control_other in Hd by auto. exact (I_ids _ HI _ _ _ _ Hd).
    + intros d e i n Hd. destruct (Nat.eq_dec d c) as [->|Hn]; [congruence|]. unfold w' in Hd. rewrite put_control_other in Hd by auto. exact (I_skin _ HI _ _ _ _ Hd).
  - intros HF Hnew d l g s Hd Hg. apply Hp in Hd. rewrite Hsh in Hg. destruct (HF d l g s Hd Hg) as (F1 & F2). split.
    + intros b0 ts0 x t Hk0 Hx Hxt. rewrite Hsh in Hxt. destruct (Nat.eq_dec d c) as [->|Hn].
      * rewrite Hc in Hk0. injection Hk0 as <- <-.
        assert (Dec : {In (Some x) ts} + {~ In (Some x) ts}) by (apply in_dec; repeat decide equality).
        destruct Dec as [Hin|Hin]; [exact (F1 _ _ _ _ Hk Hin Hxt)|exact (Hnew _ _ _ _ _ Hd Hg Hx Hin Hxt)].
      * unfold w' in Hk0. rewrite put_control_other in Hk0 by auto. exact (F1 _ _ _ _ Hk0 Hx Hxt).
    + intros e i n Hk0. destruct (Nat.eq_dec d c) as [->|Hn]; [congruence|]. unfold w' in Hk0. rewrite put_control_other in Hk0 by auto. exact (F2 _ _ _ Hk0).
Qed.

(** *** The comparison *)
Lemma similar_spec : forall w b l r g t, Inv w -> path w b l r -> shape_of w g = Some t ->
  IsSimilar w (Some b) (Some g) = Some (match r with Some x => match shape_of w x with Some s => similar s t | None => false end | None => false end).
Proof.
  intros w b l r g t HI Hp Hg. unfold IsSimilar. rewrite (actual_path _ _ _ _ HI Hp), (actual_path w g [] (Some g) HI) by (eapply P_geometry; eauto).
  destruct r as [x|]; auto. destruct (path_end _ _ _ _ Hp) as (s & Hs). now rewrite Hs, Hg.
Qed.
Lemma base_path : forall w c b ts, Inv w -> control_of w c = Some (Morph (Some b) ts) -> exists l r, path w b l r /\ path w c (c :: l) r.
Proof.
  intros w c b ts HI Hk. assert (Hc : ent w c <> None) by (apply control_ent in Hk as (y & X); congruence).
  destruct (I_path _ HI c Hc) as (l & r & Hp). destruct (path_controller _ _ _ _ _ Hp Hk) as (l' & -> & Hq).
  unfold GetBaseTarget in Hq. rewrite Hk in Hq. eauto.
Qed.

(** The common end of AddTarget and SetGeometry. *)
Lemma try_spec : forall w c b ts ts' g, Inv w -> control_of w c = Some (Morph b ts) -> geometry w g ->
  (forall x, In (Some x) ts' -> In (Some x) ts \/ g = Some x) ->
  fine w (match (match b with None => Some true | Some _ => IsSimilar w b g end) with
          | Some true => Some (put w c (Controller (Morph b ts')))
          | Some false => Some w
          | None => None
          end) True.
Proof.
  intros w c b ts ts' g HI Hk Hg Ht.
  assert (Hshape : forall x, In (Some x) ts' -> In (Some x) ts \/ exists s, shape_of w x = Some s) by (intros x Hx; destruct (Ht x Hx) as [H|H]; auto).
  destruct (retarget w c b ts ts' HI Hk Hshape) as (R1 & R2 & R3).
  destruct b as [b|].
  - destruct (base_path _ _ _ _ HI Hk) as (l & r & Hp & Hpc). destruct g as [g|].
    + destruct (Hg g eq_refl) as (t & Hgt). rewrite (similar_spec _ _ _ _ _ _ HI Hp Hgt). destruct r as [x|]; [|exists w; auto].
      destruct (path_end _ _ _ _ Hp) as (s & Hs). rewrite Hs. destruct (similar s t) eqn:E; [|exists w; auto].
      eexists. split; [reflexivity|]. split; auto. intros HF _. apply R3; auto. intros l0 g0 s0 x0 t0 Q1 Q2 Q3 Q4 Q5.
      destruct (path_unique _ _ _ _ Hpc _ _ Q1) as (_ & X). injection X as <-. destruct (Ht x0 Q3) as [H|H]; [contradiction|]. injection H as <-. congruence.
    + exists w. auto.
  - eexists. split; [reflexivity|]. split; auto. intros HF _. apply R3; auto. intros l0 g0 s0 x0 t0 Q1.
    destruct (path_controller _ _ _ _ _ Q1 Hk) as (l' & _ & Hq). unfold GetBaseTarget in Hq. rewrite Hk in Hq. destruct Hq; discriminate.
Qed.
Lemma add_spec : forall w c b ts g, Inv w -> is_morph w c b ts -> geometry w g -> fine w (AddTarget w c g) True.
Proof.
  intros w c b ts g HI Hk Hg. unfold is_morph in Hk. unfold AddTarget. rewrite Hk. eapply try_spec; eauto.
  intros x Hx. apply in_app_iff in Hx as [Hx|[Hx|[]]]; auto.
Qed.
Lemma set_nth_in : forall A (l : list A) i x y, In y (set_nth l i x) -> In y l \/ x = y.
Proof.
  induction l as [|z l IH]; intros [|i] x y H; cbn in *; auto.
  - destruct H; auto.
  - destruct H as [H|H]; auto. apply IH in H. tauto.
Qed.
Lemma listed_two : forall w o x c b ts, Inv w -> ent w o = Some x -> listed x = true -> control_of w c = Some (Morph b ts) -> In (Some o) ts -> 2 <= trackers w o.
Proof.
  intros w o x c b ts HI Ho Hl Hk Hin. apply control_ent in Hk as (y & Hk).
  assert (Hc : c < count w) by (destruct (Nat.lt_ge_cases c (count w)) as [H|H]; auto; rewrite (I_fresh _ HI c H) in Hk; discriminate).
  unfold trackers. rewrite Ho, Hl.
  assert (H1 : 1 <= list_sum (map (same o) ts)).
  { clear -Hin. induction ts as [|a ts IH]; [destruct Hin|]. destruct Hin as [->|Hin]; cbn; [rewrite Nat.eqb_refl; lia|]. specialize (IH Hin). unfold list_sum in *. lia. }
  assert (H : forall l, In c l -> 1 <= list_sum (map (fun i => match ent w i with Some y => pointers o (content y) | None => 0 end) l)).
  { induction l as [|a l IH]; [intros []|]. intros [->|H]; cbn; [rewrite Hk; cbn; unfold list_sum in *; lia|]. specialize (IH H). unfold list_sum in *. lia. }
  specialize (H (seq 0 (count w))). rewrite in_seq in H. specialize (H ltac:(lia)). lia.
Qed.
Lemma set_geometry_spec : forall w c i g b ts old, Inv w -> is_morph w c b ts -> nth_error ts i = Some old -> geometry w g ->
  (old = g -> forall x y, g = Some x -> ent w x = Some y -> listed y = true) -> fine w (SetGeometry w c i g) True.
Proof.
  intros w c i g b ts old HI Hk Hn Hg Hold. unfold is_morph in Hk. unfold SetGeometry. rewrite Hk, Hn.
  set (w' := match old with Some o => if Nat.eqb (trackers w o) 1 then release w o else w | None => w end).
  assert (Hw : Inv w' /\ (Fit w -> Fit w') /\ geometry w' g /\ exists b' ts', control_of w' c = Some (Morph b' ts')).
  { destruct old as [o|]; [|unfold w'; eauto 6]. unfold w'. destruct (Nat.eqb_spec (trackers w o) 1) as [E|E]; [|eauto 6].
    destruct (release_spec w o HI) as (R1 & R2). split; auto. split; auto.
    pose proof (nth_error_In _ _ Hn) as Hin. destruct (I_targets _ HI _ _ _ _ Hk Hin) as (so & Hso).
    assert (Hgo : g <> Some o).
    { intros ->. pose proof (shape_ent _ _ _ Hso) as (y & Hy). pose proof (Hold eq_refl o _ eq_refl Hy) as Hl.
      pose proof (listed_two _ _ _ _ _ _ HI Hy Hl Hk Hin). lia. }
    split.
    - intros x ->. rewrite release_shape by congruence. now apply Hg.
    - assert (Hc : c <> o) by (intros ->; destruct (not_both _ _ _ _ Hso Hk)). exists (drop o b), (map (drop o) ts).
      apply control_ent in Hk as (y & Hk). unfold control_of. rewrite release_ent. rewrite (proj2 (Nat.eqb_neq _ _) Hc). rewrite Hk. reflexivity. }
  destruct Hw as (I1 & F1 & G1 & b' & ts' & Hk'). rewrite Hk'.
  replace (match g with Some x => match ent w' x with Some _ => true | None => false end | None => true end) with true.
  2:{ destruct g as [x|]; auto. destruct (G1 x eq_refl) as (s & Hs). apply shape_ent in Hs as (y & Hs). now rewrite Hs. }
  destruct (try_spec w' c b' ts' (set_nth ts' i g) g I1 Hk' G1) as (w2 & E & I2 & F2).
  { intros x Hx. now apply set_nth_in in Hx. }
  exists w2. auto.
Qed.

(** *** A new base *)
Lemma elsewhere : forall w w' c, (forall i, sort_of w' i = sort_of w i) -> (forall i, i <> c -> GetBaseTarget w' i = GetBaseTarget w i) ->
  (forall i, GetBaseTarget w' i <> Some c) -> forall d l r, path w' d l r -> d <> c -> path w d l r.
Proof.
  intros w w' c Hs Hb Hn d l r H. induction H as [e s X|e Ho|e k Hk X|e b l r X H IH]; intro He.
  - assert (Y : sort_of w e = Some S_geometry) by (rewrite <- Hs; apply shape_sort; eauto). apply shape_sort in Y as (s' & Y). eapply P_geometry; eauto.
  - apply P_other. now rewrite <- Hs.
  - assert (Y : sort_of w e = Some S_controller) by (rewrite <- Hs; apply control_sort; eauto). apply control_sort in Y as (k' & Y).
    eapply P_none; eauto. now rewrite <- Hb.
  - eapply P_step; [rewrite <- Hb; eauto|]. apply IH. intros ->. exact (Hn _ X).
Qed.

Lemma keep_spec : forall w b l g s ts, Inv w -> path w b l (Some g) -> shape_of w g = Some s ->
  (forall x, In (Some x) ts -> exists t, shape_of w x = Some t) ->
  exists r, keep_similar w (Some b) ts = Some r /\ (forall x, In (Some x) r -> In (Some x) ts) /\
            forall x t, In (Some x) r -> shape_of w x = Some t -> similar s t = true.
Proof.
  intros w b l g s ts HI Hp Hs. induction ts as [|t ts IH]; intros Ht.
  - exists []. split; [reflexivity|]. split; [auto|]. intros x t [].
  - destruct IH as (r & E & R1 & R2); [intros; apply Ht; now right|]. cbn [keep_similar]. destruct t as [x|].
    + destruct (Ht x) as (t & Hx); [now left|]. rewrite (similar_spec _ _ _ _ _ _ HI Hp Hx), E, Hs.
      destruct (similar s t) eqn:Es; eexists; (split; [reflexivity|]); split.
      * intros y [H|H]; [left; auto|right; auto].
      * intros y u [H|H] Hu; [injection H as <-; congruence|eauto].
      * intros y H. right. auto.
      * eauto.
    + cbn [IsSimilar]. rewrite E. exists r. split; auto. split; auto. intros y H. right. auto.
Qed.

(** Assigning a base in a world in which the controller has been cut off. *)
Lemma attach : forall w c k k' e l r, Inv w -> control_of w c = Some k -> path w e l r -> ~ In c l ->
  GetBaseTarget (put w c (Controller k')) c = Some e ->
  (forall b ts x, k' = Morph b ts -> In (Some x) ts -> exists s, shape_of w x = Some s) ->
  (forall a i n, k' = Skin a (Some i) n -> i < count w) -> (forall a i n, k' = Skin (Some a) i n -> i = Some a) ->
  let w' := put w c (Controller k') in
  Inv w' /\ path w' e l r /\ path w' c (c :: l) r.
Proof.
  intros w c k k' e l r HI Hk Hp Hn Hb H1 H2 H3 w'.
  destruct (extend w w' c e l r) as (X1 & X2); auto.
  { intro i. eapply put_sort; eauto. } { intros i Hi. now apply put_base_other. }
  split; [|split; auto; eapply P_step; eauto]. constructor.
  - intros i Hi. pose proof (I_fresh _ HI i Hi) as Hf. destruct (ent w' i) eqn:E; auto. assert (X : ent w' i <> None) by congruence. apply put_alive in X. congruence.
  - intros i Hi. apply put_alive in Hi. destruct (I_path _ HI i Hi) as (l0 & r0 & Hq). eauto.
  - intros d b ts x Hd Hx. unfold w'. rewrite (put_shape _ _ _ _ _ Hk). destruct (Nat.eq_dec d c) as [->|Hd'].
    + unfold w' in Hd. rewrite (put_control _ _ _ _ Hk) in Hd. injection Hd as ->. eauto.
    + unfold w' in Hd. rewrite put_control_other in Hd by auto. eapply I_targets; eauto.
  - intros d a i n Hd. destruct (Nat.eq_dec d c) as [->|Hd'].
    + unfold w' in Hd. rewrite (put_control _ _ _ _ Hk) in Hd. injection Hd as ->. cbn. eauto.
    + unfold w' in Hd. rewrite put_control_other in Hd by auto. exact (I_ids _ HI _ _ _ _ Hd).
  - intros d a i n Hd. destruct (Nat.eq_dec d c) as [->|Hd'].
    + unfold w' in Hd. rewrite (put_control _ _ _ _ Hk) in Hd. injection Hd as ->. eauto.
    + unfold w' in Hd. rewrite put_control_other in Hd by auto. exact (I_skin _ HI _ _ _ _ Hd).
Qed.

(** Fitting after the base of [c] has changed. *)
Lemma attach_Fit : forall w w' c, Fit w -> (forall i, sort_of w' i = sort_of w i) -> (forall i, shape_of w' i = shape_of w i) ->
  (forall i, i <> c -> control_of w' i = control_of w i) -> (forall i, i <> c -> GetBaseTarget w' i = GetBaseTarget w i) ->
  (forall i, GetBaseTarget w' i <> Some c) ->
  (forall l g s, path w' c l (Some g) -> shape_of w' g = Some s ->
     (forall b ts x t, control_of w' c = Some (Morph b ts) -> In (Some x) ts -> shape_of w' x = Some t -> similar s t = true) /\
     (forall e i n, control_of w' c = Some (Skin e i n) -> n = vertex_count s)) -> Fit w'.
Proof.
  intros w w' c HF H1 H2 H3 H4 H5 H6 d l g s Hp Hs. destruct (Nat.eq_dec d c) as [->|Hd]; [eauto|].
  pose proof (elsewhere _ _ _ H1 H4 H5 _ _ _ Hp Hd) as Hq. rewrite H2 in Hs. destruct (HF _ _ _ _ Hq Hs) as (F1 & F2). rewrite H3 by auto. split.
  - intros b ts x t Q1 Q2 Q3. rewrite H2 in Q3. eauto.
  - exact F2.
Qed.

Lemma set_base_spec : forall w c b ts e, Inv w -> is_morph w c b ts -> alive w e ->
  fine w (SetBaseTarget w c e) (forall d, GetBaseTarget w d <> Some c).
Proof.
  intros w c b ts e HI Hk He. unfold is_morph in Hk. unfold SetBaseTarget. rewrite Hk.
  set (w1 := put w c (Controller (Morph None ts))).
  assert (HZ : smaller w w1).
  { eapply put_smaller; eauto; try discriminate; [rewrite (put_base _ _ _ _ Hk); discriminate|]. intros b0 ts0 g E. injection E as <- <-. eauto. }
  pose proof (smaller_Inv _ _ HI HZ) as I1.
  assert (Hk1 : control_of w1 c = Some (Morph None ts)) by (eapply put_control; eauto).
  assert (Hc1 : GetBaseTarget w1 c = None) by (unfold GetBaseTarget; now rewrite Hk1).
  assert (Hout : fine w (Some (put w1 c (Controller (Morph None [])))) (forall d, GetBaseTarget w d <> Some c)).
  { assert (HZ2 : smaller w1 (put w1 c (Controller (Morph None [])))).
    { eapply put_smaller; eauto; try discriminate; [rewrite (put_base _ _ _ _ Hk1); discriminate|]. intros b0 ts0 g E. injection E as <- <-. intros []. }
    eexists. split; [reflexivity|]. split; [eapply smaller_Inv; eauto|]. intros HF _. eapply smaller_Fit; [exact HZ2| |].
    - eapply smaller_Fit; eauto. intros d e0 i n Hd _. destruct (Nat.eq_dec d c) as [->|Hn]; [congruence|]. unfold w1 in Hd. rewrite put_control_other in Hd by auto. eauto.
    - intros d e0 i n Hd _. destruct (Nat.eq_dec d c) as [->|Hn]; [rewrite (put_control _ _ _ _ Hk1) in Hd; congruence|]. rewrite put_control_other in Hd by auto. eauto. }
  destruct e as [e|]; [|exact Hout].
  assert (He1 : ent w1 e <> None) by (apply put_alive; now apply He).
  destruct (I_path _ I1 e He1) as (l & r & Hp). rewrite (actual_path _ _ _ _ I1 Hp). destruct r as [g|]; [|exact Hout]. clear Hout.
  assert (Hn : ~ In c l) by (intro X; pose proof (path_cut_none _ _ _ _ _ Hp X Hc1); discriminate).
  assert (Hec : e <> c).
  { intros ->. destruct (path_controller _ _ _ _ _ Hp Hk1) as (l' & -> & _). apply Hn. now left. }
  set (w2 := put w1 c (Controller (Morph (Some e) ts))).
  destruct (attach w1 c _ (Morph (Some e) ts) e l (Some g) I1 Hk1 Hp Hn) as (I2 & P2 & P2c); try discriminate.
  { rewrite (put_base _ _ _ _ Hk1). reflexivity. }
  { intros b0 ts0 x E Hx. injection E as <- <-. eapply (I_targets _ I1); eauto. }
  fold w2 in I2, P2, P2c. assert (Hk2 : control_of w2 c = Some (Morph (Some e) ts)) by (eapply put_control; eauto).
  destruct (path_end _ _ _ _ P2) as (s & Hs).
  destruct (keep_spec w2 e l g s ts I2 P2 Hs) as (r & Er & K1 & K2).
  { intros x Hx. eapply (I_targets _ I2); eauto. }
  rewrite Er. destruct (retarget w2 c (Some e) ts r I2 Hk2) as (I3 & P3 & _); [intros; left; auto|].
  eexists. split; [reflexivity|]. split; [exact I3|]. intros HF Hset. set (w3 := put w2 c (Controller (Morph (Some e) r))).
  assert (Hsh : forall i, shape_of w3 i = shape_of w i).
  { intro i. unfold w3. rewrite (put_shape _ _ _ _ _ Hk2). unfold w2. rewrite (put_shape _ _ _ _ _ Hk1). unfold w1. now rewrite (put_shape _ _ _ _ _ Hk). }
  assert (Hoth : forall i, i <> c -> GetBaseTarget w3 i = GetBaseTarget w i).
  { intros i Hi. unfold w3, w2, w1. now rewrite !put_base_other. }
  assert (Hk3 : control_of w3 c = Some (Morph (Some e) r)) by (eapply put_control; eauto).
  apply (attach_Fit w w3 c); auto.
  - intro i. unfold w3. rewrite (put_sort _ _ _ _ _ Hk2). unfold w2. rewrite (put_sort _ _ _ _ _ Hk1). unfold w1. now rewrite (put_sort _ _ _ _ _ Hk).
  - intros i Hi. unfold w3, w2, w1. now rewrite !put_control_other.
  - intros i. destruct (Nat.eq_dec i c) as [->|Hi]; [|rewrite Hoth by auto; apply Hset].
    unfold GetBaseTarget. rewrite Hk3. congruence.
  - intros l0 g0 s0 Hp0 Hs0. apply P3 in Hp0. destruct (path_unique _ _ _ _ P2c _ _ Hp0) as (_ & X). injection X as <-.
    assert (s0 = s) by (unfold w3 in Hs0; rewrite (put_shape _ _ _ _ _ Hk2) in Hs0; congruence). subst s0. split.
    + intros b0 ts0 x t Hb Hx Ht. rewrite Hk3 in Hb. injection Hb as <- <-. eapply K2; eauto.
      unfold w3 in Ht. now rewrite (put_shape _ _ _ _ _ Hk2) in Ht.
    + intros e0 i n Hb. congruence.
Qed.

Lemma set_target_spec : forall w c e, Inv w -> is_skin w c -> alive w e -> forward w (OpSetTarget c e) ->
  fine w (SetTarget w c e) (forall d, GetBaseTarget w d <> Some c).
Proof.
  intros w c e HI (a & i & n & Hk) He Hf. unfold SetTarget. rewrite Hk.
  set (w1 := put w c (Controller (Skin None i n))).
  assert (HZ : smaller w w1).
  { eapply put_smaller; eauto; try discriminate.
    - intros b. rewrite (put_base _ _ _ _ Hk). unfold GetBaseTarget. rewrite Hk. destruct a as [a|]; auto. rewrite (I_skin _ HI _ _ _ _ Hk). cbn.
      unfold FindEntity. destruct (ent w a) as [x|]; [|discriminate]. destruct (listed x); [auto|discriminate].
    - intros e0 i0 n0 E. injection E as <- -> <-. eauto. }
  pose proof (smaller_Inv _ _ HI HZ) as I1.
  assert (Hk1 : control_of w1 c = Some (Skin None i n)) by (eapply put_control; eauto).
  assert (Hout : fine w (Some w1) (forall d, GetBaseTarget w d <> Some c)).
  { eexists. split; [reflexivity|]. split; auto. intros HF _. eapply smaller_Fit; eauto. intros d e0 i0 n0 Hd _.
    destruct (Nat.eq_dec d c) as [->|Hn].
    - rewrite Hk1 in Hd. injection Hd as <- <- <-. eauto.
    - unfold w1 in Hd. rewrite put_control_other in Hd by auto. eauto. }
  destruct e as [e|]; [|exact Hout].
  assert (He1 : ent w1 e <> None) by (apply put_alive; now apply He).
  destruct (I_path _ I1 e He1) as (l & r & Hp). rewrite (actual_path _ _ _ _ I1 Hp). destruct r as [g|]; [|exact Hout]. clear Hout.
  assert (Hn : ~ In c l).
  { intro X. destruct Hf as [(m & Hm)|Hf].
    - rewrite Hk in Hm. injection Hm as -> -> ->. assert (Hc1 : GetBaseTarget w1 c = None) by (unfold GetBaseTarget; now rewrite Hk1).
      pose proof (path_cut_none _ _ _ _ _ Hp X Hc1). discriminate.
    - destruct (Hf e eq_refl) as (Y1 & Y2). destruct (through w w1 c e l (Some g)) as [Y|Y]; auto.
      intros j Hj. unfold w1. now rewrite put_base_other. }
  assert (Hec : e <> c).
  { intros ->. destruct (path_controller _ _ _ _ _ Hp Hk1) as (l' & -> & _). apply Hn. now left. }
  destruct (path_end _ _ _ _ Hp) as (s & Hs). rewrite Hs.
  assert (Hv : (if n =? 0 then vertex_count s else if vertex_count s =? n then n else vertex_count s) = vertex_count s).
  { destruct (Nat.eqb n 0); auto. destruct (Nat.eqb_spec (vertex_count s) n); auto. }
  rewrite Hv. set (w2 := put w1 c (Controller (Skin (Some e) (Some e) (vertex_count s)))).
  destruct (attach w1 c _ (Skin (Some e) (Some e) (vertex_count s)) e l (Some g) I1 Hk1 Hp Hn) as (I2 & P2 & P2c); try discriminate.
  { rewrite (put_base _ _ _ _ Hk1). reflexivity. }
  { intros a0 i0 n0 E. injection E as <- <- <-. destruct (Nat.lt_ge_cases e (count w1)) as [H|H]; auto. destruct He1. now apply (I_fresh _ I1). }
  { intros a0 i0 n0 E. injection E as <- <- <-. reflexivity. }
  fold w2 in I2, P2, P2c. assert (Hk2 : control_of w2 c = Some (Skin (Some e) (Some e) (vertex_count s))) by (eapply put_control; eauto).
  eexists. split; [reflexivity|]. split; [exact I2|]. intros HF Hset.
  assert (Hoth : forall j, j <> c -> GetBaseTarget w2 j = GetBaseTarget w j).
  { intros j Hj. unfold w2, w1. now rewrite !put_base_other. }
  apply (attach_Fit w w2 c); auto.
  - intro j. unfold w2. rewrite (put_sort _ _ _ _ _ Hk1). unfold w1. now rewrite (put_sort _ _ _ _ _ Hk).
  - intro j. unfold w2. rewrite (put_shape _ _ _ _ _ Hk1). unfold w1. now rewrite (put_shape _ _ _ _ _ Hk).
  - intros j Hj. unfold w2, w1. now rewrite !put_control_other.
  - intros j. destruct (Nat.eq_dec j c) as [->|Hj]; [|rewrite Hoth by auto; apply Hset]. unfold GetBaseTarget. rewrite Hk2. cbn. congruence.
  - intros l0 g0 s0 Hp0 Hs0. destruct (path_unique _ _ _ _ P2c _ _ Hp0) as (_ & X). injection X as <-.
    assert (s0 = s) by (unfold w2 in Hs0; rewrite (put_shape _ _ _ _ _ Hk1) in Hs0; congruence). subst s0. split.
    + intros b0 ts0 x t Hb. congruence.
    + intros e0 i0 n0 Hb. congruence.
Qed.

(** A target by id. *)
Lemma uri_spec : forall w c e, Inv w -> proper w (OpSetTargetUri c e) -> forward w (OpSetTargetUri c e) -> fine w (SetTargetUri w c e) False.
Proof.
  intros w c e HI (_ & He) ((n & Hk) & Hec & Hb). unfold SetTargetUri. rewrite Hk. set (k' := Skin None (Some e) n).
  assert (Hcount : e < count w) by (destruct (Nat.lt_ge_cases e (count w)) as [H|H]; auto; destruct He; now apply (I_fresh _ HI)).
  eexists. split; [reflexivity|]. split; [|intros _ []].
  destruct (FindEntity w e) as [x|] eqn:Ef.
  - assert (x = e) by (unfold FindEntity in Ef; destruct (ent w e) as [y|]; [|discriminate]; destruct (listed y); congruence). subst x.
    destruct (I_path _ HI e He) as (l & r & Hp).
    assert (Hn : ~ In c l) by (intro X; destruct (through w w c e l r) as [Y|Y]; auto).
    destruct (attach w c _ k' e l r HI Hk Hp Hn) as (I1 & _); auto; try discriminate.
    + unfold k'. rewrite (put_base _ _ _ _ Hk). exact Ef.
    + intros a i m E. injection E as <- <- <-. exact Hcount.
  - assert (Hp : forall i l r, path w i l r -> path (put w c (Controller k')) i l r).
    { apply same_base_path; [intro i; eapply put_sort; eauto|]. intro i. destruct (Nat.eq_dec i c) as [->|Hn]; [|now apply put_base_other].
      unfold k'. rewrite (put_base _ _ _ _ Hk). unfold GetBaseTarget. rewrite Hk. cbn. exact Ef. }
    constructor.
    + intros i Hi. pose proof (I_fresh _ HI i Hi) as Hf. destruct (ent (put w c (Controller k')) i) eqn:E; auto.
      assert (X : ent (put w c (Controller k')) i <> None) by congruence. apply put_alive in X. congruence.
    + intros i Hi. apply put_alive in Hi. destruct (I_path _ HI i Hi) as (l & r & Hq). eauto.
    + intros d b ts x Hd Hx. rewrite (put_shape _ _ _ _ _ Hk). destruct (Nat.eq_dec d c) as [->|Hn]; [rewrite (put_control _ _ _ _ Hk) in Hd; discriminate|].
      rewrite put_control_other in Hd by auto. eapply I_targets; eauto.
    + intros d a i m Hd. destruct (Nat.eq_dec d c) as [->|Hn].
      * rewrite (put_control _ _ _ _ Hk) in Hd. injection Hd as <- <- <-. exact Hcount.
      * rewrite put_control_other in Hd by auto. exact (I_ids _ HI _ _ _ _ Hd).
    + intros d a i m Hd. destruct (Nat.eq_dec d c) as [->|Hn]; [rewrite (put_control _ _ _ _ Hk) in Hd; discriminate|].
      rewrite put_control_other in Hd by auto. exact (I_skin _ HI _ _ _ _ Hd).
Qed.

(** *** New entities and new shapes *)
Lemma new_spec : forall w b k, Inv w -> (forall c, k = Controller c -> c = Plain) -> fine w (Some (new w b k)) True.
Proof.
  intros w b k HI Hk. set (w' := new w b k). set (o := count w).
  assert (Hent : forall j, j <> o -> ent w' j = ent w j) by (intros j Hj; cbn; destruct (Nat.eqb_spec j (count w)); [contradiction|auto]).
  assert (Ho : ent w' o = Some (Item b k)) by (unfold o; cbn; now rewrite Nat.eqb_refl).
  assert (Hold : forall j, ent w j <> None -> j <> o) by (intros j Hj ->; apply Hj; now apply (I_fresh _ HI)).
  assert (Hc : forall j c, control_of w' j = Some c -> (j = o /\ c = Plain) \/ control_of w j = Some c).
  { intros j c Hj. unfold control_of in *. destruct (Nat.eq_dec j o) as [->|Hn].
    - rewrite Ho in Hj. destruct k as [s|c0|]; try discriminate. injection Hj as ->. left. auto.
    - rewrite Hent in Hj by auto. auto. }
  assert (Hs : forall j, j <> o -> sort_of w' j = sort_of w j) by (intros j Hj; unfold sort_of; now rewrite Hent).
  assert (Hsh : forall j, j <> o -> shape_of w' j = shape_of w j) by (intros j Hj; unfold shape_of; now rewrite Hent).
  assert (Hb : forall j, GetBaseTarget w' j = GetBaseTarget w j).
  { intro j. unfold GetBaseTarget. destruct (Nat.eq_dec j o) as [->|Hn].
    - assert (X : control_of w o = None) by (unfold control_of; rewrite (I_fresh _ HI o); auto). rewrite X.
      destruct (control_of w' o) as [c|] eqn:E; auto. destruct (Hc _ _ E) as [(_ & ->)|Y]; auto. congruence.
    - unfold control_of. rewrite Hent by auto. fold (control_of w j). destruct (control_of w j) as [[|[e|] [i|] n|p ts]|] eqn:E; auto.
      cbn. unfold FindEntity. pose proof (I_ids _ HI _ _ _ _ E). rewrite Hent by (unfold o; lia). reflexivity. }
  assert (Hbo : forall j x, GetBaseTarget w j = Some x -> x <> o /\ j <> o).
  { intros j x Hx. destruct (base_controller _ _ _ Hx) as (c & Hj). assert (Hj' : ent w j <> None) by (apply control_ent in Hj as (y & Y); congruence).
    destruct (I_path _ HI j Hj') as (l & r & Hp). destruct (path_controller _ _ _ _ _ Hp Hj) as (l' & _ & Hq). rewrite Hx in Hq.
    split; apply Hold; auto. eapply path_alive; eauto. }
  assert (Hfw : forall e l r, path w e l r -> path w' e l r).
  { intros e l r H. induction H as [e s X|e X|e c X Y|e x l r X H IH].
    - eapply P_geometry. rewrite Hsh; [exact X|]. apply Hold. apply shape_ent in X as (y & X). congruence.
    - apply P_other. rewrite Hs; auto. apply Hold. apply sort_alive. eauto.
    - eapply P_none; [|now rewrite Hb]. unfold control_of. rewrite Hent; [exact X|]. apply Hold. apply control_ent in X as (y & X). congruence.
    - eapply P_step; eauto. now rewrite Hb. }
  assert (Hbk : forall e l r, path w' e l r -> e <> o -> path w e l r).
  { intros e l r H. induction H as [e s X|e X|e c X Y|e x l r X H IH]; intro He.
    - eapply P_geometry. rewrite <- Hsh; eauto.
    - apply P_other. rewrite <- Hs; auto.
    - rewrite Hb in Y. destruct (Hc _ _ X) as [(Z & _)|Z]; [contradiction|]. eapply P_none; eauto.
    - rewrite Hb in X. eapply P_step; [exact X|]. apply IH. apply (Hbo _ _ X). }
  exists w'. split; auto. split.
  - constructor.
    + intros j Hj. cbn in Hj. rewrite Hent by (unfold o; lia). apply (I_fresh _ HI). lia.
    + intros j Hj. destruct (Nat.eq_dec j o) as [->|Hn].
      * destruct k as [s|c|].
        -- exists [], (Some o). apply P_geometry with s. unfold shape_of. now rewrite Ho.
        -- exists [o], None. apply P_none with c; [unfold control_of; now rewrite Ho|]. unfold GetBaseTarget, control_of. rewrite Ho. now rewrite (Hk c eq_refl).
        -- exists [], None. apply P_other. unfold sort_of. now rewrite Ho.
      * rewrite Hent in Hj by auto. destruct (I_path _ HI j Hj) as (l & r & Hp). eauto.
    + intros c p ts g H Hg. destruct (Hc _ _ H) as [(_ & X)|X]; [discriminate|]. destruct (I_targets _ HI _ _ _ _ X Hg) as (s & Hgs). exists s. rewrite Hsh; auto.
      apply Hold. apply shape_ent in Hgs as (y & Y). congruence.
    + intros c e i n H. destruct (Hc _ _ H) as [(_ & X)|X]; [discriminate|]. pose proof (I_ids _ HI _ _ _ _ X). cbn. lia.
    + intros c e i n H. destruct (Hc _ _ H) as [(_ & X)|X]; [discriminate|]. exact (I_skin _ HI _ _ _ _ X).
  - intros HF _ c l g s Hp Hg. assert (Hgoal : c = o -> forall q, control_of w' c = Some q -> q = Plain).
    { intros -> q Hq. destruct (Hc _ _ Hq) as [(_ & X)|X]; auto. unfold control_of in X. rewrite (I_fresh _ HI o) in X by auto. discriminate. }
    destruct (Nat.eq_dec c o) as [Hco|Hn].
    + split; [intros p ts x t Hq|intros e i n Hq]; specialize (Hgoal Hco _ Hq); discriminate.
    + specialize (Hbk _ _ _ Hp Hn). assert (Hgo : g <> o).
      { destruct (path_end _ _ _ _ Hbk) as (s' & X). apply Hold. apply shape_ent in X as (y & X). congruence. }
      rewrite Hsh in Hg by auto. destruct (HF _ _ _ _ Hbk Hg) as (F1 & F2). split.
      * intros p ts x t Hq Hx Ht. destruct (Hc _ _ Hq) as [(_ & X)|X]; [discriminate|].
        destruct (I_targets _ HI _ _ _ _ X Hx) as (s' & Y). rewrite Hsh in Ht by (apply Hold; apply shape_ent in Y as (y & Y); congruence). eauto.
      * intros e i n Hq. destruct (Hc _ _ Hq) as [(_ & X)|X]; [discriminate|]. eauto.
Qed.

Lemma shape_spec : forall w g s s', Inv w -> shape_of w g = Some s ->
  fine w (Some (put w g (Geometry s'))) ((forall d, GetBaseTarget w d <> Some g) /\ (forall d b ts, is_morph w d b ts -> ~ In (Some g) ts)).
Proof.
  intros w g s s' HI Hg. set (w' := put w g (Geometry s')).
  pose proof (shape_ent _ _ _ Hg) as (y & Hy).
  assert (Hg' : ent w' g = Some (Item y (Geometry s'))) by (unfold w'; rewrite put_ent_same, Hy; reflexivity).
  assert (Hc : forall i, control_of w' i = control_of w i).
  { intro i. destruct (Nat.eq_dec i g) as [->|Hn]; [|now apply put_control_other]. unfold control_of. now rewrite Hg', Hy. }
  assert (Hs : forall i, sort_of w' i = sort_of w i).
  { intro i. unfold sort_of. destruct (Nat.eq_dec i g) as [->|Hn]; [now rewrite Hg', Hy|]. unfold w'. now rewrite put_ent_other. }
  assert (Hb : forall i, GetBaseTarget w' i = GetBaseTarget w i).
  { intro i. unfold GetBaseTarget. rewrite Hc. destruct (control_of w i) as [[|e j n|b ts]|]; auto. apply put_entity. }
  assert (Hp : forall e l r, path w' e l r <-> path w e l r) by (intros e l r; split; apply same_base_path; auto).
  assert (Hsh : forall i, i <> g -> shape_of w' i = shape_of w i) by (intros i Hi; now apply put_shape_other).
  exists w'. split; auto. split.
  - constructor.
    + intros i Hi. pose proof (I_fresh _ HI i Hi) as Hf. destruct (ent w' i) eqn:E; auto. assert (X : ent w' i <> None) by congruence. apply put_alive in X. congruence.
    + intros i Hi. apply put_alive in Hi. destruct (I_path _ HI i Hi) as (l & r & Hq). exists l, r. now apply Hp.
    + intros c b ts x Hk Hx. rewrite Hc in Hk. destruct (Nat.eq_dec x g) as [->|Hn].
      * exists s'. unfold shape_of. now rewrite Hg'.
      * rewrite Hsh by auto. exact (I_targets _ HI _ _ _ _ Hk Hx).
    + intros c e i n Hk. rewrite Hc in Hk. exact (I_ids _ HI _ _ _ _ Hk).
    + intros c e i n Hk. rewrite Hc in Hk. exact (I_skin _ HI _ _ _ _ Hk).
  - intros HF (S1 & S2) c l x t Hq Hx. apply Hp in Hq.
    assert (Hcase : x <> g \/ control_of w c = None).
    { destruct (Nat.eq_dec x g) as [->|Hn]; auto. right. destruct (control_of w c) as [k|] eqn:Hk; auto. exfalso.
      clear Hx Hg'. revert Hk. assert (Hgen : forall e l r, path w e l r -> r = Some g -> e = g).
      { intros e0 l0 r0 H. induction H as [e0 s0 X|e0 X|e0 k0 X Y|e0 b0 l0 r0 X H IH]; intro E; try congruence.
        specialize (IH E). subst b0. destruct (S1 _ X). }
      rewrite (Hgen _ _ _ Hq eq_refl). intro Hk. exact (not_both _ _ _ _ Hg Hk). }
    rewrite Hc. destruct Hcase as [Hxg|Hcase]; [|split; intros; congruence].
    rewrite Hsh in Hx by auto. destruct (HF _ _ _ _ Hq Hx) as (F1 & F2). split; auto.
    intros b ts z u Hk Hz Hu. assert (z <> g) by (intros ->; exact (S2 _ _ _ Hk Hz)). rewrite Hsh in Hu by auto. eauto.
Qed.

(** *** Histories *)
Lemma step_spec : forall w o, Inv w -> proper w o -> forward w o -> fine w (step w o) (settled w o).
Proof.
  intros w o HI Hp Hf. destruct o as [b s|b|b|c|c|c e|c g|c i g|c e|c e|c n|g s|e]; cbn [step settled proper] in *.
  - apply fine_weaken with True; auto. apply new_spec; auto. discriminate.
  - apply fine_weaken with True; auto. apply new_spec; auto. congruence.
  - apply fine_weaken with True; auto. apply new_spec; auto. discriminate.
  - destruct Hp as (k & Hk). rewrite Hk. eapply create_spec; eauto.
  - destruct Hp as (k & Hk). rewrite Hk. eapply create_spec; eauto.
  - destruct Hp as ((b & ts & Hk) & He). eapply set_base_spec; eauto.
  - destruct Hp as ((b & ts & Hk) & He). eapply add_spec; eauto.
  - destruct Hp as ((b & ts & old & Hk & Hn & Ho) & Hg). eapply set_geometry_spec; eauto.
  - destruct Hp as (Hk & He). eapply set_target_spec; eauto.
  - now apply uri_spec.
  - now apply influence_spec.
  - destruct Hp as (t & Ht). rewrite Ht. eapply shape_spec; eauto.
  - destruct (ent w e) eqn:E; [|congruence]. destruct (release_spec w e HI). eexists. split; [reflexivity|]. auto.
Qed.
Lemma start_Inv : Inv start.
Proof. constructor; cbn; intros; try discriminate; auto. congruence. Qed.
Lemma start_Fit : Fit start.
Proof. intros c l g s H Hs. discriminate. Qed.
Lemma run_Inv : forall os w, Inv w -> good (fun w o => proper w o /\ forward w o) w os -> exists w', run w os = Some w' /\ Inv w'.
Proof.
  induction os as [|o os IH]; intros w HI H; cbn in *; eauto. destruct H as ((H1 & H2) & H3).
  destruct (step_spec w o HI H1 H2) as (w' & E & I1 & _). rewrite E. auto.
Qed.
Lemma run_Fit : forall os w, Inv w -> Fit w -> good (fun w o => proper w o /\ forward w o /\ settled w o) w os ->
  exists w', run w os = Some w' /\ Inv w' /\ Fit w'.
Proof.
  induction os as [|o os IH]; intros w HI HF H; cbn in *; eauto. destruct H as ((H1 & H2 & H0) & H3).
  destruct (step_spec w o HI H1 H2) as (w' & E & I1 & F1). rewrite E. auto.
Qed.

(** *** What the setters do *)
Lemma based_in : forall w e b, based_on w e b -> forall k l r, control_of w b = Some k -> path w e l r -> In b l.
Proof.
  intros w e b H. induction H as [c b X|c d b X H IH]; intros k l r Hk Hp; destruct (base_controller _ _ _ X) as (k' & Hc);
    destruct (path_controller _ _ _ _ _ Hp Hc) as (l' & -> & Hq); rewrite X in Hq; right.
  - destruct (path_controller _ _ _ _ _ Hq Hk) as (l2 & -> & _). now left.
  - eauto.
Qed.
Lemma path_avoid : forall w w' c, (forall i, sort_of w' i = sort_of w i) -> (forall i, i <> c -> GetBaseTarget w' i = GetBaseTarget w i) ->
  forall e l r, path w e l r -> ~ In c l -> path w' e l r.
Proof.
  intros w w' c Hs Hb e l r H. induction H as [e s X|e Ho|e k Hk X|e b l r X H IH]; intro Hn.
  - assert (Y : sort_of w' e = Some S_geometry) by (rewrite Hs; apply shape_sort; eauto). apply shape_sort in Y as (s' & Y). eapply P_geometry; eauto.
  - apply P_other. now rewrite Hs.
  - assert (Y : sort_of w' e = Some S_controller) by (rewrite Hs; apply control_sort; eauto). apply control_sort in Y as (k' & Y).
    eapply P_none; eauto. rewrite Hb; auto. intros ->. apply Hn. now left.
  - eapply P_step; [rewrite Hb; [exact X|]|apply IH]; intro Y; apply Hn; [subst; now left|now right].
Qed.
Lemma keep_exact : forall w b l g s ts, Inv w -> path w b l (Some g) -> shape_of w g = Some s ->
  (forall x, In (Some x) ts -> exists t, shape_of w x = Some t) ->
  keep_similar w (Some b) ts = Some (filter (fun y => match y with Some x => match shape_of w x with Some t => similar s t | None => false end | None => false end) ts).
Proof.
  intros w b l g s ts HI Hp Hs. induction ts as [|t ts IH]; intros Ht; auto.
  cbn [keep_similar filter]. rewrite IH by (intros; apply Ht; now right). destruct t as [x|]; [|reflexivity].
  destruct (Ht x) as (t & Hx); [now left|]. rewrite (similar_spec _ _ _ _ _ _ HI Hp Hx), Hs, Hx. now destruct (similar s t).
Qed.
Lemma similar_alike : forall s t, similar s t = true <-> alike s t.
Proof.
  intros s t. split.
  - destruct s as [[m|]|m|], t as [[p|]|p|]; cbn [similar vertex_count]; try discriminate; intro F; apply Nat.eqb_eq in F; subst; constructor.
  - intros []; cbn; auto using Nat.eqb_refl.
Qed.

Lemma set_base_exact : forall w c b ts e, Inv w -> is_morph w c b ts -> alive w e ->
  exists w' b' ts', SetBaseTarget w c e = Some w' /\ is_morph w' c b' ts' /\
    (forall d, d <> c -> ent w' d = ent w d) /\
    (forall x, b' = Some x <-> e = Some x /\ x <> c /\ ~ based_on w x c /\ exists g s, deforms w x g s) /\
    (forall y, In y ts' <-> In y ts /\ exists x g s t, y = Some x /\ deforms w' c g s /\ shape_of w' x = Some t /\ alike s t).
Proof.
  intros w c b ts e HI Hk He. unfold is_morph in Hk. unfold SetBaseTarget. rewrite Hk.
  set (w1 := put w c (Controller (Morph None ts))).
  assert (HZ : smaller w w1).
  { eapply put_smaller; eauto; try discriminate; [rewrite (put_base _ _ _ _ Hk); discriminate|]. intros b0 ts0 g E. injection E as <- <-. eauto. }
  pose proof (smaller_Inv _ _ HI HZ) as I1.
  assert (Hk1 : control_of w1 c = Some (Morph None ts)) by (eapply put_control; eauto).
  assert (Hc1 : GetBaseTarget w1 c = None) by (unfold GetBaseTarget; now rewrite Hk1).
  assert (Hs1 : forall i, sort_of w1 i = sort_of w i) by (intro i; unfold w1; eapply put_sort; eauto).
  assert (Hb1 : forall i, i <> c -> GetBaseTarget w1 i = GetBaseTarget w i) by (intros i Hi; unfold w1; now apply put_base_other).
  assert (Hout : (forall x, e = Some x -> x <> c -> ~ based_on w x c -> forall g s, ~ deforms w x g s) ->
    exists w' b' ts', Some (put w1 c (Controller (Morph None []))) = Some w' /\ is_morph w' c b' ts' /\
    (forall d, d <> c -> ent w' d = ent w d) /\
    (forall x, b' = Some x <-> e = Some x /\ x <> c /\ ~ based_on w x c /\ exists g s, deforms w x g s) /\
    (forall y, In y ts' <-> In y ts /\ exists x g s t, y = Some x /\ deforms w' c g s /\ shape_of w' x = Some t /\ alike s t)).
  { intro Hno. do 3 eexists. split; [reflexivity|]. split; [unfold is_morph; rewrite (put_control _ _ _ _ Hk1); reflexivity|]. split; [|split].
    - intros d Hd. unfold w1. rewrite !put_ent_other by auto. reflexivity.
    - intros x. split; [discriminate|]. intros (H1 & H2 & H3 & g & s & H4). destruct (Hno x H1 H2 H3 g s H4).
    - intros y. split; [intros []|]. intros (_ & x & g & s & t & _ & (Hsg & [->|Hd]) & _).
      + rewrite (put_shape _ _ _ _ _ Hk1) in Hsg. destruct (not_both _ _ _ _ Hsg Hk1).
      + assert (Y : GetBaseTarget (put w1 c (Controller (Morph None []))) c = None) by (rewrite (put_base _ _ _ _ Hk1); reflexivity).
        inversion Hd; congruence. }
  destruct e as [e|]; [|apply Hout; discriminate].
  assert (He1 : ent w1 e <> None) by (apply put_alive; now apply He).
  destruct (I_path _ I1 e He1) as (l & r & Hp). rewrite (actual_path _ _ _ _ I1 Hp). destruct r as [g|].
  2:{ apply Hout. intros x E H1 H2 g s H3. injection E as <-. destruct (deforms_path _ _ _ _ H3) as (l' & Hq).
      assert (Hn : ~ In c l') by (intro X; destruct (through w w c e l' (Some g)) as [Y|Y]; auto).
      pose proof (path_avoid _ _ _ Hs1 Hb1 _ _ _ Hq Hn) as Hq1. destruct (path_unique _ _ _ _ Hp _ _ Hq1). discriminate. }
  clear Hout.
  assert (Hn : ~ In c l) by (intro X; pose proof (path_cut_none _ _ _ _ _ Hp X Hc1); discriminate).
  assert (Hec : e <> c).
  { intros ->. destruct (path_controller _ _ _ _ _ Hp Hk1) as (l' & -> & _). apply Hn. now left. }
  pose proof (cut_back _ _ _ _ _ (Z_cut _ _ HZ) Hp) as Hp0.
  set (w2 := put w1 c (Controller (Morph (Some e) ts))).
  destruct (attach w1 c _ (Morph (Some e) ts) e l (Some g) I1 Hk1 Hp Hn) as (I2 & P2 & P2c); try discriminate.
  { rewrite (put_base _ _ _ _ Hk1). reflexivity. }
  { intros b0 ts0 x E Hx. injection E as <- <-. eapply (I_targets _ I1); eauto. }
  fold w2 in I2, P2, P2c. assert (Hk2 : control_of w2 c = Some (Morph (Some e) ts)) by (eapply put_control; eauto).
  destruct (path_end _ _ _ _ P2) as (s & Hs).
  assert (Hts : forall x, In (Some x) ts -> exists t, shape_of w2 x = Some t) by (intros x Hx; eapply (I_targets _ I2); eauto).
  rewrite (keep_exact w2 e l g s ts I2 P2 Hs Hts). set (r := filter _ ts).
  destruct (retarget w2 c (Some e) ts r I2 Hk2) as (I3 & P3 & _).
  { intros x Hx. left. unfold r in Hx. now apply filter_In in Hx. }
  set (w3 := put w2 c (Controller (Morph (Some e) r))) in *.
  assert (Hk3 : control_of w3 c = Some (Morph (Some e) r)) by (eapply put_control; eauto).
  assert (Hsh : forall i, shape_of w3 i = shape_of w2 i) by (intro i; unfold w3; now rewrite (put_shape _ _ _ _ _ Hk2)).
  exists w3, (Some e), r. split; [reflexivity|]. split; [exact Hk3|]. split; [|split].
  - intros d Hd. unfold w3, w2, w1. now rewrite !put_ent_other by auto.
  - intros x. split; [|intros (E & _); now injection E as ->]. intro E. injection E as <-. split; [reflexivity|]. split; [exact Hec|]. split.
    + intro X. apply Hn. eapply based_in; eauto.
    + destruct (path_end _ _ _ _ Hp0) as (s0 & Hs0). exists g, s0. split; auto. eapply path_based; eauto.
  - intros y. unfold r. rewrite filter_In. split.
    + intros (Hy & Hf). split; auto. destruct y as [x|]; [|discriminate]. destruct (Hts x Hy) as (t & Hx). rewrite Hx in Hf.
      exists x, g, s, t. split; [reflexivity|]. split; [|split; [now rewrite Hsh|now apply similar_alike]]. split; [now rewrite Hsh|]. eapply path_based. apply P3. exact P2c.
    + intros (Hy & x & g' & s' & t & -> & Hd & Hx & Ha). split; auto. rewrite Hsh in Hx. rewrite Hx.
      destruct (deforms_path _ _ _ _ Hd) as (l' & Hq). apply P3 in Hq. destruct (path_unique _ _ _ _ P2c _ _ Hq) as (_ & X). injection X as <-.
      destruct Hd as (Hd & _). rewrite Hsh in Hd. assert (s' = s) by congruence. subst. now apply similar_alike.
Qed.

Lemma try_exact : forall w c b ts g, Inv w -> control_of w c = Some (Morph b ts) -> geometry w g ->
  exists a : bool, (match b with None => Some true | Some _ => IsSimilar w b g end) = Some a /\ (a = true <-> welcome w c b g).
Proof.
  intros w c b ts g HI Hk Hg. destruct b as [b|]; [|exists true; split; [reflexivity|]; unfold welcome; split; auto].
  destruct (base_path _ _ _ _ HI Hk) as (l & r & Hp & Hpc). destruct g as [g|].
  2:{ exists false. split; [reflexivity|]. split; [discriminate|]. intros [X|(x & t & y & s & X & _)]; discriminate. }
  destruct (Hg g eq_refl) as (t & Hgt). rewrite (similar_spec _ _ _ _ _ _ HI Hp Hgt). eexists. split; [reflexivity|]. split.
  - intro F. destruct r as [y|]; [|discriminate]. destruct (path_end _ _ _ _ Hp) as (s & Hs). rewrite Hs in F. right. exists g, t, y, s.
    split; [reflexivity|]. split; auto. split; [|now apply similar_alike]. split; auto. eapply path_based; eauto.
  - intros [X|(x & t' & y & s & X & Ht & Hd & Ha)]; [discriminate|]. injection X as <-. destruct (deforms_path _ _ _ _ Hd) as (l' & Hq).
    destruct (path_unique _ _ _ _ Hpc _ _ Hq) as (_ & ->). destruct Hd as (Hs & _). rewrite Hs. apply similar_alike. congruence.
Qed.
Lemma add_exact : forall w c b ts g, Inv w -> is_morph w c b ts -> geometry w g ->
  exists w', AddTarget w c g = Some w' /\ (forall d, d <> c -> ent w' d = ent w d) /\
    (welcome w c b g -> is_morph w' c b (ts ++ [g])) /\ (~ welcome w c b g -> w' = w).
Proof.
  intros w c b ts g HI Hk Hg. unfold is_morph in *. unfold AddTarget. rewrite Hk.
  destruct (try_exact w c b ts g HI Hk Hg) as (a & E & Ha). rewrite E. destruct a; eexists; (split; [reflexivity|]).
  - split; [intros; now apply put_ent_other|]. split; [intro; eapply put_control; eauto|]. intro X. destruct X. now apply Ha.
  - split; auto. split; auto. intro X. apply Ha in X. discriminate.
Qed.
Lemma set_geometry_exact : forall w c i g b ts old, Inv w -> is_morph w c b ts -> nth_error ts i = Some old -> geometry w g ->
  (forall o, old = Some o -> trackers w o <> 1) ->
  exists w', SetGeometry w c i g = Some w' /\ (forall d, d <> c -> ent w' d = ent w d) /\
    (welcome w c b g -> is_morph w' c b (firstn i ts ++ g :: skipn (S i) ts)) /\ (~ welcome w c b g -> w' = w).
Proof.
  intros w c i g b ts old HI Hk Hn Hg Ho. unfold is_morph in *. unfold SetGeometry. rewrite Hk, Hn.
  replace (match old with Some o => if trackers w o =? 1 then release w o else w | None => w end) with w.
  2:{ destruct old as [o|]; auto. now rewrite (proj2 (Nat.eqb_neq _ _) (Ho o eq_refl)). }
  rewrite Hk. replace (match g with Some x => match ent w x with Some _ => true | None => false end | None => true end) with true.
  2:{ destruct g as [x|]; auto. destruct (Hg x eq_refl) as (s & Hs). apply shape_ent in Hs as (y & Hs). now rewrite Hs. }
  destruct (try_exact w c b ts g HI Hk Hg) as (a & E & Ha). rewrite E.
  assert (Hset : set_nth ts i g = firstn i ts ++ g :: skipn (S i) ts).
  { clear -Hn. revert i Hn. induction ts as [|t ts IH]; intros [|i] Hn; try discriminate; auto. cbn [set_nth firstn skipn app]. f_equal. now apply IH. }
  destruct a; eexists; (split; [reflexivity|]).
  - split; [intros; now apply put_ent_other|]. rewrite Hset. split; [intro; eapply put_control; eauto|]. intro X. destruct X. now apply Ha.
  - split; auto. split; auto. intro X. apply Ha in X. discriminate.
Qed.
Lemma set_target_exact : forall w c e g s, Inv w -> is_skin w c -> e <> c -> ~ based_on w e c -> deforms w e g s ->
  exists w' n, SetTarget w c (Some e) = Some w' /\ (forall d, d <> c -> ent w' d = ent w d) /\
    control_of w' c = Some (Skin (Some e) (Some e) n) /\ vertices s n.
Proof.
  intros w c e g s HI (a & i & n & Hk) Hec Hb Hd. unfold SetTarget. rewrite Hk. set (w1 := put w c (Controller (Skin None i n))).
  destruct (deforms_path _ _ _ _ Hd) as (l & Hp). destruct Hd as (Hs & _).
  assert (HZ : smaller w w1).
  { eapply put_smaller; eauto; try discriminate.
    - intros b. rewrite (put_base _ _ _ _ Hk). unfold GetBaseTarget. rewrite Hk. destruct a as [a|]; auto. rewrite (I_skin _ HI _ _ _ _ Hk). cbn.
      unfold FindEntity. destruct (ent w a) as [x|]; [|discriminate]. destruct (listed x); [auto|discriminate].
    - intros e0 i0 n0 E. injection E as <- -> <-. eauto. }
  pose proof (smaller_Inv _ _ HI HZ) as I1.
  assert (Hn : ~ In c l) by (intro X; destruct (through w w c e l (Some g)) as [Y|Y]; auto).
  assert (Hp1 : path w1 e l (Some g)).
  { eapply path_avoid; [| |exact Hp|exact Hn]; [intro j; unfold w1; eapply put_sort; eauto|intros j Hj; unfold w1; now apply put_base_other]. }
  rewrite (actual_path _ _ _ _ I1 Hp1). unfold w1 at 1. rewrite (put_shape _ _ _ _ _ Hk), Hs.
  assert (Hv : (if n =? 0 then vertex_count s else if vertex_count s =? n then n else vertex_count s) = vertex_count s).
  { destruct (Nat.eqb n 0); auto. destruct (Nat.eqb_spec (vertex_count s) n); auto. }
  rewrite Hv. do 2 eexists. split; [reflexivity|]. split; [intros d Hd; unfold w1; now rewrite !put_ent_other|].
  split; [eapply put_control; unfold w1; eapply put_control; eauto|]. destruct s as [[m|]|m|]; constructor.
Qed.
