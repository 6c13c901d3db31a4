(** Proofs about entity references. *)
From Coq Require Import List Arith ZArith Bool Lia.
From Verif Require Import TextModel IdModel RefModel.
Import ListNotations.

Lemma str_eqb_eq : forall a b, str_eqb a b = true <-> a = b.
Proof. intros a b. unfold str_eqb. destruct (list_eq_dec Z.eq_dec a b); split; intro; auto; discriminate. Qed.
Lemma eqo_eq : forall a b, eqo a b = true <-> a = b.
Proof.
  intros [x|] [y|]; cbn; split; intro H; try discriminate; auto.
  - apply Nat.eqb_eq in H. now subst.
  - injection H as ->. apply Nat.eqb_refl.
Qed.
Lemma eqo_neq : forall a b, eqo a b = false <-> a <> b.
Proof.
  intros a b. destruct (eqo a b) eqn:E; split; intro H; try discriminate; auto.
  - apply eqo_eq in E. contradiction.
  - intro X. apply eqo_eq in X. congruence.
Qed.
Lemma upd_same : forall A (f : nat -> A) i v, upd f i v i = v.
Proof. intros. unfold upd. now rewrite Nat.eqb_refl. Qed.
Lemma upd_other : forall A (f : nat -> A) i v x, x <> i -> upd f i v x = f x.
Proof. intros. unfold upd. destruct (Nat.eqb_spec x i); congruence. Qed.

(** [link] says which placeholder each reference is registered with. *)
Record wf (w : world) (link : nat -> option nat) : Prop := {
  wf_entity : forall r e, ref_entity w r = Some e -> ent_alive w e = true;
  wf_ent : forall e, ent_alive w e = true -> e < ents w /\ doc_alive w (ent_doc w e) = true;
  wf_link : forall r p, link r = Some p -> ph_alive w p = true;
  wf_ph : forall p, ph_alive w p = true -> p < holders w /\ forall r, In r (ph_refs w p) <-> link r = Some p;
  wf_target : forall p d, ph_alive w p = true -> ph_target w p = Some d -> doc_alive w d = true /\ d <> 0;
  wf_zero : doc_alive w 0 = true;
  wf_doc : forall d, doc_alive w d = true -> d < docs w }.

(** What SetPlaceHolder and the searches leave alone. *)
Definition same_things (w w' : world) : Prop :=
  files w' = files w /\ dereference w' = dereference w /\ docs w' = docs w /\ doc_url w' = doc_url w /\
  ents w' = ents w /\ ent_doc w' = ent_doc w /\ ent_id w' = ent_id w.

Lemma wf_start : forall fs d, wf (start fs d) (ref_ph (start fs d)).
Proof.
  intros fs d. split; cbn; intros; try discriminate; auto.
  destruct (Nat.eqb_spec d0 0); [lia|discriminate].
Qed.

Lemma wf_release_entities : forall w link dies, wf w link -> wf (release_entities w dies) link.
Proof.
  intros w link dies [E N L P T Z D]. split; cbn; auto.
  - intros r e H. destruct (ref_entity w r) as [x|] eqn:Er; [|discriminate].
    destruct (dies x) eqn:Dx; [discriminate|]. injection H as <-. rewrite Dx, (E _ _ Er). reflexivity.
  - intros e H. apply andb_prop in H. destruct H as [H _]. auto.
Qed.
Lemma wf_release_document : forall w link d, wf w link -> d <> 0 -> wf (ReleaseDocument w d) link.
Proof.
  intros w link d I Nd. assert (I1 := wf_release_entities w link (fun e => ent_alive w e && (ent_doc w e =? d)) I).
  destruct I1 as [E N L P T Z D]. split; cbn; auto.
  - cbn in N. intros e H. destruct (N e H) as [Le Ae]. split; [exact Le|].
    rewrite upd_other; [exact Ae|]. intro X. rewrite X, Nat.eqb_refl, andb_true_r in H.
    apply andb_prop in H. destruct H as [H1 H2]. rewrite H1 in H2. discriminate.
  - intros p x Ap H. destruct (eqo (ph_target w p) (Some d)) eqn:Q; [discriminate|].
    destruct (T p x Ap H) as [T1 T2]. split; [|exact T2]. rewrite upd_other; [exact T1|].
    intros ->. apply eqo_neq in Q. contradiction.
  - rewrite upd_other by auto. exact Z.
  - intros x H. unfold upd in H. destruct (x =? d); [discriminate|]. auto.
Qed.
Lemma wf_release_holder : forall w link p, wf w link -> ph_alive w p = true -> (forall r, link r <> Some p) ->
  wf (ReleasePlaceHolder w p) link.
Proof.
  intros w link p I Ap NL.
  assert (I1 : wf (set_ph_alive w (upd (ph_alive w) p false)) link).
  { destruct I as [E N L P T Z D]. split; cbn; auto.
    - intros r q H. rewrite upd_other; [eauto|]. intros ->. exact (NL r H).
    - intros q H. unfold upd in H. destruct (q =? p); [discriminate|]. auto.
    - intros q d H. unfold upd in H. destruct (q =? p); [discriminate|]. eauto. }
  unfold ReleasePlaceHolder. destruct (ph_target w p) as [d|] eqn:Tp; [|exact I1].
  destruct (has_trackers _ d); [exact I1|]. apply wf_release_document; [exact I1|].
  apply (wf_target _ _ I p d Ap Tp).
Qed.

Lemma has_trackers_holder : forall w p d, ph_alive w p = true -> p < holders w -> ph_target w p = Some d -> has_trackers w d = true.
Proof.
  intros w p d A L T. unfold has_trackers. apply orb_true_intro. right. apply existsb_exists. exists p.
  split; [apply in_seq; lia|]. rewrite A, T. cbn. apply Nat.eqb_refl.
Qed.

(** What the release of a placeholder does to the rest. *)
Lemma release_holder_frame : forall w link p, wf w link -> ph_alive w p = true ->
  let w' := ReleasePlaceHolder w p in
  same_things w w' /\ ref_ph w' = ref_ph w /\ holders w' = holders w /\ ph_refs w' = ph_refs w /\
  (forall q, q <> p -> ph_alive w' q = ph_alive w q) /\
  (forall q, q <> p -> ph_alive w q = true -> ph_target w' q = ph_target w q /\ ph_url w' q = ph_url w q) /\
  (forall r, ref_entity w r = None -> ref_entity w' r = None /\ ref_id w' r = ref_id w r) /\
  (forall r e, ref_entity w r = Some e ->
     (ent_doc w e = 0 \/ exists q, q <> p /\ ph_alive w q = true /\ ph_target w q = Some (ent_doc w e)) ->
     ref_entity w' r = Some e /\ ref_id w' r = ref_id w r).
Proof.
  intros w link p I Ap w'. unfold w', ReleasePlaceHolder. destruct (ph_target w p) as [d|] eqn:Tp.
  2:{ cbn. repeat split; auto. intros q Nq. apply upd_other, Nq. }
  set (w1 := set_ph_alive w (upd (ph_alive w) p false)).
  destruct (has_trackers w1 d) eqn:HT.
  { cbn. repeat split; auto. intros q Nq. apply upd_other, Nq. }
  assert (Q : forall q, q <> p -> ph_alive w q = true -> ph_target w q <> Some d).
  { intros q Nq Aq Tq. rewrite (has_trackers_holder w1 q d) in HT; [discriminate|cbn; rewrite upd_other; auto| |exact Tq].
    cbn. apply (wf_ph _ _ I q Aq). }
  assert (Dd : d <> 0) by (apply (wf_target _ _ I p d Ap Tp)).
  unfold ReleaseDocument. cbn. split; [repeat split|]. split; [reflexivity|]. split; [reflexivity|]. split; [reflexivity|].
  split; [intros q Nq; apply upd_other, Nq|]. split; [|split].
  - intros q Nq Aq. destruct (eqo (ph_target w q) (Some d)) eqn:X; [|auto]. apply eqo_eq in X. exfalso. exact (Q q Nq Aq X).
  - intros r ->. auto.
  - intros r e Re H. rewrite Re.
    assert (ent_doc w e <> d) as Ne.
    { destruct H as [H|(q & Nq & Aq & Tq)]; [congruence|]. intro X. apply (Q q Nq Aq). congruence. }
    apply Nat.eqb_neq in Ne. rewrite Ne, andb_false_r. auto.
Qed.

Lemma wf_ext : forall w l l', (forall r, l r = l' r) -> wf w l -> wf w l'.
Proof.
  intros w l l' H [E N L P T Z D]. split; auto.
  - intros r p. rewrite <- H. apply L.
  - intros p A. destruct (P p A) as [X Y]. split; [exact X|]. intro r. rewrite <- H. apply Y.
Qed.

Lemma set_holder : forall w r q, wf w (ref_ph w) -> match q with Some p => ph_alive w p = true | None => True end ->
  let w' := SetPlaceHolder w r q in
  wf w' (ref_ph w') /\ same_things w w' /\ ref_ph w' r = q /\
  match q with
  | Some p => ph_alive w' p = true /\ ph_target w' p = ph_target w p /\ ph_url w' p = ph_url w p
  | None => True
  end /\
  (ref_entity w r = None -> ref_entity w' r = None /\ ref_id w' r = ref_id w r) /\
  (forall e, ref_entity w r = Some e ->
     (ent_doc w e = 0 \/ exists p, q = Some p /\ ph_target w p = Some (ent_doc w e)) ->
     ref_entity w' r = Some e /\ ref_id w' r = ref_id w r).
Proof.
  intros w r q I Aq w'. unfold w', SetPlaceHolder. destruct (eqo q (ref_ph w r)) eqn:Eq.
  { apply eqo_eq in Eq. subst q. split; [exact I|]. split; [repeat split|]. split; [reflexivity|]. split.
    { destruct (ref_ph w r); auto. } split; auto. }
  apply eqo_neq in Eq.
  (* the state after the old placeholder is left *)
  set (w1 := match ref_ph w r with
             | Some p => let w1 := set_ph_refs w (upd (ph_refs w) p (remove Nat.eq_dec r (ph_refs w p))) in
                         match ph_refs w1 p with [] => ReleasePlaceHolder w1 p | _ => w1 end
             | None => w
             end).
  assert (G : wf w1 (upd (ref_ph w) r None) /\ same_things w w1 /\ ref_ph w1 = ref_ph w /\ holders w1 = holders w /\
    (match q with Some p => ph_alive w1 p = true /\ ph_target w1 p = ph_target w p /\ ph_url w1 p = ph_url w p | None => True end) /\
    (ref_entity w r = None -> ref_entity w1 r = None /\ ref_id w1 r = ref_id w r) /\
    (forall e, ref_entity w r = Some e ->
     (ent_doc w e = 0 \/ exists p, q = Some p /\ ph_target w p = Some (ent_doc w e)) ->
     ref_entity w1 r = Some e /\ ref_id w1 r = ref_id w r)).
  { unfold w1. destruct (ref_ph w r) as [p|] eqn:Rp.
    - assert (Ap : ph_alive w p = true) by (eapply wf_link; eauto).
      set (w0 := set_ph_refs w (upd (ph_refs w) p (remove Nat.eq_dec r (ph_refs w p)))).
      assert (I0 : wf w0 (upd (ref_ph w) r None)).
      { destruct I as [E N L P T Z D]. split; cbn; auto.
        - intros x y H. unfold upd in H. destruct (x =? r); [discriminate|]. eauto.
        - intros x Ax. destruct (P x Ax) as [P1 P2]. split; [exact P1|]. intro y. destruct (Nat.eq_dec x p) as [->|Nx].
          + rewrite upd_same. split.
            * intro H. apply in_remove in H. destruct H as [H1 H2]. rewrite upd_other by exact H2. apply P2, H1.
            * intro H. unfold upd in H. destruct (Nat.eqb_spec y r); [discriminate|]. apply in_in_remove; [assumption|].
              apply P2, H.
          + rewrite upd_other by exact Nx. rewrite P2. destruct (Nat.eq_dec y r) as [->|Ny].
            * rewrite upd_same, Rp. split; [intro H; injection H as <-; contradiction|discriminate].
            * rewrite upd_other by exact Ny. reflexivity. }
      cbn zeta. assert (Q : ph_refs w0 p = [] \/ exists a l, ph_refs w0 p = a :: l)
        by (destruct (ph_refs w0 p); eauto).
      destruct Q as [Q|(a & l & Q)]; rewrite Q.
      + assert (NL : forall x, upd (ref_ph w) r None x <> Some p).
        { intros x H. destruct (wf_ph _ _ I0 p) as [_ X]; [exact Ap|]. apply X in H. rewrite Q in H. destruct H. }
        split; [apply wf_release_holder; auto|].
        destruct (release_holder_frame w0 _ p I0 Ap) as (F1 & F2 & F3 & F4 & F5 & F6 & F7 & F8).
        split; [exact F1|]. split; [exact F2|]. split; [exact F3|]. split; [|split].
        * destruct q as [q|]; [|exact Logic.I]. assert (q <> p) by congruence.
          rewrite F5 by assumption. split; [exact Aq|]. apply F6; assumption.
        * apply F7.
        * intros e Re H. apply F8; [exact Re|]. destruct H as [H|(y & Hy & Ty)]; [left; exact H|right]. subst q.
          exists y. split; [congruence|]. split; [exact Aq|exact Ty].
      + split; [exact I0|]. split; [repeat split|]. split; [reflexivity|]. split; [reflexivity|]. split; [|split].
        * destruct q; auto.
        * auto.
        * auto.
    - split.
      + revert I. apply wf_ext. intro x. unfold upd. destruct (Nat.eqb_spec x r) as [->|]; auto.
      + split; [repeat split|]. split; [reflexivity|]. split; [reflexivity|]. split; [|split]; auto. destruct q; auto. }
  clearbody w1. destruct G as (I1 & S1 & R1 & H1 & Q1 & N1 & E1).
  set (w2 := set_ref_ph w1 (upd (ref_ph w1) r q)).
  destruct q as [p|].
  - destruct Q1 as (A1 & T1 & U1). split; [|split; [|split; [|split; [|split]]]].
    + cbn. rewrite R1. destruct I1 as [E N L P T Z D]. split; cbn; auto.
      * intros x y H. unfold upd in H, L. destruct (Nat.eqb_spec x r) as [->|Nx].
        -- injection H as <-. exact A1.
        -- apply (L x). apply Nat.eqb_neq in Nx. rewrite Nx. exact H.
      * intros x Ax. destruct (P x Ax) as [P1 P2]. split; [exact P1|]. intro y. destruct (Nat.eq_dec x p) as [->|Nx].
        -- rewrite upd_same, in_app_iff, P2. destruct (Nat.eq_dec y r) as [->|Ny].
           ++ rewrite !upd_same. cbn. split; auto.
           ++ rewrite !upd_other by exact Ny. cbn. split; [intros [H|[H|[]]]; [exact H|congruence]|auto].
        -- rewrite upd_other by exact Nx. rewrite P2. destruct (Nat.eq_dec y r) as [->|Ny].
           ++ rewrite !upd_same. split; [discriminate|intro H; congruence].
           ++ rewrite !upd_other by exact Ny. reflexivity.
    + exact S1.
    + cbn. rewrite upd_same. reflexivity.
    + cbn. auto.
    + cbn. exact N1.
    + cbn. exact E1.
  - split; [|split; [|split; [|split; [|split]]]].
    + cbn. rewrite R1. destruct I1 as [E N L P T Z D]. split; cbn; auto.
    + exact S1.
    + cbn. rewrite upd_same. reflexivity.
    + exact Logic.I.
    + cbn. exact N1.
    + cbn. exact E1.
Qed.

Lemma wf_set_id : forall w l f, wf w l -> wf (set_ref_id w f) l.
Proof. intros w l f [E N L P T Z D]. split; auto. Qed.
Lemma wf_set_entity : forall w l r e, wf w l -> match e with Some x => ent_alive w x = true | None => True end ->
  wf (set_ref_entity w (upd (ref_entity w) r e)) l.
Proof.
  intros w l r e [E N L P T Z D] A. split; cbn; auto.
  intros x y H. unfold upd in H. destruct (x =? r); [subst e; exact A|eauto].
Qed.
Lemma wf_add_holder : forall w t u, wf w (ref_ph w) ->
  match t with Some d => doc_alive w d = true /\ d <> 0 | None => True end ->
  wf (AddPlaceHolder w t u) (ref_ph w).
Proof.
  intros w t u [E N L P T Z D] A. split; cbn; auto.
  - intros r p H. unfold upd. destruct (p =? holders w); [reflexivity|]. eauto.
  - intros p H. unfold upd in *. destruct (Nat.eqb_spec p (holders w)) as [Ep|Np].
    + subst p. split; [lia|]. intro r. split; [intros []|]. intro X. apply L in X. apply P in X. lia.
    + destruct (P p H) as [P1 P2]. split; [lia|exact P2].
  - intros p d H Tp. unfold upd in *. destruct (p =? holders w); [subst t; exact A|]. eauto.
Qed.
Lemma holder_for_url_spec : forall w u, wf w (ref_ph w) ->
  let (w', p) := holder_for_url w u in
  wf w' (ref_ph w') /\ same_things w w' /\ ref_ph w' = ref_ph w /\ ref_entity w' = ref_entity w /\ ref_id w' = ref_id w /\
  ent_alive w' = ent_alive w /\ ph_alive w' p = true /\ GetFileUrl w' p = u.
Proof.
  intros w u I. unfold holder_for_url, find_holder. destruct (find _ _) as [p|] eqn:F.
  - apply find_some in F. destruct F as [_ F]. apply andb_prop in F. destruct F as [F1 F2]. apply str_eqb_eq in F2.
    split; [exact I|]. split; [repeat split|]. repeat (split; [reflexivity|]). auto.
  - split; [exact (wf_add_holder w None u I Logic.I)|]. split; [repeat split|]. cbn. rewrite upd_same. repeat split.
    unfold GetFileUrl. cbn. rewrite !upd_same. reflexivity.
Qed.
Lemma holder_for_doc_spec : forall w d, wf w (ref_ph w) -> doc_alive w d = true -> d <> 0 ->
  let (w', p) := holder_for_doc w d in
  wf w' (ref_ph w') /\ same_things w w' /\ ref_ph w' = ref_ph w /\ ref_entity w' = ref_entity w /\ ref_id w' = ref_id w /\
  ent_alive w' = ent_alive w /\ ph_alive w' p = true /\ ph_target w' p = Some d.
Proof.
  intros w d I A Nd. unfold holder_for_doc, find_holder. destruct (find _ _) as [p|] eqn:F.
  - apply find_some in F. destruct F as [_ F]. apply andb_prop in F. destruct F as [F1 F2]. apply eqo_eq in F2.
    split; [exact I|]. split; [repeat split|]. repeat (split; [reflexivity|]). auto.
  - split; [exact (wf_add_holder w (Some d) (doc_url w d) I (conj A Nd))|]. split; [repeat split|]. cbn. rewrite !upd_same. repeat split.
Qed.

Lemma SetUri_wf : forall w r f i, wf w (ref_ph w) -> wf (SetUri w r f i) (ref_ph (SetUri w r f i)).
Proof.
  intros w r f i I. unfold SetUri. set (w1 := set_ref_id _ _).
  assert (I1 : wf w1 (ref_ph w1)) by (apply wf_set_id, I). destruct f as [u|].
  - assert (H := holder_for_url_spec w1 u I1). destruct (holder_for_url w1 u) as [w2 p].
    destruct H as (I2 & _ & _ & _ & _ & _ & A & _). apply set_holder; assumption.
  - apply set_holder; [exact I1|exact Logic.I].
Qed.
Lemma SetEntity_spec : forall w r e, wf w (ref_ph w) -> match e with Some x => ent_alive w x = true | None => True end ->
  let w' := SetEntity w r e in
  wf w' (ref_ph w') /\ same_things w w' /\
  match e with
  | Some x => ref_entity w' r = Some x /\ ref_id w' r = ent_id w x /\
              match ref_ph w' r with
              | None => ent_doc w x = 0
              | Some p => ent_doc w x <> 0 /\ ph_target w' p = Some (ent_doc w x)
              end
  | None => ref_entity w' r = None /\ ref_ph w' r = None /\ ref_id w' r = ref_id w r
  end.
Proof.
  intros w r e I A w'. unfold w', SetEntity. set (w1 := set_ref_entity _ _).
  assert (I1 : wf w1 (ref_ph w1)) by (apply wf_set_entity; assumption).
  destruct e as [x|].
  - set (w2 := set_ref_id _ _). assert (I2 : wf w2 (ref_ph w2)) by (apply wf_set_id, I1).
    change (ent_doc w1 x) with (ent_doc w x). unfold SetEntityDocument.
    assert (Re2 : ref_entity w2 r = Some x) by (cbn; apply upd_same).
    assert (Ri2 : ref_id w2 r = ent_id w x) by (cbn; apply upd_same).
    destruct (ent_doc w x) as [|d] eqn:Dx.
    + destruct (set_holder w2 r None I2 Logic.I) as (F1 & F2 & F3 & _ & _ & F6).
      destruct (F6 x Re2) as [G1 G2]; [left; exact Dx|].
      split; [exact F1|]. split; [exact F2|]. split; [exact G1|]. split; [congruence|]. rewrite F3. reflexivity.
    + assert (Ad : doc_alive w2 (S d) = true) by (rewrite <- Dx; apply (wf_ent _ _ I x A)).
      assert (H := holder_for_doc_spec w2 (S d) I2 Ad (Nat.neq_succ_0 d)).
      destruct (holder_for_doc w2 (S d)) as [w3 p]. destruct H as (I3 & S3 & R3 & E3 & Id3 & A3 & P3 & T3).
      destruct (set_holder w3 r (Some p) I3 P3) as (F1 & F2 & F3 & (F4 & F5 & _) & _ & F6).
      assert (Sd : ent_doc w3 x = S d) by (destruct S3 as (_ & _ & _ & _ & _ & X & _); rewrite X; exact Dx).
      destruct (F6 x) as [G1 G2]; [rewrite E3; exact Re2 | right; exists p; rewrite Sd; auto |].
      split; [exact F1|]. split.
      { destruct S3 as (? & ? & ? & ? & ? & ? & ?), F2 as (? & ? & ? & ? & ? & ? & ?).
        repeat split; etransitivity; eauto. }
      split; [exact G1|]. split; [rewrite G2, Id3; exact Ri2|]. rewrite F3, F5, T3. split; [apply Nat.neq_succ_0|reflexivity].
  - cbn [SetEntityDocument]. destruct (set_holder w1 r None I1 Logic.I) as (F1 & F2 & F3 & _ & F5 & _).
    destruct F5 as [G1 G2]; [cbn; apply upd_same|]. split; [exact F1|]. split; [exact F2|].
    split; [exact G1|]. split; [exact F3|exact G2].
Qed.

Lemma wf_new_document : forall w u t l, wf w l -> wf (NewDocument w u t) l.
Proof.
  intros w u t l [E N L P T Z D]. split; cbn; auto.
  - intros e A. destruct (N e A) as [N1 N2]. split; [exact N1|]. unfold upd. destruct (_ =? _); auto.
  - intros p d A H. destruct (T p d A H) as [T1 T2]. split; [|exact T2]. unfold upd. destruct (_ =? _); auto.
  - unfold upd. destruct (0 =? docs w); auto.
  - intros d H. unfold upd in H. destruct (Nat.eqb_spec d (docs w)); [lia|]. apply D in H. lia.
Qed.
Lemma wf_new_entity : forall w d i l, wf w l -> doc_alive w d = true -> wf (NewEntity w d i) l.
Proof.
  intros w d i l [E N L P T Z D] A. split; cbn; auto.
  - intros r e H. apply E in H. unfold upd. destruct (e =? ents w); auto.
  - intros e H. unfold upd in *. destruct (Nat.eqb_spec e (ents w)) as [Ee|Ne]; [split; [lia|exact A]|].
    destruct (N e H). split; [lia|assumption].
Qed.
Lemma new_entities : forall ids w d l, wf w l -> doc_alive w d = true ->
  let w' := fold_left (fun x i => NewEntity x d i) ids w in
  wf w' l /\ files w' = files w /\ dereference w' = dereference w /\ docs w' = docs w /\ doc_alive w' = doc_alive w /\ doc_url w' = doc_url w /\
  holders w' = holders w /\ ph_alive w' = ph_alive w /\ ph_target w' = ph_target w /\ ph_url w' = ph_url w /\
  ref_entity w' = ref_entity w /\ ref_id w' = ref_id w /\ ref_ph w' = ref_ph w.
Proof.
  induction ids as [|i ids IH]; intros w d l I A; cbn; [repeat (split; [exact I || reflexivity|]); reflexivity|].
  exact (IH (NewEntity w d i) d l (wf_new_entity w d i l I A) A).
Qed.
Lemma load_target : forall w p l, wf w l -> ph_alive w p = true -> ph_target w p = None ->
  let w' := LoadTarget w p in
  wf w' l /\ ref_entity w' = ref_entity w /\ ref_id w' = ref_id w /\ ref_ph w' = ref_ph w /\ ph_alive w' = ph_alive w /\
  ph_url w' p = ph_url w p /\
  match ph_target w' p with
  | None => files w (ph_url w p) = None
  | Some d => d <> 0 /\ doc_alive w' d = true /\ doc_url w' d = ph_url w p
  end.
Proof.
  intros w p l I A T w'. unfold w', LoadTarget. destruct (files w (ph_url w p)) as [ids|] eqn:F.
  2:{ rewrite T. repeat (split; [exact I || reflexivity|]). reflexivity. }
  set (w0 := NewDocument w (ph_url w p) false).
  assert (I0 : wf w0 l) by (apply wf_new_document, I).
  assert (A0 : doc_alive w0 (docs w) = true) by (cbn; apply upd_same).
  assert (D0 : docs w <> 0) by (assert (X := wf_doc _ _ I 0 (wf_zero _ _ I)); lia).
  destruct (new_entities ids w0 (docs w) l I0 A0) as (I1 & F1 & F2 & F3 & F4 & F5 & F6 & F7 & F8 & F9 & F10 & F11 & F12).
  set (w1 := fold_left _ ids w0) in *. clearbody w1.
  split; [|split; [|split; [|split; [|split; [|split]]]]]; cbn; auto.
  - assert (Dw1 : doc_alive w1 (docs w) = true) by (rewrite F4; exact A0).
    clear - I1 D0 Dw1. destruct I1 as [E N L P T Z D]. split; cbn; auto.
    intros x d Ax H. destruct (_ && _ && _); [injection H as <-; auto|eauto].
  - rewrite F9. reflexivity.
  - rewrite F7, F8, F9, F5. cbn. rewrite A, T. cbn. unfold str_eqb. destruct (list_eq_dec _ _ _); [|contradiction].
    rewrite F4. split; [exact D0|]. split; [exact A0|]. cbn. apply upd_same.
Qed.
Lemma find_entity_spec : forall w l d i, wf w l ->
  match FindEntity w d i with
  | Some e => ent_alive w e = true /\ ent_doc w e = d /\ ent_id w e = i
  | None => forall e, ent_alive w e = true -> ent_doc w e = d -> ent_id w e <> i
  end.
Proof.
  intros w l d i I. unfold FindEntity. destruct (find _ _) as [e|] eqn:F.
  - apply find_some in F. destruct F as [_ F]. apply andb_prop in F. destruct F as [F F3]. apply andb_prop in F.
    destruct F as [F1 F2]. apply Nat.eqb_eq in F2. apply str_eqb_eq in F3. auto.
  - intros e A D X. assert (Q := find_none _ _ F e). cbv beta in Q.
    rewrite A, D, X, Nat.eqb_refl in Q. cbn in Q. assert (str_eqb i i = true) by (apply str_eqb_eq; reflexivity).
    rewrite H in Q. discriminate Q. apply in_seq. split; [lia|]. apply (wf_ent _ _ I e A).
Qed.
Lemma load_from_spec : forall w r d, wf w (ref_ph w) -> ref_entity w r = None ->
  let w' := load_from w r d in
  wf w' (ref_ph w') /\ ref_ph w' = ref_ph w /\ ref_id w' = ref_id w /\ ent_alive w' = ent_alive w /\ ent_doc w' = ent_doc w /\ ent_id w' = ent_id w /\
  doc_url w' = doc_url w /\ doc_alive w' = doc_alive w /\
  match ref_entity w' r with
  | Some e => ent_alive w e = true /\ ent_doc w e = d /\ ent_id w e = ref_id w r
  | None => ref_id w r = [] \/ forall e, ent_alive w e = true -> ent_doc w e = d -> ent_id w e <> ref_id w r
  end.
Proof.
  intros w r d I R w'. unfold w', load_from. assert (F := find_entity_spec w _ d (ref_id w r) I).
  destruct (ref_id w r) as [|c i] eqn:Ri.
  - repeat (split; [exact I || reflexivity|]). rewrite R. auto.
  - destruct (FindEntity w d (c :: i)) as [e|].
    + split; [apply wf_set_entity; [exact I|apply F]|]. repeat (split; [reflexivity|]). cbn. rewrite upd_same. exact F.
    + repeat (split; [exact I || reflexivity|]). rewrite R. auto.
Qed.
Lemma LoadEntity_wf : forall w r, wf w (ref_ph w) -> ref_entity w r = None -> wf (LoadEntity w r) (ref_ph (LoadEntity w r)).
Proof.
  intros w r I R. unfold LoadEntity. destruct (ref_ph w r) as [p|] eqn:Rp.
  - assert (A : ph_alive w p = true) by (eapply wf_link; eauto).
    set (w1 := match ph_target w p with None => if dereference w then LoadTarget w p else w | Some _ => w end).
    assert (I1 : wf w1 (ref_ph w1) /\ ref_entity w1 r = None).
    { unfold w1. destruct (ph_target w p) eqn:T; [auto|]. destruct (dereference w); [|auto].
      destruct (load_target w p _ I A T) as (X & Y & _ & Z & _). rewrite Z, Y. auto. }
    destruct I1 as [I1 R1]. destruct (ph_target w1 p); [|exact I1]. apply load_from_spec; assumption.
  - apply load_from_spec; assumption.
Qed.
Lemma GetEntity_wf : forall w r, wf w (ref_ph w) -> wf (fst (GetEntity w r)) (ref_ph (fst (GetEntity w r))).
Proof.
  intros w r I. unfold GetEntity. cbn [fst]. destruct (ref_entity w r) eqn:R; [exact I|]. apply LoadEntity_wf; assumption.
Qed.

Lemma step_wf : forall w o w', wf w (ref_ph w) -> step w o = Some w' -> wf w' (ref_ph w').
Proof.
  intros w o w' I H. destruct o as [u t|d i|e|d|r f i|r e|r i|r|r]; cbn [step] in H.
  - injection H as <-. apply wf_new_document, I.
  - destruct (doc_alive w d) eqn:A; [|discriminate]. injection H as <-. apply wf_new_entity; assumption.
  - destruct (ent_alive w e); [|discriminate]. injection H as <-. apply wf_release_entities, I.
  - destruct (Nat.eqb_spec d 0) as [|Nd]; [rewrite andb_false_r in H; discriminate|].
    destruct (doc_alive w d); [|discriminate]. injection H as <-. apply (wf_release_document w _ d I Nd).
  - injection H as <-. apply SetUri_wf, I.
  - destruct e as [e|].
    + destruct (ent_alive w e) eqn:A; [|discriminate]. assert (H1 : SetEntity w r (Some e) = w') by congruence. subst w'.
      exact (proj1 (SetEntity_spec w r (Some e) I A)).
    + assert (H1 : SetEntity w r None = w') by congruence. subst w'. exact (proj1 (SetEntity_spec w r None I Logic.I)).
  - injection H as <-. apply wf_set_id, I.
  - injection H as <-. apply GetEntity_wf, I.
  - injection H as <-. unfold ReleaseReference. apply wf_set_id.
    destruct (set_holder w r None I Logic.I) as (F1 & _). exact (wf_set_entity _ _ r None F1 Logic.I).
Qed.
Lemma run_wf : forall os w w', wf w (ref_ph w) -> run w os = Some w' -> wf w' (ref_ph w').
Proof.
  induction os as [|o os IH]; cbn; intros w w' I H; [injection H as <-; exact I|].
  destruct (step w o) as [w1|] eqn:S; [|discriminate]. apply (IH w1); [apply (step_wf w o); assumption|exact H].
Qed.
