(** C49: an entity reference designates what it was last set to. *)
From Coq Require Import List Arith ZArith Bool Lia String.
From Verif Require Import TextModel IdModel RefModel RefProofs.
Import ListNotations.

(** ** Specification *)
(** The entity [e] is the one called [i] of document 0 or, when a file is given, of a document with that URL. *)
Definition designates (w : world) (file : option str) (i : str) (e : nat) : Prop :=
  ent_alive w e = true /\ ent_id w e = i /\
  match file with
  | None => ent_doc w e = 0
  | Some u => ent_doc w e <> 0 /\ doc_alive w (ent_doc w e) = true /\ doc_url w (ent_doc w e) = u
  end.
(** There is nothing to find: no id, no loadable document, or no such entity in the document. *)
Definition nothing (w : world) (file : option str) (i : str) : Prop :=
  i = [] \/
  match file with
  | None => forall e, ~ designates w None i e
  | Some u => dereference w = false \/ files w u = None \/
              exists d, d <> 0 /\ doc_alive w d = true /\ doc_url w d = u /\ forall e, ent_alive w e = true -> ent_doc w e = d -> ent_id w e <> i
  end.

(** ** Theorems *)

(** C49: after any history, SetEntity(e) makes GetEntity return e, without loading anything, and GetUri give the URL
    of e's document (none for the own document) and the id of e. *)
Theorem C49_set_entity : forall fs deref os w r e,
  run (start fs deref) os = Some w -> ent_alive w e = true ->
  let w' := SetEntity w r (Some e) in
  GetEntity w' r = (w', Some e) /\ ent_alive w' e = true /\
  GetUri w' r = (if ent_doc w e =? 0 then None else Some (doc_url w (ent_doc w e)), ent_id w e).
Proof.
  intros fs deref os w r e H A w'. assert (I := run_wf os _ _ (wf_start fs deref) H).
  destruct (SetEntity_spec w r (Some e) I A) as (F1 & F2 & F3 & F4 & F5). fold w' in F1, F2, F3, F4, F5.
  destruct F2 as (_ & _ & _ & U & _ & _ & Ei).
  split; [unfold GetEntity; rewrite F3, F3; reflexivity|]. split; [eapply wf_entity; eauto|].
  unfold GetUri, GetFileUrl. rewrite F3, Ei. f_equal. destruct (ref_ph w' r) as [p|].
  - destruct F5 as [Nz ->]. rewrite U. apply Nat.eqb_neq in Nz. rewrite Nz. reflexivity.
  - rewrite F5. reflexivity.
Qed.
Print Assumptions C49_set_entity.

Lemma uri_lookup : forall w r file frag, wf w (ref_ph w) -> ref_entity w r = None ->
  GetUri (SetUri w r file frag) r = (file, CleanId frag) /\
  let (w2, res) := GetEntity (SetUri w r file frag) r in
  match res with
  | Some e => designates w2 file (CleanId frag) e
  | None => nothing w2 file (CleanId frag)
  end.
Proof.
  intros w r file frag I R.
  assert (K : let w1 := SetUri w r file frag in
    wf w1 (ref_ph w1) /\ ref_entity w1 r = None /\ ref_id w1 r = CleanId frag /\
    match file, ref_ph w1 r with
    | None, None => True
    | Some u, Some p => GetFileUrl w1 p = u
    | _, _ => False
    end).
  { cbn zeta. split; [apply SetUri_wf, I|]. unfold SetUri. set (w0 := set_ref_id _ _).
    assert (I0 : wf w0 (ref_ph w0)) by (apply wf_set_id, I).
    assert (Ri0 : ref_id w0 r = CleanId frag) by (cbn; apply upd_same).
    destruct file as [u|].
    - assert (H := holder_for_url_spec w0 u I0). destruct (holder_for_url w0 u) as [w1 p].
      destruct H as (I1 & S1 & P1 & E1 & Id1 & _ & A1 & U1).
      destruct (set_holder w1 r (Some p) I1 A1) as (F1 & F2 & F3 & (F4 & F5 & F6) & F7 & _).
      destruct F7 as [G1 G2]; [rewrite E1; exact R|]. split; [exact G1|]. split; [rewrite G2, Id1; exact Ri0|].
      rewrite F3. rewrite <- U1. unfold GetFileUrl. rewrite F5, F6. destruct F2 as (_ & _ & _ & -> & _). reflexivity.
    - destruct (set_holder w0 r None I0 Logic.I) as (F1 & F2 & F3 & _ & F7 & _).
      destruct F7 as [G1 G2]; [exact R|]. split; [exact G1|]. split; [rewrite G2; exact Ri0|]. rewrite F3. exact Logic.I. }
  set (w1 := SetUri w r file frag) in *. clearbody w1. cbn zeta in K. destruct K as (I1 & R1 & Id1 & P1).
  split.
  { unfold GetUri. rewrite R1, Id1. f_equal. destruct file as [u|], (ref_ph w1 r) as [p|]; try contradiction; [|reflexivity].
    f_equal. exact P1. }
  unfold GetEntity. rewrite R1. unfold LoadEntity. destruct file as [u|], (ref_ph w1 r) as [p|] eqn:Rp; try contradiction.
  - assert (A : ph_alive w1 p = true) by (eapply wf_link; eauto).
    set (w2 := match ph_target w1 p with None => if dereference w1 then LoadTarget w1 p else w1 | Some _ => w1 end).
    assert (K : wf w2 (ref_ph w2) /\ ref_entity w2 r = None /\ ref_id w2 r = CleanId frag /\
                match ph_target w2 p with
                | Some d => d <> 0 /\ doc_alive w2 d = true /\ doc_url w2 d = u
                | None => dereference w2 = false \/ files w2 u = None
                end).
    { unfold w2. destruct (ph_target w1 p) as [d|] eqn:T.
      - rewrite T. repeat (split; [assumption|]). unfold GetFileUrl in P1. rewrite T in P1.
        destruct (wf_target _ _ I1 p d A T). auto.
      - unfold GetFileUrl in P1. rewrite T in P1. destruct (dereference w1) eqn:D.
        + destruct (load_target w1 p _ I1 A T) as (G1 & G2 & G3 & G4 & G5 & G6 & G7).
          rewrite G4, G2, G3. repeat (split; [assumption|]). rewrite P1 in G7.
          destruct (ph_target (LoadTarget w1 p) p) eqn:T2; [exact G7|]. right.
          unfold LoadTarget. rewrite P1, G7. exact G7.
        + rewrite T. repeat (split; [assumption|]). auto. }
    clearbody w2. destruct K as (I2 & R2 & Id2 & K). destruct (ph_target w2 p) as [d|].
    + destruct K as (K1 & K2 & K3).
      destruct (load_from_spec w2 r d I2 R2) as (L1 & L2 & L3 & L4 & L5 & L6 & L7 & L8 & L9).
      set (w3 := load_from w2 r d) in *. clearbody w3. rewrite Id2 in L9. destruct (ref_entity w3 r) as [e|].
      * destruct L9 as (M1 & M2 & M3). unfold designates. rewrite L4, L5, L6, L7, L8, M2. auto 10.
      * destruct L9 as [L9|L9]; [left; exact L9|right]. right. right. exists d. rewrite L7, L8.
        split; [exact K1|]. split; [exact K2|]. split; [exact K3|]. rewrite L4, L5, L6. exact L9.
    + rewrite R2. right. destruct K; auto.
  - destruct (load_from_spec w1 r 0 I1 R1) as (L1 & L2 & L3 & L4 & L5 & L6 & L7 & L8 & L9).
    set (w3 := load_from w1 r 0) in *. clearbody w3. rewrite Id1 in L9. destruct (ref_entity w3 r) as [e|].
    + destruct L9 as (M1 & M2 & M3). unfold designates. rewrite L4, L5, L6. auto.
    + destruct L9 as [L9|L9]; [left; exact L9|right]. intros e (D1 & D2 & D3). rewrite L4 in D1. rewrite L6 in D2. rewrite L5 in D3.
      exact (L9 e D1 D3 D2).
Qed.

(** C49 (partial): SetUri on a reference that holds no entity: GetUri gives the URI back (the fragment cleaned as
    an id), and GetEntity returns an entity that the URI designates, or NULL only when there is none to be found.
    Missing: references that already hold an entity (the three refutations below). *)
Theorem C49_set_uri_partial : forall fs deref os w r file frag,
  run (start fs deref) os = Some w -> ref_entity w r = None ->
  GetUri (SetUri w r file frag) r = (file, CleanId frag) /\
  let (w2, res) := GetEntity (SetUri w r file frag) r in
  match res with
  | Some e => designates w2 file (CleanId frag) e
  | None => nothing w2 file (CleanId frag)
  end.
Proof.
  intros fs deref os w r file frag H R. apply uri_lookup; [|exact R]. exact (run_wf os _ _ (wf_start fs deref) H).
Qed.
Print Assumptions C49_set_uri_partial.

(** The same after SetEntity(NULL), for every reference. *)
Theorem C49_clear_then_uri_partial : forall fs deref os w r file frag,
  run (start fs deref) os = Some w ->
  let w1 := SetUri (SetEntity w r None) r file frag in
  GetUri w1 r = (file, CleanId frag) /\
  let (w2, res) := GetEntity w1 r in
  match res with
  | Some e => designates w2 file (CleanId frag) e
  | None => nothing w2 file (CleanId frag)
  end.
Proof.
  intros fs deref os w r file frag H. assert (I := run_wf os _ _ (wf_start fs deref) H).
  destruct (SetEntity_spec w r None I Logic.I) as (F1 & _ & F3 & _). apply uri_lookup; assumption.
Qed.
Print Assumptions C49_clear_then_uri_partial.

(** C49: a reference never holds a destroyed entity; when its entity is destroyed, a reference into the own
    document designates nothing any more, and one into another document keeps its URI. *)
Theorem C49_released : forall fs deref os w r e,
  run (start fs deref) os = Some w -> ref_entity w r = Some e ->
  ent_alive w e = true /\
  let w' := ReleaseEntity w e in
  ref_entity w' r = None /\
  (ref_ph w r = None -> snd (GetEntity w' r) = None /\ GetUri w' r = (None, [])) /\
  (ref_ph w r <> None -> GetUri w' r = GetUri w r).
Proof.
  intros fs deref os w r e H R. assert (I := run_wf os _ _ (wf_start fs deref) H).
  split; [eapply wf_entity; eauto|]. cbn zeta.
  assert (R' : ref_entity (ReleaseEntity w e) r = None) by (cbn; rewrite R, Nat.eqb_refl; reflexivity).
  assert (Id' : ref_id (ReleaseEntity w e) r = match ref_ph w r with None => [] | Some _ => ent_id w e end)
    by (cbn; rewrite R, Nat.eqb_refl; reflexivity).
  assert (P' : ref_ph (ReleaseEntity w e) r = ref_ph w r) by reflexivity.
  split; [exact R'|]. split; intro P.
  - rewrite P in *. split.
    + unfold GetEntity, LoadEntity, load_from. rewrite R', P', Id'. cbn [snd]. exact R'.
    + unfold GetUri. rewrite R', P', Id'. reflexivity.
  - unfold GetUri. rewrite R', P', Id', R. destruct (ref_ph w r) as [p|]; [|contradiction]. reflexivity.
Qed.
Print Assumptions C49_released.

(** ** Refutations *)
Definition disk (u : str) : option (list str) := if str_eqb u (tx "/x.dae") then Some [tx "a"; tx "b"] else None.
(** The entity found after a history, and the URI. *)
Definition after (os : list op) (r : nat) : option (option nat * (option str * str)) :=
  match run (start disk true) os with Some w => Some (snd (GetEntity w r), GetUri w r) | None => None end.

(** C49 is false for a reference that holds an entity: SetUri changes neither GetEntity nor the fragment of
    GetUri.  Entity 0 is "a", entity 1 is "b". *)
Theorem C49_stale_entity_refuted :
  after [ONewEntity 0 (tx "a"); ONewEntity 0 (tx "b"); OSetEntity 0 (Some 0); OSetUri 0 None (tx "b")] 0 =
  Some (Some 0, (None, tx "a")).
Proof. vm_compute. reflexivity. Qed.
Print Assumptions C49_stale_entity_refuted.

(** C49 is false for SetEntity(NULL): the id is kept, and GetEntity finds the same entity again. *)
Theorem C49_set_null_refuted :
  after [ONewEntity 0 (tx "a"); OSetEntity 0 (Some 0); OSetEntity 0 None] 0 = Some (Some 0, (None, tx "a")).
Proof. vm_compute. reflexivity. Qed.
Print Assumptions C49_set_null_refuted.

(** C49 is false when the last reference into a loaded document is moved away by SetUri: the document is unloaded,
    and the dying entity overwrites the new id with its own.  Here the reference is to be the entity 0, "b" of the
    own document, and ends up as "a", which there is not. *)
Theorem C49_unload_overwrites_id_refuted :
  after [ONewEntity 0 (tx "b"); OSetUri 0 (Some (tx "/x.dae")) (tx "a"); OGetEntity 0; OSetUri 0 None (tx "b")] 0 =
  Some (None, (None, tx "a")).
Proof. vm_compute. reflexivity. Qed.
Print Assumptions C49_unload_overwrites_id_refuted.

(** Two references into one file; the first is then set to an entity of the own document, then the second is
    released, which unloads the file. *)
Example C49_demo :
  after [ONewEntity 0 (tx "b"); OSetUri 0 (Some (tx "/x.dae")) (tx "a"); OSetUri 1 (Some (tx "/x.dae")) (tx "b"); OGetEntity 0] 1 =
    Some (Some 2, (Some (tx "/x.dae"), tx "b")) /\
  after [ONewEntity 0 (tx "b"); OSetUri 0 (Some (tx "/x.dae")) (tx "a"); OSetUri 1 (Some (tx "/x.dae")) (tx "b"); OGetEntity 0;
         OSetEntity 0 (Some 0); OReleaseReference 1] 0 = Some (Some 0, (None, tx "b")) /\
  match run (start disk true) [ONewEntity 0 (tx "b"); OSetUri 0 (Some (tx "/x.dae")) (tx "a"); OGetEntity 0; OSetEntity 0 (Some 0)] with
  | Some w => ent_alive w 1 = false /\ doc_alive w 1 = false /\ ent_alive w 0 = true
  | None => False
  end.
Proof. vm_compute. repeat split. Qed.
