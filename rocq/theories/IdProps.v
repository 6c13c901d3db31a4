(** Properties C15 (ids of live objects) and C16 (cleaned names). *)
From Coq Require Import String List ZArith Bool Lia.
From Verif Require Import TextModel UniqueSpec UniqueModel UniqueProofs IdModel IdProofs.
Import ListNotations.
Local Open Scope Z_scope.

(** ** C15 *)
(** Full statement refuted.  First part: cloning into an object that already has an id makes two live objects
    report the same id.  Second part: an object that reported "a" reports "a1" after having been cloned,
    although nobody called SetDaeId or RemoveDaeId on it. *)
Theorem C15_ids_refuted :
  (exists h i j a b, i <> j /\
     fst (GetDaeId (calls empty_document h) i) = Some a /\
     fst (GetDaeId (snd (GetDaeId (calls empty_document h) i)) j) = Some b /\ a = b) /\
  (exists h1 i j h2 a b, i <> j /\
     fst (GetDaeId (calls empty_document h1) i) = Some a /\
     fst (GetDaeId (calls empty_document (h1 ++ [Get i; Clone i j] ++ h2)) i) = Some b /\
     (forall id, ~ In (Set_ i id) h2) /\ ~ In (Remove i) h2 /\ a <> b).
Proof.
  split.
  - exists [New (tx "a"); New (tx "b"); Get 0%nat; Get 1%nat; Clone 0 1], 0%nat, 1%nat, (tx "a"), (tx "a").
    repeat split; auto; vm_compute; reflexivity.
  - exists [New (tx "a"); New (tx "b")], 0%nat, 1%nat, [Get 1%nat], (tx "a"), (tx "a1").
    split; [auto|]. split; [vm_compute; reflexivity|]. split; [vm_compute; reflexivity|].
    repeat split; try (cbn; intuition discriminate).
Qed.
Print Assumptions C15_ids_refuted.

(** The object [j] was never asked for its id nor given one. *)
Definition never_named (j : nat) (h : list call) : Prop :=
  ~ In (Get j) h /\ forall id, ~ In (Set_ j id) h.

(** What holds: histories of fewer than 3*10^9 calls in which the requested ids have a final number below 10^9
    and objects are only cloned into objects that were never named.  Missing with respect to the full
    statement: larger numbers or histories (see C14) and other clone targets. *)
Theorem C15_ids_distinct_partial : forall h,
  (forall s, In (New s) h -> modest 1000000000 s) ->
  (forall i s, In (Set_ i s) h -> modest 1000000000 (CleanId s)) ->
  (forall h1 i j h2, h = h1 ++ Clone i j :: h2 -> never_named j h1) ->
  Z.of_nat (List.length h) < 3000000000 ->
  let d := calls empty_document h in
  forall i j, i <> j -> forall a d1 b d2,
  GetDaeId d i = (Some a, d1) -> GetDaeId d1 j = (Some b, d2) ->
  ~ same_name a b /\ a <> b.
Proof.
  intros h Hn Hs Hc Hl d i j Hij a d1 b d2 Ga Gb.
  assert (H0 : ids_ok 1000000000 empty_document).
  { split; cbn; [apply map_ok_nil| | |]; unfold object_at; cbn.
    - intros [|k] o; discriminate.
    - intros [|k] o; discriminate.
    - intros [|k] l o p; discriminate. }
  assert (Hok : ids_ok (1000000000 + Z.of_nat (List.length h)) d).
  { apply calls_ok; auto; try lia; [|unfold NO_SUFFIX; lia|].
    - apply Forall_forall. intros [s|k|k s|k|k l|k] H; cbn; eauto.
    - intros h1 [s|k|k s|k|k l|k] h2 E; cbn; auto.
      destruct (registered (calls empty_document h1) l) eqn:R; auto. exfalso.
      apply reg_calls in R. destruct (Hc _ _ _ _ E) as [N1 N2].
      destruct R as [R|[R|(id & R)]]; [|auto|eapply N2; eauto].
      unfold registered, object_at in R. cbn in R. destruct l; discriminate. }
  set (n := Z.of_nat (List.length h)) in *.
  pose proof (get_ok _ d i Hok ltac:(unfold NO_SUFFIX; lia)) as Ok1. rewrite Ga in Ok1. cbn [snd] in Ok1.
  pose proof (get_ok _ d1 j Ok1 ltac:(unfold NO_SUFFIX; lia)) as Ok2. rewrite Gb in Ok2. cbn [snd] in Ok2.
  pose proof (get_registers _ _ _ _ Ga) as Ra. pose proof (get_registers _ _ _ _ Gb) as Rb.
  assert (Ra2 : object_at d2 i = Some {| daeId := a; unique := true; alive := true |}).
  { pose proof (call_keeps d1 (Get j) i _ Ra eq_refl I) as K. cbn [do_call] in K. rewrite Gb in K. exact K. }
  assert (D : SplitString a <> SplitString b) by (exact (ok_diff _ _ Ok2 i j _ _ Ra2 Rb Hij eq_refl eq_refl)).
  split; [|congruence].
  intro Sn. apply D. apply key_same; auto.
  - eapply modest_le; [exact (ok_modest _ _ Ok2 _ _ Ra2)|lia].
  - eapply modest_le; [exact (ok_modest _ _ Ok2 _ _ Rb)|lia].
Qed.
Print Assumptions C15_ids_distinct_partial.

(** Stability, without any bound: the id reported stays the same during every history in which SetDaeId,
    RemoveDaeId, Clone (as source or target) and release are not called on the object. *)
Theorem C15_id_stable_partial : forall d i a d1 h,
  GetDaeId d i = (Some a, d1) ->
  (forall id, ~ In (Set_ i id) h) -> ~ In (Remove i) h -> ~ In (Release i) h ->
  (forall j, ~ In (Clone i j) h /\ ~ In (Clone j i) h) ->
  fst (GetDaeId (calls d1 h) i) = Some a.
Proof.
  intros d i a d1 h G H1 H2 H3 H4. pose proof (get_registers _ _ _ _ G) as R.
  assert (U : Forall (untouched i) h).
  { apply Forall_forall. intros [s|k|k s|k|k l|k] H; cbn; auto; try (intros ->; first [exact (H2 H)|exact (H3 H)|exact (H1 _ H)]).
    split; intros ->; [apply (proj1 (H4 l)); auto|apply (proj2 (H4 k)); auto]. }
  pose proof (calls_keep h d1 i _ R eq_refl U) as K. unfold GetDaeId. rewrite K. reflexivity.
Qed.
Print Assumptions C15_id_stable_partial.

(** An id that was given up (RemoveDaeId or release) is available again: another object asking for it gets
    exactly that string.  Same restrictions as above. *)
Theorem C15_id_reusable_partial : forall h,
  (forall s, In (New s) h -> modest 1000000000 s) ->
  (forall i s, In (Set_ i s) h -> modest 1000000000 (CleanId s)) ->
  (forall h1 i j h2, h = h1 ++ Clone i j :: h2 -> never_named j h1) ->
  Z.of_nat (List.length h) < 3000000000 ->
  let d := calls empty_document h in
  forall i j a d1, i <> j -> GetDaeId d i = (Some a, d1) -> object_at d j <> None -> CleanId a = a ->
  fst (GetDaeId (SetDaeId (RemoveDaeId d1 i) j a) j) = Some a /\
  fst (GetDaeId (SetDaeId (ReleaseObject d1 i) j a) j) = Some a.
Proof.
  intros h Hn Hs Hc Hl d i j a d1 Hij Ga Hj Ha.
  assert (H0 : ids_ok 1000000000 empty_document).
  { split; cbn; [apply map_ok_nil| | |]; unfold object_at; cbn.
    - intros [|k] o; discriminate.
    - intros [|k] o; discriminate.
    - intros [|k] l o p; discriminate. }
  assert (Hok : ids_ok (1000000000 + Z.of_nat (List.length h)) d).
  { apply calls_ok; auto; try lia; [|unfold NO_SUFFIX; lia|].
    - apply Forall_forall. intros [s|k|k s|k|k l|k] H; cbn; eauto.
    - intros h1 [s|k|k s|k|k l|k] h2 E; cbn; auto.
      destruct (registered (calls empty_document h1) l) eqn:R; auto. exfalso.
      apply reg_calls in R. destruct (Hc _ _ _ _ E) as [N1 N2].
      destruct R as [R|[R|(id & R)]]; [|auto|eapply N2; eauto].
      unfold registered, object_at in R. cbn in R. destruct l; discriminate. }
  set (n := Z.of_nat (List.length h)) in *.
  pose proof (get_ok _ d i Hok ltac:(unfold NO_SUFFIX; lia)) as Ok1. rewrite Ga in Ok1. cbn [snd] in Ok1.
  pose proof (get_registers _ _ _ _ Ga) as Ra.
  assert (Hj1 : object_at d1 j <> None).
  { unfold GetDaeId in Ga. destruct (object_at d i) as [o|] eqn:Ho; [|discriminate].
    destruct (unique o); [congruence|]. destruct (insert _ _). injection Ga as _ <-.
    rewrite at_put_neq by auto. exact Hj. }
  (* In a document without [a] in the map, asking for [a] gives [a]. *)
  assert (Ask : forall b e, ids_ok b e -> 1 <= b < NO_SUFFIX -> modest b a ->
            contains (doc_names e) a = false -> object_at e j <> None ->
            fst (GetDaeId (SetDaeId e j a) j) = Some a).
  { intros b e He Hb Hm Hfree Hje. unfold SetDaeId.
    destruct (object_at e j) as [o|] eqn:Eo; [|congruence].
    assert (Hr : contains (doc_names (RemoveDaeId e j)) a = false /\ object_at (RemoveDaeId e j) j <> None).
    { unfold RemoveDaeId. rewrite Eo. destruct (unique o) eqn:U; [|rewrite Eo; auto].
      split; [|rewrite at_put_eq by (reflexivity || congruence); discriminate].
      rewrite names_put. destruct (erase_step b (doc_names e) (daeId o) (ok_map _ _ He)) as (_ & E2 & E3).
      rewrite E3; auto. intro E. rewrite (contains_split _ _ _ E) in Hfree.
      rewrite (ok_in _ _ He _ _ Eo U) in Hfree. discriminate. }
    destruct Hr as [Hr Hrn]. destruct (object_at (RemoveDaeId e j) j) as [o'|] eqn:Eo'; [|congruence].
    rewrite Ha. destruct (remove_ok b e j He) as [R1 _].
    pose proof (insert_step b _ a (ok_map _ _ R1) Hm Hb) as St.
    destruct (insert (doc_names (RemoveDaeId e j)) a) as [s m]. destruct St as (_ & _ & _ & _ & S5 & _).
    rewrite (S5 Hr) in *. unfold GetDaeId. rewrite at_put_eq by (reflexivity || congruence). reflexivity. }
  pose proof (ok_modest _ _ Ok1 _ _ Ra) as Hm. cbn [daeId] in Hm.
  assert (Free : contains (doc_names (RemoveDaeId d1 i)) a = false).
  { unfold RemoveDaeId. rewrite Ra. cbn [unique daeId]. rewrite names_put.
    destruct (erase_step _ (doc_names d1) a (ok_map _ _ Ok1)) as (_ & E & _). exact E. }
  split.
  - eapply Ask; [apply remove_ok; exact Ok1|unfold NO_SUFFIX; lia|exact Hm|exact Free|].
    rewrite at_remove_neq by auto. exact Hj1.
  - eapply (Ask (1000000000 + n + 1 + 1)).
    + exact (call_ok _ d1 (Release i) Ok1 ltac:(unfold NO_SUFFIX; lia) I I).
    + unfold NO_SUFFIX. lia.
    + eapply modest_le; [exact Hm|lia].
    + unfold ReleaseObject. destruct (object_at (RemoveDaeId d1 i) i); exact Free.
    + unfold ReleaseObject. destruct (object_at (RemoveDaeId d1 i) i); rewrite ?at_put_neq, at_remove_neq; auto.
Qed.
Print Assumptions C15_id_reusable_partial.

(** Non-trivial instance: three objects with clashing ids, one cloned into a new one, one released. *)
Definition demo_history : list call :=
  [New (tx "mesh"); New (tx "mesh"); Get 0%nat; Get 1%nat; New (tx "x"); Clone 0 2; Set_ 1%nat (tx "9 lives");
   New (tx ""); Release 1; New (tx "_9_lives")].
Example C15_demo :
  (forall s, In (New s) demo_history -> modest 1000000000 s) /\
  (forall i s, In (Set_ i s) demo_history -> modest 1000000000 (CleanId s)) /\
  (forall h1 i j h2, demo_history = h1 ++ Clone i j :: h2 -> never_named j h1) /\
  let d := calls empty_document demo_history in
  fst (GetDaeId d 0) = Some (tx "mesh") /\
  fst (GetDaeId (snd (GetDaeId d 0)) 2) = Some (tx "mesh1") /\
  fst (GetDaeId d 1) = None /\
  fst (GetDaeId d 3) = Some (tx "unknown_object") /\
  fst (GetDaeId d 4) = Some (tx "_9_lives").
Proof.
  split; [|split; [|split]].
  - intros s H. apply modest_compute.
    repeat (destruct H as [H|H]; [try discriminate H; injection H as <-; reflexivity|]). destruct H.
  - intros i s H. apply modest_compute.
    repeat (destruct H as [H|H]; [try discriminate H; injection H as <- <-; reflexivity|]). destruct H.
  - intros h1 i j h2 E. unfold demo_history in E.
    do 5 (destruct h1 as [|? h1]; cbn [app] in E; [discriminate E|injection E as <- E]).
    destruct h1 as [|? h1]; cbn [app] in E.
    + injection E as <- <- _. split; [|intros id]; intro H;
        repeat (destruct H as [H|H]; [discriminate H|]); destruct H.
    + injection E as <- E.
      do 4 (destruct h1 as [|? h1]; cbn [app] in E; [discriminate E|injection E as <- E]).
      destruct h1; discriminate E.
  - vm_compute. repeat split.
Qed.

(** ** C16 *)
(** [first] and [other] are the legal characters. *)
Definition legal (other : Z -> Prop) (s : list Z) : Prop :=
  match s with [] => False | c :: r => (is_letter c \/ c = 95) /\ Forall other r end.
(** What each function permits after the first character. *)
Definition id_char (c : Z) : Prop := is_letter c \/ is_digit c \/ c = 95 \/ c = 45 \/ c = 46.
Definition name_char (c : Z) : Prop := is_letter c \/ is_digit c \/ c = 95 \/ c = 45.
Definition enode_char (c : Z) : Prop := is_letter c \/ is_digit c \/ c = 95.

Definition cleaner_correct (clean : list Z -> list Z) (other : Z -> Prop) (limit : option nat) : Prop :=
  forall s, s <> [] ->
  legal other (clean s) /\
  List.length (clean s) = match limit with Some l => Nat.min l (List.length s) | None => List.length s end /\
  (legal other s -> match limit with Some l => (List.length s <= l)%nat | None => True end -> clean s = s) /\
  clean (clean s) = clean s /\
  (forall i c, nth_error (clean s) i = Some c -> c = 95 \/ nth_error s i = Some c).

(** The full statement is refuted by the empty string, which no cleaner turns into a legal name. *)
Theorem C16_clean_empty_refuted :
  ~ legal id_char (CleanId []) /\ ~ legal name_char (CleanSubId []) /\ ~ legal name_char (CleanName []) /\
  ~ legal enode_char (CleanENodeName []).
Proof. cbn. tauto. Qed.
Print Assumptions C16_clean_empty_refuted.

Lemma alpha_iff : forall c, alpha c = true <-> is_letter c.
Proof. intro c. unfold alpha, is_letter. rewrite orb_true_iff, !andb_true_iff, !Z.leb_le. lia. Qed.
Lemma clean_first_ok : forall c, is_letter (clean_first c) \/ clean_first c = 95.
Proof.
  intro c. unfold clean_first. destruct (alpha c) eqn:E; cbn [orb]; [left; apply alpha_iff; auto|].
  destruct (c =? 95) eqn:E2; auto. right. apply Z.eqb_eq; auto.
Qed.
Lemma clean_first_id : forall c, is_letter c \/ c = 95 -> clean_first c = c.
Proof.
  intros c H. unfold clean_first. destruct H as [H| ->]; [|rewrite orb_true_r; auto].
  apply alpha_iff in H. rewrite H. reflexivity.
Qed.

Lemma clean_with_correct : forall (other : Z -> Z) (ok : Z -> Prop),
  (forall c, ok (other c)) -> (forall c, ok c -> other c = c) -> (forall c, other c = 95 \/ other c = c) ->
  forall s, s <> [] ->
  legal ok (clean_with other s) /\ List.length (clean_with other s) = List.length s /\
  (legal ok s -> clean_with other s = s) /\
  (forall i c, nth_error (clean_with other s) i = Some c -> c = 95 \/ nth_error s i = Some c).
Proof.
  intros other ok H1 H2 H3 [|c s] Hs; [congruence|]. cbn [clean_with legal]. split; [|split; [|split]].
  - split; [apply clean_first_ok|]. apply Forall_forall. intros x Hx. apply in_map_iff in Hx.
    destruct Hx as (y & <- & _). auto.
  - cbn. rewrite map_length. reflexivity.
  - intros [Hc Hr]. rewrite clean_first_id by auto. f_equal. rewrite <- (map_id s) at 2.
    apply map_ext_in. intros x Hx. rewrite Forall_forall in Hr. auto.
  - intros [|i] x; cbn.
    + intro E. injection E as <-. unfold clean_first. destruct (alpha c || (c =? 95)); auto.
    + rewrite nth_error_map. destruct (nth_error s i) as [y|]; [|discriminate].
      cbn. intro E. injection E as <-. destruct (H3 y) as [->| ->]; auto.
Qed.

Ltac char_cases := intros; repeat match goal with
  | |- context [alpha ?c] => destruct (alpha c) eqn:?
  | |- context [digit ?c] => destruct (digit c) eqn:?
  | |- context [?c =? ?d] => destruct (Z.eqb_spec c d)
  end; cbn [orb]; auto.

Lemma id_char_facts :
  (forall c, id_char (clean_id_char c)) /\ (forall c, id_char c -> clean_id_char c = c) /\
  (forall c, clean_id_char c = 95 \/ clean_id_char c = c).
Proof.
  unfold id_char, clean_id_char. split; [|split]; intro c; pose proof (alpha_iff c) as A; pose proof (digit_iff c) as D;
    char_cases; try tauto; exfalso; intuition discriminate.
Qed.
Lemma name_char_facts :
  (forall c, name_char (clean_name_char c)) /\ (forall c, name_char c -> clean_name_char c = c) /\
  (forall c, clean_name_char c = 95 \/ clean_name_char c = c).
Proof.
  unfold name_char, clean_name_char. split; [|split]; intro c; pose proof (alpha_iff c) as A; pose proof (digit_iff c) as D;
    char_cases; try tauto; exfalso; intuition discriminate.
Qed.
Lemma enode_char_facts :
  (forall c, enode_char (clean_enode_char c)) /\ (forall c, enode_char c -> clean_enode_char c = c) /\
  (forall c, clean_enode_char c = 95 \/ clean_enode_char c = c).
Proof.
  unfold enode_char, clean_enode_char. split; [|split]; intro c; pose proof (alpha_iff c) as A; pose proof (digit_iff c) as D;
    char_cases; try tauto; exfalso; intuition discriminate.
Qed.

Lemma limited_correct : forall (other : Z -> Z) (ok : Z -> Prop),
  (forall c, ok (other c)) /\ (forall c, ok c -> other c = c) /\ (forall c, other c = 95 \/ other c = c) ->
  cleaner_correct (fun s => clean_with other (firstn MAX_ID_LENGTH s)) ok (Some 512%nat).
Proof.
  intros other ok (H1 & H2 & H3) s Hs.
  assert (Hf : firstn MAX_ID_LENGTH s <> []) by (destruct s; [congruence|discriminate]).
  destruct (clean_with_correct other ok H1 H2 H3 _ Hf) as (L1 & L2 & L3 & L4).
  assert (Hl : List.length (clean_with other (firstn MAX_ID_LENGTH s)) = Nat.min 512 (List.length s))
    by (rewrite L2; apply firstn_length).
  split; [exact L1|]. split; [exact Hl|]. split; [|split].
  - intros H Hle. rewrite firstn_all2 in * by exact Hle. apply L3. exact H.
  - set (t := clean_with other (firstn MAX_ID_LENGTH s)) in *.
    rewrite (firstn_all2 t) by (rewrite Hl; apply Nat.le_min_l).
    assert (Ht : t <> []) by (intro E; rewrite E in L1; exact L1).
    destruct (clean_with_correct other ok H1 H2 H3 _ Ht) as (_ & _ & M3 & _). apply M3. exact L1.
  - intros i c E. destruct (L4 i c E) as [->|E2]; auto. right. revert E2. clear.
    revert i s. induction MAX_ID_LENGTH as [|n IH]; intros i s; [destruct i; discriminate|].
    destruct s as [|x s], i as [|i]; cbn; auto.
Qed.

(** Everything else holds, for every non-empty string: the result is legal, has the expected length, is the
    string itself when that is legal and short enough, cleaning twice is cleaning once, and no character is
    changed into anything but an underscore. *)
Theorem C16_clean_partial :
  cleaner_correct CleanId id_char (Some 512%nat) /\
  cleaner_correct CleanSubId name_char (Some 512%nat) /\
  cleaner_correct CleanName name_char (Some 512%nat) /\
  cleaner_correct CleanENodeName enode_char None.
Proof.
  split; [|split; [|split]].
  - apply (limited_correct clean_id_char id_char), id_char_facts.
  - apply (limited_correct clean_name_char name_char), name_char_facts.
  - apply (limited_correct clean_name_char name_char), name_char_facts.
  - intros s Hs. destruct enode_char_facts as (H1 & H2 & H3).
    destruct (clean_with_correct clean_enode_char enode_char H1 H2 H3 s Hs) as (L1 & L2 & L3 & L4).
    split; [exact L1|]. split; [exact L2|]. split; [auto|]. split; [|exact L4].
    assert (Ht : clean_with clean_enode_char s <> []) by (intro E; rewrite E in L1; exact L1).
    destruct (clean_with_correct clean_enode_char enode_char H1 H2 H3 _ Ht) as (_ & _ & M3 & _). apply M3. exact L1.
Qed.
Print Assumptions C16_clean_partial.

Example C16_demo :
  CleanId (tx "3d mesh.v-2") = tx "_d_mesh.v-2" /\ CleanSubId (tx "3d mesh.v-2") = tx "_d_mesh_v-2" /\
  CleanENodeName (tx "3d mesh.v-2") = tx "_d_mesh_v_2" /\ CleanName [200; 65; 255] = [95; 65; 95].
Proof. repeat split. Qed.
