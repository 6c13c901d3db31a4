(** Property C14: the unique-string map. *)
From Coq Require Import List ZArith Bool Lia String Ascii.
From Verif Require Import TextModel UniqueSpec UniqueModel UniqueProofs.
Import ListNotations.
Local Open Scope Z_scope.

Definition A : list Z := tx "a".

(** Full statement refuted.
    - two different strings stand for the same entry: inserting "a" makes "a4294967295" contained, and
      erasing "a01" removes "a1";
    - a string that is already contained can be handed out. *)
Theorem C14_unique_map_refuted :
  (exists m s t, t <> fst (insert m s) /\ contains (snd (insert m s)) t <> contains m t) /\
  (exists h s t, t <> s /\ contains (erase (run h) s) t <> contains (run h) t) /\
  (exists h s, contains (run h) (fst (insert (run h) s)) = true).
Proof.
  split; [|split].
  - exists [], A, (tx "a4294967295"). split; vm_compute; discriminate.
  - exists [Insert (tx "a1")], (tx "a01"), (tx "a1"). split; vm_compute; discriminate.
  - exists [Insert A; Insert (tx "a4294967294")], A. vm_compute. reflexivity.
Qed.
Print Assumptions C14_unique_map_refuted.

(** What holds.  After every history of insertions of strings whose final number is below 10^9 and erasures
    of strings whose final number is below 2^32-1, fewer than 3*10^9 calls in all:
    - insert hands out a string that was not contained, which is contained afterwards; it is the wanted
      string if that was free, and otherwise the wanted base name with another number;
    - the membership of every other string (with a final number below 2^32-1) is unchanged, where "other"
      is up to leading zeros of the final number;
    - erase removes the string and changes nothing else, in the same sense;
    - for strings without leading zeros, "the same up to leading zeros" is equality. *)
Theorem C14_unique_map_partial : forall h,
  (forall s, In (Insert s) h -> modest 1000000000 s) ->
  (forall s, In (Erase s) h -> modest 4294967295 s) ->
  Z.of_nat (List.length h) < 3000000000 ->
  let m := run h in
  (forall s, modest 1000000000 s ->
     let '(s', m') := insert m s in
     contains m s' = false /\ contains m' s' = true /\
     (contains m s = false -> s' = s) /\
     (exists p ds es, parts s p ds /\ parts s' p es) /\
     (no_leading_zero s -> no_leading_zero s') /\
     (forall t, modest 4294967295 t -> ~ same_name t s' -> contains m' t = contains m t)) /\
  (forall s, modest 4294967295 s ->
     contains (erase m s) s = false /\
     (forall t, modest 4294967295 t -> ~ same_name t s -> contains (erase m s) t = contains m t)) /\
  (forall s t, no_leading_zero s -> no_leading_zero t -> same_name s t -> s = t).
Proof.
  intros h Hi He Hl m.
  assert (Hm : map_ok (1000000000 + Z.of_nat (List.length h)) m).
  { apply run_ok; [apply map_ok_nil|lia| |unfold NO_SUFFIX; lia].
    apply Forall_forall. intros [s|s] H; cbn; auto. }
  split; [|split; [|exact same_name_eq]].
  - intros s Hs.
    assert (Hs' : modest (1000000000 + Z.of_nat (List.length h)) s) by (eapply modest_le; [exact Hs|lia]).
    pose proof (insert_step _ m s Hm Hs' ltac:(unfold NO_SUFFIX; lia)) as St.
    destruct (insert m s) as [s' m']. destruct St as (S1 & S2 & S3 & S4 & S5 & S6 & S7).
    split; [|split; [|split; [|split; [|split]]]]; auto.
    + destruct S7 as (p & ds & es & P & Q & _). exists p, ds, es. auto.
    + intro Hz. destruct (contains m s) eqn:E; [|rewrite (S5 eq_refl); exact Hz].
      destruct S7 as (p & ds & es & P & Q & H). destruct (H eq_refl) as [He' Hne].
      intros q fs Q' gs Eg. destruct (parts_unique _ _ _ _ _ Q Q') as [<- <-]. subst es.
      pose proof (number_nonneg _ (proj1 (proj2 Q))) as Hnn.
      pose proof (TextProofs.dec_decimal (number (48 :: gs)) Hnn) as D. rewrite <- He' in D.
      clear - D. inversion D as [d Hd E1 E2|n t d Ht Hn Hd E1 E2]; [congruence|].
      destruct t as [|c t]; [exfalso; apply TextProofs.decimal_value in Ht; destruct Ht as (_ & Ht & _); congruence|].
      exfalso. injection E2 as Ec Et. subst c gs.
      assert (X : forall n t, TextSpec.decimal n t -> 0 < n -> forall r, t = 48 :: r -> False).
      { clear. induction 1 as [d Hd|n t d Ht IH Hn Hd]; intros Hp r E.
        - apply (f_equal (hd 0)) in E. cbn [hd] in E. lia.
        - destruct t as [|c t].
          + apply TextProofs.decimal_value in Ht. destruct Ht as (_ & Ht & _). congruence.
          + apply (f_equal (hd 0)) in E. cbn [hd app] in E. subst c. apply (IH Hn t eq_refl). }
      apply (X _ _ Ht Hn t eq_refl).
    + intros t Ht Hd. apply S6. intro E. apply Hd. apply key_same; auto.
      eapply modest_le; [exact S2|lia].
  - intros s Hs. destruct (erase_step _ m s Hm) as (E1 & E2 & E3). split; auto.
    intros t Ht Hd. apply E3. intro E. apply Hd. apply key_same; auto.
Qed.
Print Assumptions C14_unique_map_partial.

(** Consequence: the strings handed out by any sequence of insertions are pairwise different names. *)
Theorem C14_handed_out_distinct_partial : forall ss,
  (forall s, In s ss -> modest 1000000000 s) -> Z.of_nat (List.length ss) < 3000000000 ->
  NoDup (insert_all [] ss).
Proof.
  intros ss Hs Hl. destruct (insert_all_fresh ss [] 1000000000 (map_ok_nil _)) as [H _]; try lia.
  - apply Forall_forall. auto.
  - unfold NO_SUFFIX. lia.
  - revert H. generalize (insert_all [] ss). induction l as [|x l IH]; cbn; intro H; constructor.
    + intro Hin. inversion H as [|? ? H1 _]; subst. apply H1. apply in_map. auto.
    + apply IH. inversion H; auto.
Qed.
Print Assumptions C14_handed_out_distinct_partial.

(** A concrete history: the first clash gives "mesh1", then "mesh2"; a taken "mesh1" gives the number after
    the largest one. *)
Example C14_demo :
  insert_all [] [tx "mesh"; tx "mesh"; tx "mesh"; tx "mesh7"; tx "mesh1"; tx "box2"; tx "mesh"] =
    [tx "mesh"; tx "mesh1"; tx "mesh2"; tx "mesh7"; tx "mesh8"; tx "box2"; tx "mesh9"] /\
  modest 1000000000 (tx "mesh7") /\ no_leading_zero (tx "mesh7").
Proof.
  split; [reflexivity|].
  assert (P : parts (tx "mesh7") (tx "mesh") (tx "7")).
  { split; [reflexivity|]. split; [repeat constructor; cbn; intro; discriminate|].
    intros q c H. change (tx "mesh") with (tx "mes" ++ [104]) in H. apply app_inj_tail in H.
    destruct H as [_ <-]. unfold is_digit. lia. }
  split.
  - apply (modest_intro _ _ _ _ P). reflexivity.
  - intros q es Q. destruct (parts_unique _ _ _ _ _ P Q) as [<- <-]. intros gs E. discriminate.
Qed.
