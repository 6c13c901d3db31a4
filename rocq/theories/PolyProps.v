(** C32: faces, holes and indices of a polygon set; C68: indices when a source is released. *)
From Coq Require Import List Arith Bool Lia Sorted.
From Verif Require Import PolyModel PolySpec PolyProofs.
Import ListNotations.

(** *** Queries *)
(** For every face of every polygon set with or without holes. *)
Theorem C32_queries : forall p F i f, represents p F -> nth_error F i = Some f ->
  below_face_count p i = true /\
  GetFaceVertexOffset p i = size (firstn i F) /\ GetFaceVertexCount p i = Some (sum (corners f)) /\
  GetHoleCount p i = length (snd f) /\ i + GetHoleCountBefore p i = length (entries (firstn i F)).
Proof.
  intros p F i f R N. apply nth_error_split in N as (A & B & -> & <-).
  split; [rewrite (face_count p _ _ R); apply Nat.ltb_lt; rewrite app_length; cbn; lia|].
  split; [|split; [|split]].
  - rewrite (offset_spec p A f B R). now rewrite firstn_app, Nat.sub_diag, firstn_O, app_nil_r, firstn_all.
  - apply (count_spec p A f B R).
  - apply (hole_count p A f B R).
  - apply (hole_before p _ _ R). rewrite app_length. cbn. lia.
Qed.
Print Assumptions C32_queries.
(** Every ordered list of holes behind the first entry describes a list of faces. *)
Theorem C32_representable : forall p, StronglySorted lt (holes p) -> (forall h, In h (holes p) -> 0 < h < length (counts p)) ->
  exists F, represents p F.
Proof.
  intros [cs cap hs ins]. unfold represents. cbn. intros S B. clear cap ins.
  assert (G : forall n cs k hs, length cs <= n -> StronglySorted lt hs -> (forall h, In h hs -> k < h < k + length cs) ->
     exists F, cs = entries F /\ hs = hole_positions k F).
  2:{ destruct (G (length cs) cs 0 hs) as (F & E); auto. exists F; auto. }
  clear. induction n as [|n IH]; intros cs k hs L S B.
  - destruct cs; [|cbn in L; lia]. exists []. destruct hs as [|h hs]; auto. specialize (B h (or_introl eq_refl)). cbn in B. lia.
  - destruct cs as [|c cs]; [exists []; destruct hs as [|h hs]; auto; specialize (B h (or_introl eq_refl)); cbn in B; lia|].
    (* take the holes directly behind *)
    assert (T : forall cs k hs c, StronglySorted lt hs -> (forall h, In h hs -> k < h < k + 1 + length cs) -> length cs <= n ->
       exists ts F, c :: cs = (c :: ts) ++ entries F /\ hs = seq (k + 1) (length ts) ++ hole_positions (k + 1 + length ts) F).
    { clear cs k hs c L S B. induction cs as [|d cs ICs]; intros k hs c S B L.
      - exists [], []. destruct hs as [|h hs]; auto. specialize (B h (or_introl eq_refl)). cbn in B. lia.
      - destruct hs as [|h hs].
        + exists [], (map (fun x => (x, [])) (d :: cs)). split.
          * cbn [app]. f_equal. generalize (d :: cs). induction l as [|x l I]; cbn [map]; auto. rewrite entries_cons. cbn. now f_equal.
          * cbn [length seq app]. generalize (d :: cs) (k + 1 + 0). induction l as [|x l I]; intro m; cbn; auto.
        + destruct (Nat.eq_dec h (k + 1)) as [->|Ne].
          * inversion S as [|? ? S1 FA]; subst. destruct (ICs (k + 1) hs d) as (ts & F & E1 & E2); auto.
            { intros h Hh. rewrite Forall_forall in FA. specialize (FA h Hh). specialize (B h (or_intror Hh)). cbn in B. lia. }
            { cbn in L. lia. }
            exists (d :: ts), F. split; [cbn in *; now f_equal|]. rewrite E2. cbn [length seq app]. f_equal. f_equal; f_equal; lia.
          * destruct (IH (d :: cs) (k + 1) (h :: hs)) as (F & E1 & E2); auto.
            { intros x Hx. specialize (B x Hx) as Bx. cbn in *. assert (h <= x) by (destruct Hx as [->|Hx]; [lia|]; inversion S as [|? ? _ FA]; rewrite Forall_forall in FA; specialize (FA x Hx); lia).
              specialize (B h (or_introl eq_refl)). lia. }
            exists [], F. cbn [length seq app]. rewrite Nat.add_0_r. split; congruence. }
    destruct (T cs k hs c) as (ts & F & E1 & E2); auto.
    { intros h Hh. specialize (B h Hh). cbn in B. lia. }
    { cbn in L. lia. }
    exists ((c, ts) :: F). split; [rewrite entries_cons; exact E1 | exact E2].
Qed.
Print Assumptions C32_representable.
Example C32_queries_demo : let p := Polys [4; 3; 3; 5; 6; 3] 32 [1; 2; 5] [] in let F := [(4, [3; 3]); (5, []); (6, [3])] in
  represents p F /\ GetFaceVertexOffset p 2 = 15 /\ GetFaceVertexCount p 2 = Some 9 /\ GetHoleCount p 0 = 2 /\ GetHoleCountBefore p 1 = 2.
Proof. repeat split. Qed.

(** *** AddFace and AddHole *)
Lemma in_step_own p F : in_step p F -> forall x, In x (inputs p) -> owns x = true -> length (indices x) = size F.
Proof.
  intros H x I W. apply In_nth_error in I as [i N]. rewrite <- (get_owner _ _ _ N W). apply H. apply nth_error_Some. congruence.
Qed.
Lemma in_step_none p F : in_step p F -> size F = 0 -> forall x, In x (inputs p) -> indices x = [].
Proof.
  intros H Z x I. destruct (owns x) eqn:W; [|unfold owns in W; destruct (indices x); [auto | discriminate]].
  apply length_zero_iff_nil. now rewrite (in_step_own p F H x I W).
Qed.
(** A face of at least one corner.  The old faces must have a corner as well, unless there are none (see the refutation).
    The new indices are indeterminate. *)
Theorem C32_add_face_partial : forall p F d, represents p F -> in_step p F -> 0 < d -> (F = [] \/ 0 < size F) ->
  represents (AddFace p d) (F ++ [(d, [])]) /\ in_step (AddFace p d) (F ++ [(d, [])]) /\
  forall i, i < length (inputs p) -> get_indices (inputs (AddFace p d)) i = get_indices (inputs p) i ++ repeat None d.
Proof.
  intros p F d R St D Z. pose proof R as [C H].
  assert (R' : represents (AddFace p d) (F ++ [(d, [])])).
  { split; cbn [AddFace counts holes]; [rewrite C, entries_app; reflexivity|]. rewrite H, hp_app. cbn. now rewrite app_nil_r. }
  assert (G : length (inputs (AddFace p d)) = length (inputs p) /\ forall i, i < length (inputs p) -> get_indices (inputs (AddFace p d)) i = get_indices (inputs p) i ++ repeat None d).
  { cbn [AddFace inputs]. destruct Z as [->|Z].
    - rewrite C. cbn [entries flat_map]. change (entries []) with (@nil nat). cbn iota.
      assert (E0 : forall x, In x (inputs p) -> indices x = []) by (apply (in_step_none p []); auto).
      change (fun s i => if Nat.eqb (length (get_indices s i)) 0 then set_indices s i (repeat None d) else s) with (fresh_step d).
      destruct (fresh_loop d D (length (inputs p)) 0 (inputs p)) as (A & B & E); [auto | lia|]. split; [now apply frame_length in B|].
      intros i Hi. rewrite (get_none_owned (inputs p) i E0). cbn [app]. apply get_of_two; auto. apply E. left. lia.
    - assert (counts p <> []) by (rewrite C; intro E; unfold size in Z; rewrite E in Z; cbn in Z; lia). destruct (counts p) as [|c0 cr]; [congruence|].
      split; [now rewrite map_length|]. intros i Hi.
      assert (Em : map (fun x => if owns x then Input (offset x) (source x) (resize (indices x) (length (indices x) + d)) else x) (inputs p) =
                   map (amap (fun l => match l with [] => [] | _ => l ++ repeat None d end)) (inputs p)).
      { apply map_ext. intros [o s l]. unfold owns, amap, resize. cbn [indices offset source]. destruct l as [|a l]; auto. f_equal.
        rewrite firstn_all2 by lia. f_equal. f_equal. lia. }
      rewrite Em. rewrite get_map_keep; auto.
      + assert (length (get_indices (inputs p) i) = size F) by (apply St; auto). destruct (get_indices (inputs p) i); [cbn in *; lia | reflexivity].
      + intros x _. unfold owns, amap. cbn. destruct (indices x); reflexivity. }
  destruct G as [L G]. split; auto. split; auto. intros i Hi. rewrite L in Hi. rewrite (G i Hi), app_length, repeat_length, (St i Hi).
  rewrite size_app. assert (size [(d, [])] = d + 0) by reflexivity. lia.
Qed.
Print Assumptions C32_add_face_partial.
(** An entry behind the first face that is not a hole becomes a hole of the face before. *)
Theorem C32_add_hole : forall p F x, represents p F -> 0 < x < length (counts p) -> ~ In x (holes p) ->
  represents (AddHole p x) (join F x) /\ inputs (AddHole p x) = inputs p /\ size (join F x) = size F.
Proof.
  intros p F x R Hx N. pose proof R as [C H].
  assert (P : exists A f g r, F = A ++ f :: g :: r /\ x = length (entries (A ++ [f]))).
  { apply face_at_split. rewrite H in N. rewrite C in Hx. clear - Hx N.
    assert (Gen : forall F k x, k < x < k + length (entries F) -> ~ In x (hole_positions k F) -> face_at F (x - k)).
    { clear. induction F as [|f F IH]; intros k x B N; [rewrite entries_nil in B; cbn in B; lia|]. rewrite entries_cons, app_length in B. cbn [corners length] in B.
      assert (x >= k + 1 + length (snd f)).
      { destruct (le_lt_dec (k + 1 + length (snd f)) x); auto. exfalso. apply N. cbn. apply in_or_app. left. apply in_seq. lia. }
      destruct F as [|g F]; [rewrite entries_nil in B; cbn in B; lia|].
      destruct (Nat.eq_dec x (k + 1 + length (snd f))) as [->|Ne].
      - replace (k + 1 + length (snd f) - k) with (length (corners f)) by (cbn; lia). constructor.
      - replace (x - k) with (length (corners f) + (x - (k + 1 + length (snd f)))) by (cbn; lia). constructor. apply IH; [lia|].
        intro I. apply N. cbn [hole_positions]. apply in_or_app. now right. }
    replace x with (x - 0) by lia. apply Gen; auto. }
  destruct P as (A & f & g & r & -> & ->). rewrite join_split.
  assert (E : is_hole p (length (entries (A ++ [f]))) = false).
  { destruct (is_hole p _) eqn:E; auto. apply (is_hole_hp p _ _ R) in E. rewrite H in N. contradiction. }
  unfold AddHole. rewrite E. cbn [inputs]. split; [|split]; auto.
  - split; cbn; [now rewrite entries_join | now rewrite hp_join, H].
  - unfold size. now rewrite entries_join.
Qed.
Print Assumptions C32_add_hole.
Example C32_add_hole_demo : let p := AddHole (AddFace (AddFace (AddFace (Polys [] 32 [] [Input 0 0 []; Input 0 1 []; Input 1 2 []]) 4) 5) 3) 1 in
  represents p [(4, [5]); (3, [])] /\ length (get_indices (inputs p) 1) = 12 /\ length (get_indices (inputs p) 2) = 12 /\ holes p = [1].
Proof. repeat split. Qed.

(** *** RemoveFace *)
(** A list without the n entries from off on. *)
Definition without {X} (off n : nat) (l : list X) : list X := firstn off l ++ skipn (off + n) l.
Lemma without_length {X} off n (l : list X) : off + n <= length l -> length (without off n l) = length l - n.
Proof. intro H. unfold without. rewrite app_length, firstn_length, skipn_length. lia. Qed.
Lemma remove_indices_spec off n l : off + n <= length l -> remove_indices off n l = Some (without off n l).
Proof.
  intro H. unfold remove_indices, without. destruct (Nat.ltb_spec off (length l)).
  - destruct (Nat.ltb_spec (length l) n); [lia|]. f_equal. rewrite Nat.max_r by lia. unfold resize.
    assert (L : length (firstn off l ++ firstn (length l - n - off) (skipn (off + n) l) ++ skipn (length l - n) l) = length l).
    { rewrite !app_length, !firstn_length, !skipn_length. lia. }
    rewrite L. replace (length l - n - length l) with 0 by lia. cbn [repeat]. rewrite app_nil_r.
    rewrite app_assoc. rewrite firstn_app. rewrite firstn_all2 by (rewrite app_length, !firstn_length, !skipn_length; lia).
    replace (length l - n - length (firstn off l ++ firstn (length l - n - off) (skipn (off + n) l))) with 0 by (rewrite app_length, !firstn_length, !skipn_length; lia).
    cbn [firstn]. rewrite app_nil_r. f_equal. apply firstn_all2. rewrite skipn_length. lia.
  - assert (off = length l) by lia. assert (n = 0) by lia. subst. now rewrite Nat.add_0_r, firstn_all, skipn_all, app_nil_r.
Qed.
Lemma remove_all_spec off n F : forall ins, (forall x, In x ins -> owns x = true -> length (indices x) = size F) -> off + n <= size F ->
  remove_all off n ins = Some (map (amap (without off n)) ins).
Proof.
  induction ins as [|x ins IH]; intros H L; cbn; auto. rewrite IH; auto; [|intros; apply H; auto; now right].
  specialize (H x (or_introl eq_refl)). unfold amap. destruct (owns x) eqn:W.
  - rewrite remove_indices_spec; auto. rewrite H; auto.
  - unfold owns in W. destruct (indices x) eqn:E; [|discriminate]. unfold without. now rewrite firstn_nil, skipn_nil.
Qed.
Lemma size_split A f B : size (A ++ f :: B) = size A + sum (corners f) + size B.
Proof. rewrite size_app. unfold size at 2. rewrite entries_cons, sum_app. unfold size. lia. Qed.
(** For every face of every polygon set in step with its indices: the right indices are removed from every input, and
    this is what happens to the list of counts. *)
Theorem C32_remove_face : forall p F i f, represents p F -> in_step p F -> nth_error F i = Some f ->
  let pos := length (entries (firstn i F)) in let c := firstn pos (counts p) ++ skipn (length (snd f) + 1) (counts p) in
  (allocated p < length c -> RemoveFace p i = None) /\
  (length c <= allocated p -> exists p', RemoveFace p i = Some p' /\ counts p' = c /\ holes p' = holes p /\
     length (inputs p') = length (inputs p) /\
     forall k, k < length (inputs p) -> get_indices (inputs p') k = without (size (firstn i F)) (sum (corners f)) (get_indices (inputs p) k)).
Proof.
  intros p F i f R St N pos c. destruct (C32_queries p F i f R N) as (Q1 & Q2 & Q3 & Q4 & Q5).
  pose proof R as [C H]. apply nth_error_split in N as N2. destruct N2 as (A & B & EF & Li).
  assert (Fi : firstn i F = A) by (rewrite EF, <- Li, firstn_app, Nat.sub_diag, firstn_O, app_nil_r; apply firstn_all).
  assert (Sz : size F = size A + sum (corners f) + size B) by (rewrite EF; apply size_split).
  assert (Lc : length (counts p) = length (entries A) + (S (length (snd f)) + length (entries B))) by (rewrite C, EF, entries_app, app_length, entries_cons, app_length; reflexivity).
  assert (Ra : remove_all (size (firstn i F)) (sum (corners f)) (inputs p) = Some (map (amap (without (size (firstn i F)) (sum (corners f)))) (inputs p))).
  { apply remove_all_spec with F; [now apply in_step_own | rewrite Fi; lia]. }
  assert (Er : erase_counts (allocated p) (counts p) pos (length (snd f) + 1) = if allocated p <? length c then None else Some c).
  { unfold erase_counts. assert (Hp : pos = length (entries A)) by (unfold pos; now rewrite Fi).
    destruct (Nat.ltb_spec pos (length (counts p))); [|lia]. cbn [negb].
    destruct (Nat.ltb_spec 0 (length (snd f) + 1)); [|lia]. destruct (Nat.leb_spec (length (snd f) + 1) (length (counts p))); [|lia]. reflexivity. }
  assert (E : RemoveFace p i = if allocated p <? length c then None else Some (Polys c (allocated p) (holes p) (map (amap (without (size (firstn i F)) (sum (corners f)))) (inputs p)))).
  { unfold RemoveFace. rewrite Q1, Q2, Q3, Q4, Q5, Ra. fold pos. rewrite Er. destruct (allocated p <? length c); reflexivity. }
  rewrite E. split; intro L.
  - apply Nat.ltb_lt in L. now rewrite L.
  - destruct (Nat.ltb_spec (allocated p) (length c)); [lia|]. eexists. split; [reflexivity|]. cbn [counts holes inputs]. split; auto. split; auto. split; [apply map_length|].
    intros k Hk. destruct (Nat.eq_dec (size F) (sum (corners f))) as [Z|Z].
    + assert (W : forall x, In x (inputs p) -> without (size (firstn i F)) (sum (corners f)) (indices x) = []).
      { intros x I. apply length_zero_iff_nil. destruct (owns x) eqn:W.
        - rewrite without_length; rewrite (in_step_own p F St x I W); rewrite ?Fi; lia.
        - unfold owns in W. destruct (indices x); [|discriminate]. unfold without. now rewrite firstn_nil, skipn_nil. }
      rewrite get_none_owned. 2:{ intros y I. apply in_map_iff in I as (x & <- & I). cbn. auto. }
      symmetry. apply length_zero_iff_nil. rewrite without_length; rewrite (St k Hk), ?Fi; lia.
    + apply get_map_keep; [unfold without; now rewrite firstn_nil, skipn_nil|].
      intros x I. destruct (owns x) eqn:W.
      * unfold owns, amap. cbn [indices]. destruct (without (size (firstn i F)) (sum (corners f)) (indices x)) eqn:Ew; auto. exfalso.
        pose proof (without_length (size (firstn i F)) (sum (corners f)) (indices x)) as Lw. rewrite Ew, (in_step_own p F St x I W), Fi in Lw. cbn [length] in Lw. lia.
      * unfold owns in *. cbn. destruct (indices x); [|discriminate]. unfold without. now rewrite firstn_nil, skipn_nil.
Qed.
Print Assumptions C32_remove_face.
Example C32_remove_face_demo : let p := Polys [3; 4; 3] 32 [] [Input 0 0 (map Some (seq 0 10)); Input 0 1 []] in
  exists p', RemoveFace p 2 = Some p' /\ counts p' = [3; 4; 4; 3] /\ get_indices (inputs p') 1 = map Some (seq 0 7).
Proof. eexists. split; [vm_compute; reflexivity | split; reflexivity]. Qed.

Lemma hp_nil F : forall a b, hole_positions a F = [] -> hole_positions b F = [].
Proof.
  induction F as [|g F IH]; cbn [hole_positions]; intros a b H; auto. apply app_eq_nil in H as [H1 H2]. destruct (snd g); [|discriminate]. cbn [length seq app] in *. eapply IH; eauto.
Qed.
(** The full claim holds for the first face of a set without holes. *)
Theorem C32_remove_first_partial : forall p F f, represents p (f :: F) -> in_step p (f :: F) -> holes p = [] -> length (counts p) <= allocated p ->
  exists p', RemoveFace p 0 = Some p' /\ represents p' F /\ in_step p' F /\
    forall k, k < length (inputs p) -> get_indices (inputs p') k = skipn (fst f) (get_indices (inputs p) k).
Proof.
  intros p F f R St Hn Cap. destruct (C32_remove_face p (f :: F) 0 f R St eq_refl) as [_ G]. pose proof R as [C H].
  cbn [firstn] in G. rewrite entries_nil in G. cbn [length firstn app] in G.
  assert (Nf : snd f = []).
  { rewrite Hn in H. cbn in H. destruct (snd f); [auto | discriminate]. }
  rewrite Nf in G. cbn [length Nat.add] in G. destruct G as (p' & E & Ec & Eh & El & Ei).
  - rewrite skipn_length. lia.
  - exists p'. split; auto. assert (Co : corners f = [fst f]) by (unfold corners; now rewrite Nf).
    assert (Ei2 : forall k, k < length (inputs p) -> get_indices (inputs p') k = skipn (fst f) (get_indices (inputs p) k)).
    { intros k Hk. rewrite Ei by auto. unfold without. rewrite Co. change (size []) with 0. cbn. now rewrite Nat.add_0_r. }
    split; [|split]; auto.
    + split; [rewrite Ec, C, entries_cons, Co; reflexivity|]. rewrite Eh, Hn. rewrite Hn in H. cbn [hole_positions] in H. rewrite Nf in H. cbn [length seq app] in H.
      symmetry in H. symmetry. exact (hp_nil F _ 0 H).
    + intros k Hk. rewrite El in Hk. rewrite Ei2, skipn_length, (St k Hk) by auto. unfold size. rewrite entries_cons, Co. cbn. fold (sum (entries F)). lia.
Qed.
Print Assumptions C32_remove_first_partial.
Example C32_remove_first_demo : let p := Polys [3; 4] 32 [] [Input 0 0 (map Some (seq 0 7)); Input 0 1 []] in
  exists p', RemoveFace p 0 = Some p' /\ represents p' [(4, [])] /\ get_indices (inputs p') 1 = map Some (seq 3 4).
Proof. eexists. split; [vm_compute; reflexivity | repeat split]. Qed.

(** Refutation 1: in a set without holes, removing any other face than the first removes no entry: the list of counts keeps
    its length (face 1) or grows, possibly behind its memory. *)
Theorem C32_remove_other_refuted : forall p F i, represents p F -> in_step p F -> holes p = [] -> 0 < i < length F ->
  match RemoveFace p i with Some p' => length (counts p') = length (counts p) + i - 1 | None => allocated p < length (counts p) + i - 1 end.
Proof.
  intros p F i R St Hn Hi. destruct (nth_error F i) as [f|] eqn:N; [|apply nth_error_None in N; lia].
  destruct (C32_remove_face p F i f R St N) as [G1 G2]. destruct R as [C H]. pose proof (hp_length F 0) as HL. rewrite Hn in H. rewrite <- H in HL. cbn in HL.
  assert (Al : forall G k, hole_positions k G = [] -> (forall g, In g G -> snd g = []) /\ length (entries G) = length G).
  { clear. induction G as [|g G IH]; intros k E; [split; [intros ? [] | reflexivity]|]. cbn in E. apply app_eq_nil in E as [E1 E2].
    assert (snd g = []) by (destruct (snd g); [auto | discriminate]). destruct (IH _ E2) as [I1 I2]. split; [intros x [<-|]; auto|]. rewrite entries_cons. unfold corners. rewrite H. cbn. lia. }
  symmetry in H. destruct (Al _ _ H) as [A1 A2]. rewrite (A1 f (nth_error_In _ _ N)) in *. cbn [length Nat.add] in *.
  assert (Pi : length (entries (firstn i F)) = i).
  { rewrite <- (firstn_skipn i F) in H. rewrite hp_app in H. apply app_eq_nil in H as [H _]. apply Al in H as [_ H]. rewrite firstn_length in H. lia. }
  rewrite Pi in *. assert (Lc : length (firstn i (counts p) ++ skipn 1 (counts p)) = length (counts p) + i - 1).
  { rewrite app_length, firstn_length, skipn_length, C. lia. }
  rewrite Lc in *. destruct (le_lt_dec (length (counts p) + i - 1) (allocated p)) as [L|L].
  - destruct (G2 L) as (p' & -> & -> & _). exact Lc.
  - now rewrite (G1 L).
Qed.
Print Assumptions C32_remove_other_refuted.
Example C32_remove_other_demo : RemoveFace (Polys [3; 3] 32 [] [Input 0 0 (map Some (seq 0 6))]) 1 = Some (Polys [3; 3] 32 [] [Input 0 0 (map Some (seq 0 3))]) /\
  RemoveFace (Polys [3; 4; 5] 3 [] []) 2 = None.
Proof. split; reflexivity. Qed.
(** Refutation 2: the list of holes is not updated, so a set with holes is wrong after the removal of its first face. *)
Theorem C32_stale_holes_refuted : forall p F f p', represents p (f :: F) -> in_step p (f :: F) -> holes p <> [] -> RemoveFace p 0 = Some p' ->
  ~ represents p' F.
Proof.
  intros p F f p' R St Hn Rm [_ H']. destruct (C32_remove_face p (f :: F) 0 f R St eq_refl) as [G1 G2]. pose proof R as [C H].
  set (c := firstn _ _ ++ _) in *. destruct (le_lt_dec (length c) (allocated p)) as [L|L]; [|rewrite (G1 L) in Rm; discriminate].
  destruct (G2 L) as (q & E & _ & Eh & _). rewrite E in Rm. injection Rm as <-. rewrite Eh, H in H'. rewrite H in Hn. clear - H' Hn. cbn [hole_positions] in H', Hn.
  assert (Lk : forall G a b, length (hole_positions a G) = length (hole_positions b G)).
  { clear. induction G as [|g G IH]; intros a b; cbn; auto. rewrite !app_length, !seq_length. now rewrite (IH _ (b + 1 + length (snd g))). }
  destruct (snd f) as [|h hs].
  - cbn [length seq app] in *. assert (Sh : forall G a b, hole_positions a G = hole_positions b G -> hole_positions a G <> [] -> a = b).
    { clear. induction G as [|g G IH]; intros a b E N; cbn in *; [congruence|]. destruct (snd g) as [|x xs]; cbn in *.
      - apply IH in E; auto. lia.
      - injection E as E _. lia. }
    apply Sh in H'; auto. discriminate.
  - apply (f_equal (@length nat)) in H'. rewrite app_length, seq_length in H'. rewrite (Lk F _ 0) in H'. cbn in H'. lia.
Qed.
Print Assumptions C32_stale_holes_refuted.
Example C32_stale_holes_demo : exists p', RemoveFace (Polys [3; 4; 3] 32 [2] []) 0 = Some p' /\ counts p' = [4; 3] /\ holes p' = [2] /\ GetFaceVertexCount p' 0 = Some 4.
Proof. eexists. split; [vm_compute; reflexivity | repeat split]. Qed.
(** Refutation 3: after a first face without corners no input gets indices any more. *)
Theorem C32_empty_face_refuted : forall cap ins d, (forall x, In x ins -> indices x = []) ->
  forall i, get_indices (inputs (AddFace (AddFace (Polys [] cap [] ins) 0) d)) i = [].
Proof.
  intros cap ins d H i. cbn [AddFace counts inputs holes app].
  assert (E : forall l (s : list (input (option nat))), (forall x, In x s -> indices x = []) ->
     forall x, In x (fold_left (fun s i => if Nat.eqb (length (get_indices s i)) 0 then set_indices s i (repeat None 0) else s) l s) -> indices x = []).
  { induction l as [|k l IH]; cbn; intros s Hs; auto. apply IH. intros x I. destruct (Nat.eqb _ 0); auto. unfold set_indices in I.
    destruct (find_indices s k) as [j|]; auto. destruct (nth_error s j); auto. apply set_nth_In in I as [->|I]; auto. }
  specialize (E (seq 0 (length ins)) ins H). apply get_none_owned. intros x I. apply in_map_iff in I as (y & <- & I). specialize (E y I). destruct (owns y) eqn:W; auto.
  unfold owns in W. rewrite E in W. discriminate.
Qed.
Print Assumptions C32_empty_face_refuted.

(** *** Histories *)
Inductive pop := PFace (d : nat) | PHole (x : nat) | PRemove.
(** What is allowed: faces with corners, holes that name a face, and removal of the first face while there are no holes. *)
Definition allowed (F : list face) (o : pop) : Prop :=
  match o with PFace d => 0 < d | PHole x => 0 < x < length (entries F) /\ ~ In x (hole_positions 0 F) | PRemove => F <> [] /\ hole_positions 0 F = [] end.
Definition meaning (F : list face) (o : pop) : list face :=
  match o with PFace d => F ++ [(d, [])] | PHole x => join F x | PRemove => tl F end.
Definition pstep (p : polys) (o : pop) : option polys :=
  match o with PFace d => Some (AddFace p d) | PHole x => Some (AddHole p x) | PRemove => RemoveFace p 0 end.
Fixpoint prun (p : polys) (l : list pop) : option polys :=
  match l with [] => Some p | o :: r => match pstep p o with Some q => prun q r | None => None end end.
Fixpoint allowed_all (F : list face) (l : list pop) : Prop :=
  match l with [] => True | o :: r => allowed F o /\ allowed_all (meaning F o) r end.
Lemma erase_cap p i p' : RemoveFace p i = Some p' -> length (counts p) <= allocated p -> length (counts p') <= allocated p'.
Proof.
  unfold RemoveFace. destruct (below_face_count p i); [|intros [= <-]; auto]. destruct (GetFaceVertexCount p i); [|discriminate]. destruct (remove_all _ _ _); [|discriminate].
  unfold erase_counts. destruct (negb _); [intros [= <-]; auto|]. destruct (negb _); [intros [= <-]; auto|].
  match goal with |- context [if ?a <? ?b then _ else _] => destruct (Nat.ltb_spec a b) end; [discriminate|]. intros [= <-] _. cbn. lia.
Qed.
(** Missing: removing other faces, or with holes present, and faces without corners (refuted above). *)
Theorem C32_histories_partial : forall ins l, (forall x, In x ins -> indices x = []) -> allowed_all [] l ->
  exists p, prun (Polys [] 32 [] ins) l = Some p /\ represents p (fold_left meaning l []) /\ in_step p (fold_left meaning l []).
Proof.
  intros ins l H A.
  assert (G : forall l F p, represents p F -> in_step p F -> (forall c, In c (entries F) -> 0 < c) -> length (counts p) <= allocated p -> allowed_all F l ->
     exists q, prun p l = Some q /\ represents q (fold_left meaning l F) /\ in_step q (fold_left meaning l F)).
  { clear. induction l as [|o l IH]; intros F p R St Pc Cap Al; cbn; [exists p; auto|]. destruct Al as [A1 A2].
    destruct o as [d|x|]; cbn [pstep meaning allowed] in *.
    - assert (Z : F = [] \/ 0 < size F).
      { destruct F as [|f F]; auto. right. unfold size. rewrite entries_cons. cbn. specialize (Pc (fst f)). rewrite entries_cons in Pc. cbn in Pc. assert (0 < fst f) by auto. lia. }
      destruct (C32_add_face_partial p F d R St A1 Z) as (R1 & S1 & _). apply IH; auto.
      + intros c I. rewrite entries_app in I. apply in_app_iff in I as [I|I]; auto. cbn in I. destruct I as [<-|[]]; auto.
      + cbn [AddFace counts allocated]. rewrite app_length. cbn. unfold grow. destruct (Nat.eqb_spec (length (counts p)) (allocated p)); [destruct (31 <? _); lia | lia].
    - pose proof R as [C Hh]. rewrite <- C, <- Hh in A1. destruct (C32_add_hole p F x R) as (R1 & I1 & Z1); try tauto. apply IH; auto.
      + intros i Hi. rewrite I1 in *. rewrite Z1. auto.
      + destruct R1 as [C1 _]. rewrite <- C1. unfold AddHole. destruct (is_hole p x); cbn; rewrite C; auto.
      + unfold AddHole. destruct (is_hole p x); auto.
    - destruct A1 as [Ne Nh]. destruct F as [|f F]; [congruence|]. pose proof R as [C Hh].
      destruct (C32_remove_first_partial p F f R St) as (q & E & R1 & S1 & _); auto; [congruence|]. rewrite E. apply IH; auto.
      + intros c I. apply Pc. rewrite entries_cons. apply in_or_app. now right.
      + eapply erase_cap; eauto. }
  apply G; auto.
  - split; reflexivity.
  - intros i Hi. rewrite get_none_owned; auto.
  - intros c [].
  - cbn. lia.
Qed.
Print Assumptions C32_histories_partial.
Example C32_histories_demo : allowed_all [] [PFace 4; PFace 3; PRemove; PFace 5; PHole 1; PFace 3] /\
  fold_left meaning [PFace 4; PFace 3; PRemove; PFace 5; PHole 1; PFace 3] [] = [(3, [5]); (3, [])].
Proof.
  split; [|reflexivity]. cbn [allowed_all allowed meaning app tl join]. repeat split; try (intro; discriminate). all: vm_compute; try tauto; try lia. all: try (intros [H|H]; [discriminate|tauto]).
Qed.

(** *** C68: the indices shared by the inputs at an offset when the source of their owner is released *)
(** Refuted: the owner is usually the first input at its offset, and then the indices are lost for all of them. *)
Theorem C68_indices_lost_refuted : forall (ins : list (input (option nat))) i x, nth_error ins i = Some x -> owns x = true -> first_at ins (offset x) = Some i ->
  (forall j y, nth_error ins j = Some y -> j <> i -> offset y = offset x -> owns y = false) ->
  forall j y, nth_error ins j = Some y -> offset y = offset x -> get_indices ins j = indices x /\ get_indices (source_released ins i) j = [].
Proof.
  intros ins i x N W Fa U j y Nj Oj. assert (Li : i < length ins) by (apply nth_error_Some; congruence).
  assert (E : source_released ins i = set_nth ins i (Input (offset x) (source x) [])).
  { unfold source_released. rewrite N, W, Fa, N. rewrite set_nth_same by auto. cbn [offset source].
    assert (S2 : forall (l : list (input (option nat))) i a b, set_nth (set_nth l i a) i b = set_nth l i b) by (induction l as [|z l IH]; intros [|k] a b; cbn; auto; now rewrite IH).
    apply S2. }
  split.
  - destruct (Nat.eq_dec j i) as [->|Ne]; [rewrite N in Nj; injection Nj as ->; apply (get_owner _ _ _ N W)|].
    unfold get_indices, find_indices. rewrite Nj, (U j y Nj Ne Oj), Oj.
    assert (Fo : first_owner ins (offset x) = Some i).
    { clear - N W Fa. revert i N Fa. induction ins as [|z ins IH]; intros [|i] N Fa; cbn in *; try discriminate.
      - injection N as ->. now rewrite Nat.eqb_refl, W.
      - destruct (Nat.eqb_spec (offset z) (offset x)); [discriminate|]. destruct (first_at ins (offset x)) eqn:E; [|discriminate]. injection Fa as ->. cbn. now rewrite (IH i N eq_refl). }
    now rewrite Fo, N.
  - rewrite E. assert (Fn : first_owner (set_nth ins i (Input (offset x) (source x) [])) (offset x) = None).
    { destruct (first_owner _ (offset x)) as [k|] eqn:Fk; auto. apply first_owner_some in Fk as (z & A & B & C). destruct (Nat.eq_dec k i) as [->|Nk].
      - rewrite set_nth_same in A by auto. injection A as <-. discriminate.
      - rewrite set_nth_other in A by auto. rewrite (U k z A Nk C) in B. discriminate. }
    unfold get_indices, find_indices. destruct (Nat.eq_dec j i) as [->|Ne].
    + rewrite set_nth_same by auto. cbn [owns indices offset]. rewrite Fn. now rewrite set_nth_same.
    + rewrite set_nth_other by auto. rewrite Nj, (U j y Nj Ne Oj), Oj, Fn. rewrite set_nth_other, Nj by auto.
      specialize (U j y Nj Ne Oj). unfold owns in U. destruct (indices y); [auto | discriminate].
Qed.
Print Assumptions C68_indices_lost_refuted.
Example C68_indices_lost_demo : let ins := [Input 0 0 [Some 1; Some 2; Some 3]; Input 0 1 []] in
  get_indices ins 1 = [Some 1; Some 2; Some 3] /\ get_indices (source_released ins 0) 1 = [].
Proof. split; reflexivity. Qed.
(** The claim holds when an earlier input at the offset can take over. *)
Theorem C68_indices_kept_partial : forall (ins : list (input (option nat))) i k x, nth_error ins i = Some x -> owns x = true -> first_at ins (offset x) = Some k -> k <> i ->
  (forall j y, nth_error ins j = Some y -> j <> i -> offset y = offset x -> owns y = false) ->
  forall j y, nth_error ins j = Some y -> get_indices (source_released ins i) j = get_indices ins j.
Proof.
  intros ins i k x N W Fa Nk U.
  assert (Fk : exists z, nth_error ins k = Some z /\ offset z = offset x).
  { clear - Fa. revert k Fa. induction ins as [|z ins IH]; intros k Fa; cbn in *; [discriminate|]. destruct (Nat.eqb_spec (offset z) (offset x)).
    - injection Fa as <-. exists z; auto.
    - destruct (first_at ins (offset x)); [|discriminate]. injection Fa as <-. apply IH; auto. }
  destruct Fk as (z & Nz & Oz). assert (Lk : k < length ins) by (apply nth_error_Some; congruence). assert (Li : i < length ins) by (apply nth_error_Some; congruence).
  set (A := Input (offset z) (source z) (indices x)). set (B := Input (offset x) (source x) ([] : list (option nat))).
  assert (E : source_released ins i = set_nth (set_nth ins k A) i B).
  { unfold source_released. rewrite N, W, Fa, Nz. fold A. rewrite set_nth_other, N by auto. reflexivity. }
  rewrite E. set (s := set_nth (set_nth ins k A) i B).
  assert (Sk : nth_error s k = Some A) by (unfold s; rewrite set_nth_other by auto; now apply set_nth_same).
  assert (Si : nth_error s i = Some B) by (unfold s; apply set_nth_same; now rewrite set_nth_length).
  assert (So : forall j, j <> i -> j <> k -> nth_error s j = nth_error ins j) by (intros; unfold s; now rewrite !set_nth_other by auto).
  assert (WA : owns A = true) by (unfold owns, A in *; cbn; unfold owns in W; exact W).
  (* first owners, position independent *)
  assert (Uo : forall (t : list (input (option nat))) o m w, nth_error t m = Some w -> owns w = true -> offset w = o -> 
     (forall j y, nth_error t j = Some y -> j <> m -> offset y = o -> owns y = false) -> first_owner t o = Some m).
  { clear. intros t. induction t as [|y t IH]; intros o [|m] w Nw Ww Ow Un; cbn in *; try discriminate.
    - injection Nw as ->. now rewrite Ow, Nat.eqb_refl, Ww.
    - assert (D : Nat.eqb (offset y) o && owns y = false).
      { destruct (Nat.eqb_spec (offset y) o) as [Eo|]; auto. cbn. apply (Un 0 y); auto. }
      rewrite D. rewrite (IH o m w Nw Ww Ow); auto. intros j z Nj Nm Oz. apply (Un (S j) z); auto. }
  assert (F1 : first_owner ins (offset x) = Some i) by (apply (Uo ins (offset x) i x); auto).
  assert (F2 : first_owner s (offset x) = Some k).
  { apply (Uo s (offset x) k A); auto. intros j y Nj Njk Oy. destruct (Nat.eq_dec j i) as [->|Nji].
    - rewrite Si in Nj. injection Nj as <-. reflexivity.
    - rewrite So in Nj by auto. apply (U j y); auto. }
  assert (F3 : forall o, o <> offset x -> first_owner s o = first_owner ins o).
  { intros o Do. unfold s. assert (G : forall (t : list (input (option nat))) m w, offset w <> o -> (forall v, nth_error t m = Some v -> offset v <> o) -> first_owner (set_nth t m w) o = first_owner t o).
    { clear. induction t as [|y t IH]; intros [|m] w Ow H; cbn; auto.
      - specialize (H y eq_refl). destruct (Nat.eqb_spec (offset w) o), (Nat.eqb_spec (offset y) o); cbn; auto; congruence.
      - now rewrite IH. }
    rewrite !G; auto; unfold A, B; cbn; try congruence.
    intros v Nv. destruct (Nat.eq_dec i k); [congruence|]. rewrite set_nth_other, N in Nv by auto. injection Nv as <-. congruence. }
  intros j y Nj. unfold get_indices, find_indices. destruct (Nat.eq_dec j i) as [->|Nji].
  - rewrite Si, N, W. cbn [owns B indices offset]. rewrite F2, Sk, N. reflexivity.
  - destruct (Nat.eq_dec j k) as [->|Njk].
    + rewrite Sk, WA. rewrite Sk, Nz. rewrite (U k z Nz Nk Oz), Oz, F1, N. reflexivity.
    + rewrite So by auto. rewrite Nj. destruct (owns y) eqn:Wy; [now rewrite So, Nj by auto|].
      destruct (Nat.eq_dec (offset y) (offset x)) as [Oe|Oe].
      * now rewrite Oe, F2, F1, Sk, N.
      * rewrite F3 by auto. destruct (first_owner ins (offset y)) as [m|] eqn:Fm; [|now rewrite So, Nj by auto].
        apply first_owner_some in Fm as (v & Nv & Wv & Ov). rewrite So; auto; congruence.
Qed.
Print Assumptions C68_indices_kept_partial.
Example C68_indices_kept_demo : let ins := [Input 0 0 []; Input 0 1 [Some 4; Some 5]] in get_indices (source_released ins 1) 0 = [Some 4; Some 5].
Proof. reflexivity. Qed.
