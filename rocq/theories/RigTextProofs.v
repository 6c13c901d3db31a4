(** Lists of numbers, words and matrices: what the readers make of them. *)
From Coq Require Import List ZArith QArith Qabs Bool String Permutation Lia Lqa.
From Verif Require Import TextModel TextSpec TextProofs FloatModel FloatSpec FloatProofs FloatWrite FloatProps SkinModel DaeModel DaeSpec DaeProofs RigModel RigSpec.
Import ListNotations.
Local Open Scope nat_scope.
Local Open Scope list_scope.

Lemma blank_ws c : blank c -> ws3 c = true. Proof. apply ws3_iff. Qed.
Lemma blanks_ws4 l : Forall blank l -> Forall (fun c => ws4 c = true) l.
Proof. apply Forall_impl. intros c H. apply ws4_iff. left. exact H. Qed.
Lemma gap_after sep rest : gap sep rest -> after (sep ++ rest) = rest.
Proof.
  intros (H1 & H2 & H3). apply after_blanks; auto.
  - revert H1. apply Forall_impl. exact blank_ws.
  - destruct rest as [|c r]; cbn in *; auto. destruct (ws3 c) eqn:E; auto. exfalso. apply H3. left. now apply ws3_iff.
Qed.
Lemma gap_digit sep rest : gap sep rest -> stops digit (sep ++ rest).
Proof.
  intros (H1 & H2 & H3). destruct sep as [|c s].
  - rewrite H2 by reflexivity. exact I.
  - inversion H1; subst. cbn. destruct H4 as [-> | [-> | ->]]; reflexivity.
Qed.
Lemma gap_separator sep rest : gap sep rest -> separator sep rest.
Proof.
  intros (H1 & H2 & H3). split; [|split; auto].
  - revert H1. apply Forall_impl. intros c H. left. exact H.
  - destruct sep as [|c s]; [left; auto|right; constructor; inversion H1; auto].
Qed.
Lemma decimal_unique n t : decimal n t -> forall t', decimal n t' -> t = t'.
Proof.
  induction 1 as [d Hd|n t d H IH Hn Hd]; intros t' H'.
  - inversion H' as [d' Hd' |n' t1 d' H1 Hn' Hd' E]; subst; [reflexivity|lia].
  - remember (10 * n + d)%Z as k eqn:Ek. destruct H' as [d' Hd' |n' t1 d' H1 Hn' Hd']; [lia|].
    assert (n' = n) by lia. assert (d' = d) by lia. subst n' d'. rewrite (IH _ H1). reflexivity.
Qed.
Lemma decimal_dec n t : decimal n t -> t = dec n.
Proof. intro H. apply (decimal_unique n); auto. apply dec_decimal. apply (decimal_value n t H). Qed.
Lemma signed_append n t : signed_decimal n t -> t = append_i32 n.
Proof.
  unfold append_i32. intros [(Hn & H) | (Hn & t' & -> & H)].
  - rewrite (proj2 (Z.ltb_ge n 0)) by lia. apply decimal_dec. exact H.
  - rewrite (proj2 (Z.ltb_lt n 0)) by lia. f_equal. apply decimal_dec. exact H.
Qed.

Lemma app_shorter {A} (l t s r : list A) : t <> [] -> List.length r < List.length (l ++ t ++ s ++ r).
Proof. intro H. destruct t; [congruence|]. rewrite !app_length. cbn [List.length]. lia. Qed.
Lemma app_filled {A} (l t r : list A) : t <> [] -> l ++ t ++ r <> [].
Proof. intro H. destruct t; [congruence|]. destruct l; discriminate. Qed.

Lemma unsigned_parse t vs : numbers_of unsigned t vs -> fits vs -> parses (fun s => Some (ToUInt32 s)) t vs.
Proof.
  induction 1 as [|lead t v sep rest vs Hl Ht Hg Hn IH]; intro Hf; [constructor|].
  inversion Hf as [|? ? H1 H2]; subst.
  unfold unsigned in Ht. pose proof (decimal_dec v t Ht) as Et. destruct (dec_spec v ltac:(lia)) as (D1 & D2 & D3). subst t.
  eapply P_cons with (s' := rest); [now apply app_filled| |now apply app_shorter|auto].
  rewrite to_uint32_spec; auto.
  - rewrite D3, gap_after by auto. reflexivity.
  - now apply blanks_ws4.
  - now apply gap_digit.
  - lia.
Qed.
Lemma integer_parse a t vs : numbers_of integer t vs -> Forall (fun v => -2147483599 <= v <= 2147483599)%Z vs -> parses (ToInt32 a) t vs.
Proof.
  induction 1 as [|lead t v sep rest vs Hl Ht Hg Hn IH]; intro Hf; [constructor|].
  inversion Hf as [|? ? H1 H2]; subst. unfold integer in Ht. pose proof (signed_append v t Ht) as Et. subst t.
  assert (Hne : append_i32 v <> []).
  { destruct (append_i32_cases v) as (ds & D & _ & _ & ->). destruct (v <? 0)%Z; destruct ds; cbn; congruence. }
  eapply P_cons with (s' := rest); [now apply app_filled| |now apply app_shorter|auto].
  rewrite to_int32_spec.
  - rewrite gap_after by exact Hg. reflexivity.
  - now apply blanks_ws4.
  - now apply gap_digit.
  - lia.
  - intros _. exact H1.
Qed.
Lemma floats_of_parse a t vs : numbers_of float_text t vs -> exists rs, parses (ToFloat a) t rs /\ Forall2 (fun v r => r == v)%Q vs rs.
Proof.
  induction 1 as [|lead t v sep rest vs Hl Ht Hg Hn (rs & IH1 & IH2)]; [exists []; split; constructor|].
  destruct (C78_read a lead t v sep rest) as (r & E & Hr); auto.
  { revert Hl. apply Forall_impl. intros c H. left. exact H. }
  { now apply gap_separator. }
  exists (r :: rs). split; [|constructor; auto].
  assert (Hne : t <> []) by (destruct (text_head t v Ht) as (c & u & -> & _); discriminate).
  eapply P_cons; eauto; [now apply app_filled|now apply app_shorter].
Qed.

(** *** Words *)
Definition tail_empty (k : nat) (arr : list (list Z)) : Prop := forall j, k <= j -> nth j arr [] = [].
Lemma words_loop_any : forall fuel s index arr, List.length s <= fuel -> stops ws4 s -> index <= List.length arr -> tail_empty index arr ->
  exists ws arr', words_loop fuel index arr s = Some (index + List.length ws, arr') /\ firstn (index + List.length ws) arr' = firstn index arr ++ ws /\ words_ws s ws.
Proof.
  induction fuel as [|f IH]; intros s index arr Hl Hs Hi Ht.
  - destruct s; [|cbn in Hl; lia]. exists [], arr. cbn. rewrite Nat.add_0_r, app_nil_r. repeat split; auto. constructor; auto.
  - destruct s as [|c s0] eqn:Es.
    { exists [], arr. cbn. rewrite Nat.add_0_r, app_nil_r. repeat split; auto. constructor; auto. }
    cbn [words_loop]. rewrite <- Es in *.
    destruct (span_spec (fun c => negb (ws4 c)) s) as (w & r & E1 & E2 & E3 & E4). rewrite E1.
    assert (Hw : w <> []).
    { intro; subst w. cbn in E2. rewrite <- E2, Es in E4. cbn in E4. rewrite Es in Hs. cbn in Hs. rewrite Hs in E4. discriminate. }
    assert (Hw' : Forall (fun c => ws4 c = false) w).
    { eapply Forall_impl; [|exact E3]. intros a Ha. cbn in Ha. destruct (ws4 a); [discriminate|reflexivity]. }
    set (arr1 := if index <? List.length arr then upd arr index (nth index arr [] ++ w) else arr ++ [w]).
    assert (A1 : firstn (S index) arr1 = firstn index arr ++ [w] /\ S index <= List.length arr1 /\ tail_empty (S index) arr1).
    { unfold arr1. destruct (Nat.ltb_spec index (List.length arr)) as [H|H].
      - rewrite (Ht index) by lia. cbn [app].
        assert (Ea : arr = firstn index arr ++ nth index arr [] :: skipn (S index) arr).
        { clear -H. revert index H. induction arr as [|x arr IH]; intros i H; [cbn in H; lia|].
          destruct i; [reflexivity|]. cbn in H. cbn [firstn nth skipn app]. f_equal. apply IH. lia. }
        set (p := firstn index arr) in *. set (q := skipn (S index) arr) in *.
        assert (Lp : List.length p = index) by (unfold p; rewrite firstn_length; lia).
        assert (Eu : upd arr index w = p ++ w :: q) by (rewrite Ea, <- Lp; apply upd_mid).
        rewrite Eu. split; [|split].
        + rewrite firstn_app, Lp. replace (S index - index) with 1 by lia.
          rewrite (firstn_all2 p) by lia. reflexivity.
        + rewrite app_length. cbn. lia.
        + intros j Hj. rewrite app_nth2 by lia. rewrite Lp. destruct (j - index) as [|k] eqn:Ek; [lia|]. cbn [nth].
          pose proof (Ht j ltac:(lia)) as Hz. rewrite Ea, app_nth2, Lp, Ek in Hz by lia. exact Hz.
      - assert (index = List.length arr) by lia. subst index. rewrite firstn_all. split; [|split].
        + rewrite firstn_all2 by (rewrite app_length; cbn; lia). reflexivity.
        + rewrite app_length. cbn. lia.
        + intros j Hj. apply nth_overflow. rewrite app_length. cbn. lia. }
    destruct A1 as (A1 & A2 & A3).
    destruct (IH (skip_while ws4 r) (S index) arr1) as (ws & arr' & Ew & Hf & Hws); auto.
    { pose proof (skip_length ws4 r). rewrite E2, app_length in Hl. destruct w; [congruence|]. cbn in Hl. lia. }
    { apply skip_stops. }
    exists (w :: ws), arr'. rewrite Ew. cbn [List.length]. rewrite <- plus_n_Sm. split; [reflexivity|]. split.
    + change (S (index + List.length ws)) with (S index + List.length ws). rewrite Hf, A1, <- app_assoc. reflexivity.
    + destruct (skip_split ws4 r) as (b & Eb & Hb). rewrite E2. apply (Ww_cons [] w r ws); auto. rewrite Eb. apply words_ws_lead; auto.
Qed.
Lemma words_unique s l : words_of s l -> forall l', words_of s l' -> l = l'.
Proof.
  assert (Hblank : forall s l, Forall blank_or_cr s -> words_of s l -> l = []).
  { intros u k Hu Hk. inversion Hk as [|lead w rest ws Hl Hw Hf _ _ E]; auto. subst.
    rewrite !Forall_app in Hu. destruct Hu as (_ & Hu & _). destruct w as [|c w]; [congruence|].
    inversion Hu; inversion Hf; subst. contradiction. }
  induction 1 as [s Hs|lead w rest ws Hl Hw Hf Hb Hr IH]; intros l' H'.
  - symmetry. now apply (Hblank s).
  - inversion H' as [u Hu E|lead2 w2 rest2 ws2 Hl2 Hw2 Hf2 Hb2 Hr2 E]; subst.
    + exfalso. rewrite !Forall_app in Hu. destruct Hu as (_ & Hu & _). destruct w as [|c w]; [congruence|].
      inversion Hu; inversion Hf; subst. contradiction.
    + assert (El : lead2 = lead).
      { clear - Hl Hw Hf Hl2 Hw2 Hf2 E. revert lead2 Hl2 E. induction Hl as [|c lead Hc Hl IH]; intros lead2 Hl2 E.
        - destruct lead2 as [|d lead2]; auto. destruct w as [|e w]; [congruence|]. cbn in E. inversion E; subst.
          inversion Hf; inversion Hl2; subst. contradiction.
        - destruct lead2 as [|d lead2].
          + destruct w2 as [|e w2]; [congruence|]. cbn in E. inversion E; subst. inversion Hf2; subst. contradiction.
          + cbn in E. inversion E; subst. f_equal. inversion Hl2; subst. now apply IH. }
      subst lead2. apply app_inv_head in E.
      assert (Ew : w2 = w /\ rest2 = rest).
      { clear - Hf Hb Hf2 Hb2 E. revert w2 Hf2 E. induction Hf as [|c w Hc Hf IH]; intros w2 Hf2 E.
        - destruct w2 as [|d w2]; [auto|]. cbn in E. subst rest. inversion Hf2; subst. cbn in Hb. contradiction.
        - destruct w2 as [|d w2].
          + cbn in E. subst rest2. cbn in Hb2. contradiction.
          + cbn in E. inversion E; subst. inversion Hf2; subst. destruct (IH _ H3 H1) as [-> ->]. auto. }
      destruct Ew as [-> ->]. f_equal. now apply IH.
Qed.
Lemma to_string_list_any t l k : words_of t l -> ToStringList t (repeat [] k) = Some l.
Proof.
  intro H. unfold ToStringList.
  destruct (words_loop_any (List.length (skip_while ws4 t)) (skip_while ws4 t) 0 (repeat [] k)) as (ws & arr' & E & Hf & Hw); auto.
  - apply skip_stops.
  - lia.
  - intros j _. clear. revert j. induction k; intros [|j]; cbn; auto.
  - rewrite E. f_equal. rewrite Hf. cbn. apply (words_unique t); auto. apply words_bridge.
    destruct (skip_split ws4 t) as (b & Eb & Hb). rewrite Eb. apply words_ws_lead; auto.
Qed.

(** *** Matrices *)
Lemma to_floats_split a : forall l s rest, parses (ToFloat a) s (l ++ rest) -> exists s', ToFloats a (List.length l) s = Some (l, s') /\ parses (ToFloat a) s' rest /\
  (l <> [] -> List.length s' < List.length s).
Proof.
  induction l as [|v l IH]; intros s rest H; [exists s; split; [reflexivity|]; split; [exact H|congruence]|].
  cbn [app] in H. inversion H as [|? ? s1 ? Hne Hr Hlt Hp]; subst. destruct (IH s1 rest Hp) as (s' & E & Hs & Hle).
  exists s'. cbn [List.length ToFloats]. rewrite Hr, E. split; [reflexivity|]. split; [exact Hs|]. intros _.
  destruct l; [cbn in E; inversion E; subst; lia|]. specialize (Hle ltac:(discriminate)). lia.
Qed.
(** A matrix given by sixteen values. *)
Definition of_list (old : mat) (l : list Q) : mat := fun i j => if (i <? 4) && (j <? 4) then nth (4 * j + i) l 0%Q else old i j.
Lemma to_matrix_spec a : forall l s rest m, List.length l = 16 -> parses (ToFloat a) s (l ++ rest) ->
  exists s', ToMatrix a s m = Some (of_list m l, s') /\ parses (ToFloat a) s' rest /\ List.length s' < List.length s.
Proof.
  intros l s rest m Hl H. destruct (to_floats_split a l s rest H) as (s' & E & Hs & Hlt). exists s'. rewrite Hl in E.
  assert (l <> []) by (destruct l; [discriminate|congruence]). specialize (Hlt H0).
  destruct s as [|c s]; [cbn in Hlt; lia|]. unfold ToMatrix. rewrite E. auto.
Qed.
Lemma components_length m : List.length (components m) = 16. Proof. reflexivity. Qed.
Lemma components_nth m i j : i < 4 -> j < 4 -> nth (4 * j + i) (components m) 0%Q = m i j.
Proof.
  intros Hi Hj. destruct i as [|[|[|[|i]]]]; try lia; (destruct j as [|[|[|[|j]]]]; try lia; reflexivity).
Qed.
Lemma of_list_same m l old : Forall2 (fun v r => r == v)%Q (components m) l -> same_matrix m (of_list old l).
Proof.
  intros H i j Hi Hj. unfold of_list. rewrite (proj2 (Nat.ltb_lt i 4)), (proj2 (Nat.ltb_lt j 4)) by lia. cbn [andb].
  rewrite <- (components_nth m i j Hi Hj). revert H. generalize (components m) as c. generalize (4 * j + i) as k. clear.
  intros k c H. revert k. induction H; intros [|k]; cbn; auto; reflexivity.
Qed.
Lemma Forall2_app_l {A B} (R : A -> B -> Prop) a b l : Forall2 R (a ++ b) l -> exists l1 l2, l = l1 ++ l2 /\ Forall2 R a l1 /\ Forall2 R b l2.
Proof.
  revert l. induction a as [|x a IH]; intros l H.
  - exists [], l. auto.
  - cbn in H. inversion H as [|? y ? l' Hxy Hr]; subst. destruct (IH _ Hr) as (l1 & l2 & -> & H1 & H2). exists (y :: l1), l2. auto.
Qed.
Lemma Forall2_len {A B} (R : A -> B -> Prop) a b : Forall2 R a b -> List.length a = List.length b.
Proof. induction 1; cbn; congruence. Qed.
Lemma matrices_push_spec a : forall ps rs s fuel, Forall2 (fun v r => r == v)%Q (flat_map components ps) rs -> parses (ToFloat a) s rs -> List.length s <= fuel ->
  exists ms, matrices_push a fuel s = Some ms /\ Forall2 same_matrix ps ms.
Proof.
  induction ps as [|p ps IH]; intros rs s fuel Hk Hp Hf.
  - cbn in Hk. inversion Hk; subst. apply parses_nil_inv in Hp. subst s. exists []. destruct fuel; split; try reflexivity; constructor.
  - cbn [flat_map] in Hk. apply Forall2_app_l in Hk as (l1 & l2 & -> & H1 & H2).
    pose proof (Forall2_len _ _ _ H1) as L. rewrite components_length in L. symmetry in L.
    destruct (to_matrix_spec a l1 s l2 identity_matrix L Hp) as (s' & E & Hs & Hlt).
    destruct fuel as [|f]; [lia|]. destruct (IH l2 s' f H2 Hs ltac:(lia)) as (ms & Em & Hm).
    exists (of_list identity_matrix l1 :: ms). split.
    + cbn [matrices_push]. destruct s as [|c s]; [cbn in Hlt; lia|]. rewrite E, Em. reflexivity.
    + constructor; auto. now apply of_list_same.
Qed.
Lemma matrices_fill_spec a : forall old ps rs s, Forall2 (fun v r => r == v)%Q (flat_map components ps) rs -> parses (ToFloat a) s rs ->
  exists l k s' ps1 ps2 rs2, matrices_fill a old s = Some (l, k, s') /\ ps = ps1 ++ ps2 /\ Forall2 same_matrix ps1 (firstn k l) /\ k <= List.length l /\
    Forall2 (fun v r => r == v)%Q (flat_map components ps2) rs2 /\ parses (ToFloat a) s' rs2 /\ (ps2 = [] \/ k = List.length l) /\ List.length s' <= List.length s.
Proof.
  induction old as [|o old IH]; intros ps rs s Hk Hp.
  - exists [], 0, s, [], ps, rs. cbn. repeat split; auto.
  - destruct ps as [|p ps].
    + cbn in Hk. inversion Hk; subst. apply parses_nil_inv in Hp. subst s. exists (o :: old), 0, [], [], [], []. cbn. repeat split; auto; try constructor. lia.
    + cbn [flat_map] in Hk. apply Forall2_app_l in Hk as (l1 & l2 & -> & H1 & H2).
      pose proof (Forall2_len _ _ _ H1) as L. rewrite components_length in L. symmetry in L.
      destruct (to_matrix_spec a l1 s l2 o L Hp) as (s' & E & Hs & Hlt).
      destruct (IH ps l2 s' H2 Hs) as (l & k & s2 & ps1 & ps2 & rs2 & E2 & -> & F1 & F2 & F3 & F4 & F5 & F6).
      exists (of_list o l1 :: l), (S k), s2, (p :: ps1), ps2, rs2. cbn [matrices_fill]. destruct s as [|c s]; [cbn in Hlt; lia|].
      rewrite E, E2. split; [reflexivity|]. split; [reflexivity|]. split; [cbn [firstn]; constructor; auto; now apply of_list_same|].
      split; [cbn; lia|]. split; [exact F3|]. split; [exact F4|]. split; [|lia]. destruct F5; [left; auto|right; cbn; congruence].
Qed.
Lemma to_matrix_list_spec a ps t old : numbers_of float_text t (flat_map components ps) -> exists ms, ToMatrixList a t old = Some ms /\ Forall2 same_matrix ps ms.
Proof.
  intro H. destruct (floats_of_parse a _ _ H) as (rs & Hp & Hk). unfold ToMatrixList. destruct t as [|c t].
  - apply (to_list_spec _ _ _ []) in Hp. cbn in Hp. injection Hp as <-. inversion Hk as [E|]; subst. destruct ps as [|p ps]; [|discriminate].
    exists []. split; constructor.
  - destruct (matrices_fill_spec a old ps rs (c :: t) Hk Hp) as (l & k & s' & ps1 & ps2 & rs2 & E & -> & F1 & F2 & F3 & F4 & F5 & F6).
    rewrite E. destruct (matrices_push_spec a ps2 rs2 s' (List.length (c :: t)) F3 F4 F6) as (ms & Em & Hm). rewrite Em. cbn [option_map].
    eexists. split; [reflexivity|]. destruct F5 as [-> | ->].
    + inversion Hm; subst. cbn [List.length]. rewrite Nat.add_0_r, !app_nil_r. exact F1.
    + rewrite firstn_all2 by (rewrite app_length; lia). rewrite firstn_all in F1. now apply Forall2_app.
Qed.
