(** Lemmas for the polygon sets in XML. *)
From Coq Require Import String List ZArith Bool Lia Arith.
From Verif Require Import TextModel TextProofs InterleaveProofs StringModel StringProofs XmlModel XmlProofs EnumModel
  PolyModel PolySpec PolyProofs TriModel DaeModel DaeSpec.
Import ListNotations.
Local Open Scope nat_scope.
Local Open Scope list_scope.

(** *** Interleaved lists of whole rows into lists of equal length *)
Definition column (k : nat) (rows : list (list Z)) : list Z := map (fun r => nth k r 0%Z) rows.
Lemma uparses_app s v vs : uparses s (v :: vs) -> exists s', s <> [] /\ ToUInt32 s = (v, s') /\ length s' < length s /\ uparses s' vs.
Proof. intro H. inversion H; subst. exists s'. injection H3 as E. auto. Qed.

Lemma set_row_spec : forall arrays s row vs count, uparses s (row ++ vs) -> length row = length arrays ->
  (forall l, In (Some l) arrays -> count < length l) ->
  exists arrays' s', il_set_row count arrays s = Some (arrays', s') /\ uparses s' vs /\ length arrays' = length arrays /\
    (forall i, nth_error arrays i = Some None -> nth_error arrays' i = Some None) /\
    (forall i l, nth_error arrays i = Some (Some l) -> nth_error arrays' i = Some (Some (upd l count (nth i row 0%Z)))).
Proof.
  induction arrays as [|a arrays IH]; intros s row vs count Hp Hl Hc.
  - destruct row; [|discriminate]. exists [], s. cbn. repeat split; auto; intros [|i]; discriminate.
  - destruct row as [|v row]; [discriminate|]. cbn [app] in Hp. destruct (uparses_app _ _ _ Hp) as (s1 & Hne & E & _ & Hp1).
    destruct (IH s1 row vs count Hp1 ltac:(cbn in Hl; lia) ltac:(intros; apply Hc; right; auto)) as (ar & s2 & E2 & P1 & P2 & P3 & P4).
    destruct s as [|c t]; [congruence|]. cbn [il_set_row]. rewrite E, E2. destruct a as [l|].
    + rewrite (proj2 (Nat.ltb_lt _ _)) by (apply Hc; left; auto). do 2 eexists. split; [reflexivity|]. split; [exact P1|].
      split; [cbn; congruence|]. split; intros [|i]; cbn; intros; try congruence; auto.
    + do 2 eexists. split; [reflexivity|]. split; [exact P1|]. split; [cbn; congruence|].
      split; intros [|i]; cbn; intros; try congruence; auto.
Qed.
Lemma push_row_full : forall arrays s row vs, uparses s (row ++ vs) -> length row = length arrays ->
  exists arrays' s', il_push_row arrays s = (arrays', s', true) /\ uparses s' vs /\ length s' <= length s /\
    (row <> [] -> length s' < length s) /\ length arrays' = length arrays /\
    (forall i, nth_error arrays i = Some None -> nth_error arrays' i = Some None) /\
    (forall i l, nth_error arrays i = Some (Some l) -> nth_error arrays' i = Some (Some (l ++ [nth i row 0%Z]))).
Proof.
  induction arrays as [|a arrays IH]; intros s row vs Hp Hl.
  - destruct row; [|discriminate]. exists [], s. cbn. repeat split; auto; try congruence; intros [|i]; discriminate.
  - destruct row as [|v row]; [discriminate|]. cbn [app] in Hp. destruct (uparses_app _ _ _ Hp) as (s1 & Hne & E & Hlt & Hp1).
    destruct (IH s1 row vs Hp1 ltac:(cbn in Hl; lia)) as (ar & s2 & E2 & P1 & Pl & _ & P2 & P3 & P4).
    destruct s as [|c t]; [congruence|]. cbn [il_push_row]. rewrite E, E2. do 2 eexists. split; [reflexivity|].
    split; [exact P1|]. split; [lia|]. split; [intros; lia|]. split; [cbn; congruence|].
    split; intros [|i]; cbn [nth_error nth]; intros; auto; try (injection H as ->; reflexivity).
Qed.
Lemma push_rows : forall rows arrays s fuel valid, uparses s (concat rows) -> arrays <> [] ->
  Forall (fun r => length r = length arrays) rows -> length s <= fuel ->
  exists arrays', il_push fuel valid arrays s = Some (valid + length rows, arrays') /\ length arrays' = length arrays /\
    (forall i, nth_error arrays i = Some None -> nth_error arrays' i = Some None) /\
    (forall i l, nth_error arrays i = Some (Some l) -> nth_error arrays' i = Some (Some (l ++ column i rows))).
Proof.
  induction rows as [|row rows IH]; intros arrays s fuel valid Hp Hk Hr Hf.
  - cbn [concat] in Hp. apply parses_nil_inv in Hp. subst s. exists arrays.
    split; [destruct fuel; cbn; rewrite Nat.add_0_r; reflexivity|]. split; [auto|]. split; [auto|].
    intros i l H. cbn. rewrite app_nil_r. exact H.
  - inversion Hr as [|? ? Hr1 Hr2]; subst. cbn [concat] in Hp.
    destruct (push_row_full arrays s row (concat rows) Hp Hr1) as (ar & s1 & E & P1 & Pl & Plt & P2 & P3 & P4).
    assert (Hne : row <> []) by (intro; subst; destruct arrays; [congruence|discriminate]). specialize (Plt Hne).
    destruct fuel as [|f]; [lia|]. destruct s as [|c t] eqn:Es; [cbn in Plt; lia|]. cbn [il_push]. rewrite <- Es in *. rewrite E.
    destruct (IH ar s1 f (S valid) P1) as (ar2 & E2 & Q1 & Q2 & Q3).
    { intro H. subst ar. destruct arrays; [congruence|discriminate]. }
    { rewrite P2. exact Hr2. }
    { lia. }
    rewrite E2. exists ar2. split; [do 2 f_equal; cbn; lia|]. split; [congruence|]. split; [intros; apply Q2, P3; auto|].
    intros i l H. rewrite (Q3 _ _ (P4 _ _ H)). rewrite <- app_assoc. reflexivity.
Qed.
Lemma upd_split {V} (a : list V) (v : V) : forall old k, k < length old -> length a = k -> upd (a ++ skipn k old) k v = a ++ v :: skipn (S k) old.
Proof.
  intros old k Hk Ha. subst k. assert (E : exists x, skipn (length a) old = x :: skipn (S (length a)) old).
  { revert Hk. generalize (length a) as k. intro k. revert old. induction k as [|k IH]; intros [|x old] H; cbn in *; try lia; [eauto|].
    apply IH. lia. }
  destruct E as (x & ->). apply upd_mid.
Qed.
Lemma set_rows : forall rows todo count arrays s, uparses s (concat rows) -> arrays <> [] ->
  Forall (fun r => length r = length arrays) rows -> (forall l, In (Some l) arrays -> length l = count + todo) ->
  exists arrays' s', il_set todo count arrays s = Some (count + min todo (length rows), arrays', s') /\
    uparses s' (concat (skipn todo rows)) /\ length arrays' = length arrays /\
    (forall i, nth_error arrays i = Some None -> nth_error arrays' i = Some None) /\
    (forall i l, nth_error arrays i = Some (Some l) ->
       nth_error arrays' i = Some (Some (firstn count l ++ column i (firstn todo rows) ++ skipn (count + min todo (length rows)) l))).
Proof.
  induction rows as [|row rows IH]; intros todo count arrays s Hp Hk Hr Hl.
  - cbn [concat] in Hp. apply parses_nil_inv in Hp. subst s. exists arrays, [].
    split; [destruct todo; cbn; rewrite Nat.add_0_r; reflexivity|]. split; [destruct todo; constructor|]. split; [auto|]. split; [auto|].
    intros i l H. destruct todo; cbn; rewrite Nat.add_0_r, firstn_skipn; exact H.
  - inversion Hr as [|? ? Hr1 Hr2]; subst. destruct todo as [|todo].
    + exists arrays, s. cbn [il_set min skipn firstn column map app]. rewrite Nat.add_0_r. split; [reflexivity|]. split; [exact Hp|]. split; [auto|].
      split; [auto|]. intros i l H. rewrite firstn_skipn. exact H.
    + cbn [concat] in Hp. destruct (set_row_spec arrays s row (concat rows) count Hp Hr1) as (ar & s1 & E & P1 & P2 & P3 & P4).
      { intros l H. rewrite (Hl _ H). lia. }
      assert (Hs : s <> []).
      { intro; subst s. inversion Hp as [H0|]; [|congruence]. destruct row; [destruct arrays; [congruence|discriminate]|discriminate]. }
      destruct s as [|c t] eqn:Es; [congruence|]. cbn [il_set]. rewrite <- Es in *. rewrite E.
      destruct (IH todo (S count) ar s1 P1) as (ar2 & s2 & E2 & Q0 & Q1 & Q2 & Q3).
      { intro H. subst ar. destruct arrays; [congruence|discriminate]. }
      { rewrite P2. exact Hr2. }
      { intros l H. apply In_nth_error in H. destruct H as (i & Hi).
        assert (Hia : i < length arrays) by (rewrite <- P2; apply nth_error_Some; congruence).
        destruct (nth_error arrays i) as [[l0|]|] eqn:Ei; [|rewrite (P3 _ Ei) in Hi; discriminate|apply nth_error_None in Ei; lia].
        rewrite (P4 _ _ Ei) in Hi. injection Hi as <-.
        assert (Hu : forall (l : list Z) k v, length (upd l k v) = length l) by (induction l as [|? ? IHl]; intros [|k] v; cbn; auto).
        rewrite Hu, (Hl l0) by (eapply nth_error_In; eauto). lia. }
      rewrite E2. exists ar2, s2. cbn [length Nat.min]. split; [do 3 f_equal; lia|]. split; [exact Q0|]. split; [congruence|].
      split; [intros; apply Q2, P3; auto|]. intros i l H. rewrite (Q3 _ _ (P4 _ _ H)). do 2 f_equal.
      assert (Hc : count < length l) by (rewrite (Hl l) by (eapply nth_error_In; eauto); lia).
      assert (Eu : upd l count (nth i row 0%Z) = firstn count l ++ nth i row 0%Z :: skipn (S count) l).
      { rewrite <- (firstn_skipn count l) at 1. apply upd_split; [exact Hc|rewrite firstn_length; lia]. }
      rewrite Eu. change (column i (firstn (S todo) (row :: rows))) with (nth i row 0%Z :: column i (firstn todo rows)).
      assert (El : length (firstn count l) = count) by (rewrite firstn_length; lia).
      replace (S count + min todo (length rows)) with (S (count + min todo (length rows))) by lia.
      rewrite firstn_app, El. replace (S count - count) with 1 by lia. rewrite firstn_firstn. replace (min (S count) count) with count by lia.
      cbn [firstn]. rewrite skipn_app, El. rewrite skipn_all2 by lia. replace (S (count + min todo (length rows)) - count) with (S (min todo (length rows))) by lia.
      cbn [skipn app]. rewrite <- !app_assoc. cbn [app]. do 3 f_equal.
      assert (Hss : forall (A : Type) (l : list A) a b, skipn a (skipn b l) = skipn (b + a) l).
      { intros A l0 a b. revert l0. induction b as [|b IHb]; intros [|x l0]; cbn; auto. apply skipn_nil. }
      change (match l with [] => [] | _ :: l0 => skipn count l0 end) with (skipn (S count) l). rewrite Hss. f_equal. lia.
Qed.
(** The lists need not be empty: they have one length. *)
Lemma interleave_rows : forall s rows arrays n, uparses s (concat rows) -> Forall (fun r => length r = length arrays) rows ->
  (exists l, nth_error arrays 0 = Some (Some l)) -> (forall l, In (Some l) arrays -> length l = n) ->
  exists out, ToInterleavedUInt32List s arrays = Some out /\ length out = length arrays /\
    (forall i, nth_error arrays i = Some None -> nth_error out i = Some None) /\
    (forall i l, nth_error arrays i = Some (Some l) -> nth_error out i = Some (Some (column i rows))).
Proof.
  intros s rows arrays n Hp Hr (l0 & H0) Hn.
  assert (Hk : arrays <> []) by (intro; subst; discriminate).
  destruct (set_rows rows n 0 arrays s Hp Hk Hr) as (a1 & s1 & E1 & P1 & P2 & P3 & P4); [intros; rewrite Nat.add_0_l; auto|].
  destruct (push_rows (skipn n rows) a1 s1 (length s1) (min n (length rows)) P1) as (a2 & E2 & Q1 & Q2 & Q3).
  { intro; subst a1; destruct arrays; [congruence|discriminate]. }
  { rewrite P2. rewrite <- (firstn_skipn n rows) in Hr. apply Forall_app in Hr. apply Hr. }
  { auto. }
  cbn [Nat.add] in E1.
  assert (Ev : min n (length rows) + length (skipn n rows) = length rows) by (rewrite skipn_length; lia). rewrite Ev in E2.
  assert (Hcol : forall i l, nth_error arrays i = Some (Some l) -> nth_error a2 i = Some (Some (column i rows ++ skipn (length rows) l))).
  { intros i l H. rewrite (Q3 _ _ (P4 _ _ H)). do 2 f_equal. cbn [firstn app Nat.add].
    assert (Hl : length l = n) by (apply Hn; eapply nth_error_In; eauto).
    destruct (Nat.le_gt_cases n (length rows)) as [Hle|Hgt].
    - rewrite Nat.min_l by lia. rewrite !skipn_all2 with (l := l) by lia. rewrite !app_nil_r. unfold column. rewrite <- map_app, firstn_skipn. reflexivity.
    - rewrite Nat.min_r by lia. rewrite (skipn_all2 rows) by lia. rewrite firstn_all2 by lia. cbn. rewrite app_nil_r. reflexivity. }
  assert (Hsome : forall a, In a a2 -> il_resize (length rows) a <> None).
  { intros a Ha. apply In_nth_error in Ha. destruct Ha as (i & Hi).
    assert (Hil : i < length arrays) by (rewrite <- P2, <- Q1; apply nth_error_Some; congruence).
    destruct (nth_error arrays i) as [[l|]|] eqn:Ei; [| |apply nth_error_None in Ei; lia].
    - rewrite (Hcol _ _ Ei) in Hi. injection Hi as <-. cbn. rewrite (proj2 (Nat.leb_le _ _)); [discriminate|].
      rewrite app_length. unfold column. rewrite map_length. lia.
    - rewrite (Q2 _ (P3 _ Ei)) in Hi. injection Hi as <-. discriminate. }
  destruct (all_some_map _ _ _ a2 Hsome) as (out & E3 & L & E4).
  assert (Eo : ToInterleavedUInt32List s arrays = all_some (map (il_resize (length rows)) a2) \/ s = []).
  { destruct s as [|c t] eqn:Es; [right; reflexivity|left]. destruct arrays as [|a0 rest]; [congruence|]. cbn in H0. injection H0 as ->.
    unfold ToInterleavedUInt32List. rewrite (Hn l0) by (left; reflexivity). rewrite E1, E2. reflexivity. }
  destruct Eo as [Eo|Eo].
  - exists out. rewrite Eo. split; [exact E3|]. split; [congruence|]. split.
    + intros i H. destruct (E4 i None (Q2 _ (P3 _ H))) as (y & Ey & En). cbn in Ey. congruence.
    + intros i l H. destruct (E4 _ _ (Hcol _ _ H)) as (y & Ey & En). cbn in Ey.
      rewrite app_length in Ey. unfold column in Ey at 1. rewrite map_length in Ey.
      rewrite (proj2 (Nat.leb_le _ _)) in Ey by lia. injection Ey as <-. rewrite En. do 2 f_equal.
      rewrite firstn_app. unfold column. rewrite map_length, Nat.sub_diag. cbn. rewrite app_nil_r.
      rewrite <- (map_length (fun r => nth i r 0%Z) rows). apply firstn_all.
  - subst s. assert (Er : rows = []).
    { destruct rows as [|r rows]; [auto|]. inversion Hr as [|? ? Hr1 ?]; subst. inversion Hp as [E|]; [|congruence].
      destruct r; [destruct arrays; [congruence|discriminate]|discriminate]. }
    subst rows. cbn [ToInterleavedUInt32List].
    assert (Hs2 : forall a, In a arrays -> il_resize 0 a <> None) by (intros [a|] _; discriminate).
    destruct (all_some_map _ _ _ arrays Hs2) as (o2 & E5 & L2 & E6). exists o2. split; [exact E5|]. split; [exact L2|]. split.
    + intros i H. destruct (E6 _ _ H) as (y & Ey & En). cbn in Ey. congruence.
    + intros i l H. destruct (E6 _ _ H) as (y & Ey & En). cbn in Ey. injection Ey as <-. exact En.
Qed.

(** *** Texts *)
Definition spaced (vs : list Z) : list Z := flat_map (fun v => append_u32 v ++ [32%Z]) vs.
Lemma spaced_app a b : spaced (a ++ b) = spaced a ++ spaced b. Proof. unfold spaced. apply flat_map_app. Qed.
Lemma trim_spaced vs : trim (spaced vs) = ToString_u32s [] vs.
Proof.
  destruct vs as [|v vs]; [reflexivity|]. cbn [ToString_u32s]. revert v. induction vs as [|w vs IH]; intro v.
  - cbn [spaced flat_map]. rewrite app_nil_r, app_nil_r. apply removelast_last.
  - change (spaced (v :: w :: vs)) with ((append_u32 v ++ [32%Z]) ++ spaced (w :: vs)). unfold trim in *.
    rewrite removelast_app.
    + rewrite IH. rewrite <- app_assoc. reflexivity.
    + cbn [spaced flat_map]. destruct (append_u32 w); discriminate.
Qed.
Definition fits (vs : list Z) : Prop := Forall (fun v => 0 <= v < 4294967296)%Z vs.
Lemma trim_parses vs : fits vs -> uparses (trim (spaced vs)) vs.
Proof. intro H. rewrite trim_spaced. apply u32s_parse. exact H. Qed.
Lemma content_direct n a t : ReadNodeContentDirect (Elem n a (content t)) = t.
Proof. destruct t; reflexivity. Qed.
Lemma plain_same t : plain t -> XmlToString t = t.
Proof.
  intros (Hb & H37). unfold XmlToString. pose proof (dec_all_app t [] H37) as E. unfold dec_all in E. cbn in E. rewrite !app_nil_r in E. rewrite E.
  apply c_text_bytes. exact Hb.
Qed.
Lemma text_eq_refl t : text_eq t t = true. Proof. apply text_eq_spec. reflexivity. Qed.
Lemma text_eq_neq a b : a <> b -> text_eq a b = false.
Proof. intro H. destruct (text_eq a b) eqn:E; auto. apply text_eq_spec in E. contradiction. Qed.
Lemma dec_plain n : (0 <= n)%Z -> plain (dec n).
Proof.
  intro H. destruct (dec_spec n H) as (H1 & H2 & H3).
  rewrite Forall_forall in H2. split.
  - apply Forall_forall. intros c Hc. apply H2, digit_range in Hc. lia.
  - intro Hc. apply H2, digit_range in Hc. lia.
Qed.
Lemma dec_nonempty n : (0 <= n)%Z -> dec n <> [].
Proof. intro H. destruct (dec_head n H) as (c & t & E & _). rewrite E. discriminate. Qed.
Lemma read_u32 n : (0 <= n < 4294967296)%Z -> fst (ToUInt32 (dec n)) = n.
Proof. intro H. pose proof (uint32_dec n [] H I) as E. rewrite app_nil_r in E. exact E. Qed.
Lemma read_i32 n : (0 <= n < 2147483600)%Z -> option_map fst (ToInt32 Strict (append_i32 n)) = Some n.
Proof.
  intro H. pose proof (to_int32_spec Strict [] n [] (Forall_nil _) I) as E. cbn [app] in E. rewrite app_nil_r in E.
  rewrite E; [reflexivity|lia|intros; lia].
Qed.

(** *** Lists of indices: one owner for each offset *)
Definition single {X} (ins : list (input X)) : Prop := forall i j x y, nth_error ins i = Some x -> nth_error ins j = Some y ->
  offset x = offset y -> owns x = true -> owns y = true -> i = j.
Lemma first_owner_complete {X} (ins : list (input X)) o k z : nth_error ins k = Some z -> offset z = o -> owns z = true -> exists j, first_owner ins o = Some j.
Proof.
  revert k. induction ins as [|x ins IH]; intros [|k] H Ho Hw; try discriminate; cbn in *.
  - injection H as ->. rewrite Ho, Nat.eqb_refl, Hw. exists 0. reflexivity.
  - destruct (Nat.eqb (offset x) o && owns x); [eauto|]. destruct (IH k H Ho Hw) as (j & ->). cbn. eauto.
Qed.
(** The list of an offset. *)
Definition sees {X} (ins : list (input X)) (o : nat) (L : list X) : Prop :=
  (exists k z, nth_error ins k = Some z /\ offset z = o /\ owns z = true /\ indices z = L) \/
  (L = [] /\ forall k z, nth_error ins k = Some z -> offset z = o -> owns z = false).
Lemma sees_unique {X} (ins : list (input X)) o L M : single ins -> sees ins o L -> sees ins o M -> L = M.
Proof.
  intros Hs [(k & z & A1 & A2 & A3 & A4)|(A1 & A2)] [(k' & z' & B1 & B2 & B3 & B4)|(B1 & B2)].
  - assert (k = k') by (eapply Hs; eauto; congruence). subst k'. congruence.
  - rewrite (B2 _ _ A1 A2) in A3. discriminate.
  - rewrite (A2 _ _ B1 B2) in B3. discriminate.
  - congruence.
Qed.
Lemma owns_nil {X} (x : input X) : owns x = false -> indices x = [].
Proof. unfold owns. destruct (indices x); auto; discriminate. Qed.
Lemma get_sees {X} (ins : list (input X)) j y : nth_error ins j = Some y -> sees ins (offset y) (get_indices ins j).
Proof.
  intro H. unfold get_indices, find_indices. rewrite H. destruct (owns y) eqn:E.
  - rewrite H. left. exists j, y. auto.
  - destruct (first_owner ins (offset y)) as [k|] eqn:Ef.
    + destruct (first_owner_some ins (offset y) k Ef) as (z & Z1 & Z2 & Z3). rewrite Z1. left. exists k, z. auto.
    + rewrite H. right. split; [apply owns_nil; exact E|]. intros k z Hk Hz. destruct (owns z) eqn:Ez; auto.
      destruct (first_owner_complete ins (offset y) k z Hk Hz Ez) as (? & Hx). congruence.
Qed.
Lemma get_of_sees {X} (ins : list (input X)) j y L : single ins -> nth_error ins j = Some y -> sees ins (offset y) L -> get_indices ins j = L.
Proof. intros Hs H HL. eapply sees_unique; eauto. apply get_sees. exact H. Qed.
Definition frame {X} (ins : list (input X)) : list (nat * nat) := map (fun x => (offset x, source x)) ins.
Lemma frame_nth {X} (a b : list (input X)) k x : frame a = frame b -> nth_error a k = Some x -> exists y, nth_error b k = Some y /\ offset y = offset x /\ source y = source x.
Proof.
  intros E H. pose proof (map_nth_error (fun x => (offset x, source x)) k a H) as H1. unfold frame in E. rewrite E in H1.
  destruct (nth_error b k) as [y|] eqn:Ey.
  - rewrite (map_nth_error _ _ _ Ey) in H1. injection H1 as E1 E2. exists y. auto.
  - apply nth_error_None in Ey. assert (nth_error (map (fun x => (offset x, source x)) b) k = None) by (apply nth_error_None; rewrite map_length; exact Ey). congruence.
Qed.
Lemma set_nth_map {A B} (f : A -> B) (l : list A) : forall k a x, nth_error l k = Some x -> f a = f x -> map f (set_nth l k a) = map f l.
Proof. induction l as [|y l IH]; intros [|k] a x H E; try discriminate; cbn in *; f_equal; [injection H as ->; auto|eauto]. Qed.
Lemma add_indices_spec {X} (ins : list (input X)) i x (l : list X) : single ins -> nth_error ins i = Some x ->
  single (set_indices ins i (get_indices ins i ++ l)) /\ frame (set_indices ins i (get_indices ins i ++ l)) = frame ins /\
  forall o L, sees ins o L -> sees (set_indices ins i (get_indices ins i ++ l)) o (if o =? offset x then L ++ l else L).
Proof.
  intros Hs Hi.
  assert (Hk : exists k z, find_indices ins i = Some k /\ nth_error ins k = Some z /\ offset z = offset x /\ get_indices ins i = indices z /\
     forall k' z', nth_error ins k' = Some z' -> offset z' = offset x -> owns z' = true -> k' = k).
  { unfold get_indices, find_indices. rewrite Hi. destruct (owns x) eqn:E.
    - exists i, x. rewrite Hi. repeat split; auto. intros k' z' A B C. eapply Hs; eauto.
    - destruct (first_owner ins (offset x)) as [k|] eqn:Ef.
      + destruct (first_owner_some ins (offset x) k Ef) as (z & Z1 & Z2 & Z3). exists k, z. rewrite Z1. repeat split; auto.
        intros k' z' A B C. eapply Hs; eauto. congruence.
      + exists i, x. rewrite Hi. repeat split; auto. intros k' z' A B C.
        destruct (first_owner_complete ins (offset x) k' z' A B C) as (? & Hx). congruence. }
  destruct Hk as (k & z & F1 & F2 & F3 & F4 & F5). unfold set_indices. rewrite F1, F2, F4.
  set (z1 := Input (offset z) (source z) (indices z ++ l)).
  assert (Hlt : k < length ins) by (apply nth_error_Some; congruence).
  assert (Hn : forall j y, nth_error (set_nth ins k z1) j = Some y -> (j = k /\ y = z1) \/ (j <> k /\ nth_error ins j = Some y)).
  { intros j y Hj. destruct (Nat.eq_dec j k) as [->|N]; [left|right].
    - rewrite set_nth_same in Hj by exact Hlt. split; congruence.
    - rewrite set_nth_other in Hj by auto. auto. }
  split; [|split].
  - intros a b xa xb Ha Hb Ho Wa Wb. destruct (Hn _ _ Ha) as [(-> & ->)|(Na & Ea)]; destruct (Hn _ _ Hb) as [(-> & ->)|(Nb & Eb)]; auto.
    + exfalso. apply Nb. eapply F5; eauto. cbn in Ho. congruence.
    + exfalso. apply Na. eapply F5; eauto. cbn in Ho. congruence.
    + eapply Hs; eauto.
  - unfold frame. apply (set_nth_map _ ins k z1 z F2). reflexivity.
  - intros o L HL. destruct (Nat.eqb_spec o (offset x)) as [->|No].
    + assert (HL' : sees ins (offset x) (indices z)). { rewrite <- F4. apply get_sees. exact Hi. }
      rewrite (sees_unique ins _ _ _ Hs HL HL'). destruct (owns z1) eqn:Ez1.
      * left. exists k, z1. rewrite set_nth_same by exact Hlt. auto.
      * right. split; [apply owns_nil in Ez1; exact Ez1|]. intros j y Hj Hy. destruct (Hn _ _ Hj) as [(-> & ->)|(Nj & Ej)]; auto.
        destruct (owns y) eqn:Ey; auto. exfalso. apply Nj. eapply F5; eauto.
    + destruct HL as [(j & y & A1 & A2 & A3 & A4)|(A1 & A2)].
      * left. exists j, y. rewrite set_nth_other; [auto|]. intro. subst j. congruence.
      * right. split; auto. intros j y Hj Hy. destruct (Hn _ _ Hj) as [(-> & ->)|(Nj & Ej)]; [|eauto]. cbn in Hy. congruence.
Qed.

(** *** The owners of the offsets *)
Definition covers (w : list (option nat)) (P : nat -> Prop) : Prop :=
  (forall o, (exists i, nth_error w o = Some (Some i)) <-> P o) /\ (forall o, o < length w -> exists o1, o <= o1 /\ P o1).
Lemma covers_same w w1 P Q : covers w P -> covers w1 Q -> (forall o, P o <-> Q o) ->
  length w = length w1 /\ forall o, nth_error w o = Some None <-> nth_error w1 o = Some None.
Proof.
  intros (A1 & A2) (B1 & B2) H.
  assert (Hl : forall o, o < length w <-> exists o1, o <= o1 /\ P o1).
  { intro o. split; [apply A2|]. intros (o1 & L & Hp). apply A1 in Hp. destruct Hp as (i & Hi). assert (o1 < length w) by (apply nth_error_Some; congruence). lia. }
  assert (Hl1 : forall o, o < length w1 <-> exists o1, o <= o1 /\ P o1).
  { intro o. split; [intro K; destruct (B2 _ K) as (o1 & L & Hp); exists o1; split; auto; apply H; auto|].
    intros (o1 & L & Hp). apply H, B1 in Hp. destruct Hp as (i & Hi). assert (o1 < length w1) by (apply nth_error_Some; congruence). lia. }
  assert (E : length w = length w1).
  { destruct (Nat.lt_trichotomy (length w) (length w1)) as [L|[L|L]]; [|exact L|]; exfalso.
    - apply Hl1, Hl in L. lia.
    - apply Hl, Hl1 in L. lia. }
  split; [exact E|]. intro o. split; intro Ho.
  - assert (L : o < length w1) by (rewrite <- E; apply nth_error_Some; congruence).
    destruct (nth_error w1 o) as [[i|]|] eqn:E1; auto; [|apply nth_error_None in E1; lia].
    assert (Hq : exists i, nth_error w1 o = Some (Some i)) by eauto. apply B1, H, A1 in Hq. destruct Hq. congruence.
  - assert (L : o < length w) by (rewrite E; apply nth_error_Some; congruence).
    destruct (nth_error w o) as [[i|]|] eqn:E1; auto; [|apply nth_error_None in E1; lia].
    assert (Hq : exists i, nth_error w o = Some (Some i)) by eauto. apply A1, H, B1 in Hq. destruct Hq. congruence.
Qed.
Lemma at_least_length w n : length (at_least w n) = max n (length w).
Proof. unfold at_least. rewrite app_length, repeat_length. lia. Qed.
Lemma at_least_nth w n o : nth_error (at_least w n) o = (if o <? length w then nth_error w o else if o <? n then Some None else None).
Proof.
  unfold at_least. destruct (Nat.ltb_spec o (length w)) as [L|L]; [apply nth_error_app1; exact L|].
  rewrite nth_error_app2 by exact L. destruct (Nat.ltb_spec o n) as [M|M].
  - rewrite (nth_error_nth' _ None) by (rewrite repeat_length; lia). f_equal. apply nth_repeat.
  - apply nth_error_None. rewrite repeat_length. lia.
Qed.
Lemma covers_nil : covers [] (fun _ => False).
Proof. split; [intro o; split; [intros (i & H); destruct o; discriminate|tauto]|cbn; intros; lia]. Qed.
(** Assigning or claiming position [off] of the enlarged list. *)
Lemma covers_set w P off i : covers w P -> covers (set_nth (at_least w (S off)) off (Some i)) (fun o => P o \/ o = off).
Proof.
  intros (A1 & A2). assert (L : off < length (at_least w (S off))) by (rewrite at_least_length; lia). split.
  - intro o. destruct (Nat.eq_dec o off) as [->|N].
    + rewrite set_nth_same by exact L. split; eauto.
    + rewrite set_nth_other, at_least_nth by auto. rewrite <- A1. destruct (Nat.ltb_spec o (length w)) as [M|M].
      * tauto.
      * split; [intros (j & Hj); destruct (o <? S off); discriminate|]. intros [(j & Hj)|]; [|contradiction].
        apply nth_error_None in M. congruence.
  - intros o. rewrite set_nth_length, at_least_length. intro Ho. destruct (Nat.lt_ge_cases o (S off)) as [M|M]; [exists off; split; [lia|auto]|].
    destruct (A2 o) as (o1 & ? & ?); [lia|]. exists o1. auto.
Qed.
Lemma claim_covers w P off i : covers w P -> covers (claim_owner (at_least w (S off)) off i) (fun o => P o \/ o = off).
Proof.
  intro H. unfold claim_owner. destruct (nth_error (at_least w (S off)) off) as [[j|]|] eqn:E.
  - destruct H as (A1 & A2). rewrite at_least_nth in E. destruct (Nat.ltb_spec off (length w)) as [L|L]; [|destruct (off <? S off); discriminate].
    assert (Ea : at_least w (S off) = w) by (unfold at_least; replace (S off - length w) with 0 by lia; apply app_nil_r). rewrite Ea.
    split; [|intros o Ho; destruct (A2 o Ho) as (o1 & ? & ?); exists o1; auto].
    intro o. rewrite A1. split; [tauto|]. intros [Hp| ->]; auto. apply A1. eauto.
  - apply covers_set. exact H.
  - apply nth_error_None in E. rewrite at_least_length in E. lia.
Qed.
Lemma claim_again w P off i : covers w P -> P off -> claim_owner w off i = w.
Proof. intros (A1 & _) H. apply A1 in H. destruct H as (j & H). unfold claim_owner. rewrite H. reflexivity. Qed.
Definition owners_ok (ins : list (input Z)) (w : list (option nat)) : Prop :=
  forall o i, nth_error w o = Some (Some i) -> exists x, nth_error ins i = Some x /\ offset x = o.

(** *** Writing the indices *)
Lemma index_owners_spec ins : covers (index_owners ins) (fun o => exists i x, nth_error ins i = Some x /\ offset x = o /\ owns x = true) /\
  (forall o i, nth_error (index_owners ins) o = Some (Some i) -> exists x, nth_error ins i = Some x /\ offset x = o /\ owns x = true).
Proof.
  unfold index_owners. set (f := fun w i => match nth_error ins i with Some x => if owns x then set_nth (at_least w (S (offset x))) (offset x) (Some i) else w | None => w end).
  assert (H : forall n, n <= length ins ->
    covers (fold_left f (seq 0 n) []) (fun o => exists i x, i < n /\ nth_error ins i = Some x /\ offset x = o /\ owns x = true) /\
    (forall o i, nth_error (fold_left f (seq 0 n) []) o = Some (Some i) -> exists x, nth_error ins i = Some x /\ offset x = o /\ owns x = true)).
  { induction n as [|n IH]; intro Hn.
    - cbn. split; [|intros [|o] i H; discriminate]. destruct covers_nil as (A & B). split.
      + intro o. rewrite A. split; [tauto|]. intros (i & x & ? & _). lia.
      + cbn. intros; lia.
    - destruct (IH ltac:(lia)) as (C & O). rewrite seq_S, fold_left_app. cbn [fold_left plus]. unfold f at 1 3.
      destruct (nth_error ins n) as [x|] eqn:Ex; [|apply nth_error_None in Ex; lia]. destruct (owns x) eqn:Eo.
      + split.
        * pose proof (covers_set _ _ (offset x) n C) as (A & B). split.
          -- intro o. rewrite A. split.
             ++ intros [(i & y & ? & ?)| ->]; [exists i, y; split; [lia|auto]|exists n, x; split; [lia|auto]].
             ++ intros (i & y & L & E1 & E2 & E3). destruct (Nat.eq_dec i n) as [->|N]; [right; congruence|left; exists i, y; split; [lia|auto]].
          -- intros o Ho. destruct (B o Ho) as (o1 & L & [(i & y & ? & ?)| ->]); [exists o1; split; [exact L|exists i, y; split; [lia|auto]]|].
             exists (offset x). split; [exact L|]. exists n, x. split; [lia|auto].
        * intros o i. destruct (Nat.eq_dec o (offset x)) as [->|N].
          -- rewrite set_nth_same by (rewrite at_least_length; lia). intro E. injection E as <-. eauto.
          -- rewrite set_nth_other, at_least_nth by auto. destruct (o <? length _); [apply O|]. destruct (o <? S (offset x)); discriminate.
      + split; [|exact O]. destruct C as (A & B). split.
        * intro o. rewrite A. split; intros (i & y & L & E1 & E2 & E3); exists i, y; (split; [|auto]); [lia|].
          destruct (Nat.eq_dec i n) as [->|N]; [|lia]. congruence.
        * intros o Ho. destruct (B o Ho) as (o1 & L & (i & y & ? & ?)). exists o1; split; [exact L|]. exists i, y. split; [lia|auto]. }
  destruct (H (length ins) (le_n _)) as ((A & B) & O). split; [|exact O]. split.
  - intro o. rewrite A. split; [intros (i & x & _ & K); eauto|]. intros (i & x & K & L). exists i, x. split; [apply nth_error_Some; congruence|auto].
  - intros o Ho. destruct (B o Ho) as (o1 & L & (i & x & _ & K)). exists o1. split; eauto.
Qed.
Definition row (ins : list (input Z)) (w : list (option nat)) (fv : nat) : list Z :=
  map (fun o : option nat => match o with Some i => nth fv (get_indices ins i) 0%Z | None => 0%Z end) w.
Definition rows_of (ins : list (input Z)) (w : list (option nat)) (fvs : list nat) : list (list Z) := map (row ins w) fvs.
Definition txt (ins : list (input Z)) (w : list (option nat)) (fvs : list nat) : list Z := spaced (concat (rows_of ins w fvs)).
Lemma txt_app ins w a b : txt ins w (a ++ b) = txt ins w a ++ txt ins w b.
Proof. unfold txt, rows_of. rewrite map_app, concat_app. apply spaced_app. Qed.
Section Write.
Variable ins : list (input Z).
Variable w : list (option nat).
Variable T : nat.
Hypothesis Hw : forall i, In (Some i) w -> length (get_indices ins i) = T.
Lemma corner_text_spec fv : fv < T -> corner_text ins w fv = Some (spaced (row ins w fv)).
Proof.
  intro H. assert (Hw' := Hw). clear Hw. induction w as [|[i|] r IH]; cbn [corner_text row map].
  - reflexivity.
  - rewrite IH by (intros; apply Hw'; right; auto).
    rewrite (nth_error_nth' _ 0%Z) by (rewrite Hw' by (left; auto); exact H). cbn [option_map]. f_equal. unfold spaced. cbn [flat_map].
    rewrite <- app_assoc. reflexivity.
  - rewrite IH by (intros; apply Hw'; right; auto). f_equal.
Qed.
Lemma corners_text_spec fvs : (forall fv, In fv fvs -> fv < T) -> corners_text ins w fvs = Some (txt ins w fvs).
Proof.
  induction fvs as [|fv r IH]; intro H; cbn [corners_text]; [reflexivity|].
  rewrite corner_text_spec by (apply H; left; auto). rewrite IH by (intros; apply H; right; auto). f_equal.
  change (fv :: r) with ([fv] ++ r). rewrite txt_app. f_equal. unfold txt, rows_of. cbn. rewrite app_nil_r. reflexivity.
Qed.
Fixpoint chunks (off : nat) (cs : list nat) : list (list nat) := match cs with [] => [] | c :: r => seq off c :: chunks (off + c) r end.
Fixpoint face_chunks (off : nat) (F : list face) : list (list (list nat)) :=
  match F with [] => [] | f :: r => chunks off (corners f) :: face_chunks (off + sum (corners f)) r end.
Lemma write_loops_spec : forall cs A B off, off + sum cs <= T ->
  write_loops ins w (A ++ cs ++ B) (length A) (length cs) off = Some (map (txt ins w) (chunks off cs), off + sum cs).
Proof.
  induction cs as [|c cs IH]; intros A B off H; cbn [length write_loops chunks map sum fold_right].
  - rewrite Nat.add_0_r. reflexivity.
  - rewrite nth_error_app2 by lia. rewrite Nat.sub_diag. cbn [app nth_error]. cbn [sum fold_right] in H. fold (sum cs) in H |- *.
    rewrite corners_text_spec by (intros fv Hf; apply in_seq in Hf; lia).
    specialize (IH (A ++ [c]) B (off + c)). rewrite <- app_assoc in IH. cbn [app] in IH. rewrite app_length in IH. cbn [length] in IH.
    replace (length A + 1) with (S (length A)) in IH by lia. rewrite IH by lia. do 2 f_equal. lia.
Qed.
Lemma write_faces_spec (t : prim) (h : bool) : forall B A,
  let p := PSet t (entries (A ++ B)) (hole_positions 0 (A ++ B)) ins in
  size (A ++ B) <= T -> (h = false -> forall f, In f B -> snd f = []) ->
  write_faces h p w (length A) (length B) (size A) (length (entries A) - length A) = Some (map (map (txt ins w)) (face_chunks (size A) B)).
Proof.
  induction B as [|f B IH]; intros A p HT Hh; [reflexivity|]. cbn [length write_faces face_chunks map].
  assert (Ehc : (if h then GetHoleCount (Polys (pcounts p) 0 (pholes p) []) (length A) else 0) = length (snd f)).
  { destruct h; [|rewrite (Hh eq_refl f (or_introl eq_refl)); reflexivity]. apply (hole_count _ A f B). split; reflexivity. }
  rewrite Ehc. unfold p at 1 2. cbn [pinputs pcounts].
  assert (Hge : length A <= length (entries A)) by (pose proof (hp_length A 0); lia).
  replace (length A + (length (entries A) - length A)) with (length (entries A)) by lia.
  rewrite entries_app, entries_cons. replace (length (snd f) + 1) with (length (corners f)) by (unfold corners; cbn; lia).
  rewrite write_loops_spec.
  2:{ unfold size in *. rewrite entries_app, entries_cons, !sum_app in HT. lia. }
  specialize (IH (A ++ [f])). cbn zeta in IH. rewrite <- app_assoc in IH. cbn [app] in IH.
  assert (E1 : length (A ++ [f]) = S (length A)) by (rewrite app_length; cbn; lia).
  assert (E2 : size (A ++ [f]) = size A + sum (corners f)).
  { rewrite size_app. unfold size at 2. rewrite entries_cons, entries_nil, app_nil_r. reflexivity. }
  assert (E3 : length (entries (A ++ [f])) - S (length A) = length (entries A) - length A + length (snd f)).
  { rewrite entries_app, app_length, entries_cons, entries_nil, app_nil_r. unfold corners. cbn [length]. lia. }
  rewrite E1, E2, E3 in IH. fold p in IH. rewrite IH; auto. intros; apply Hh; auto. right. auto.
Qed.
End Write.
Lemma chunks_concat : forall cs off, concat (chunks off cs) = seq off (sum cs).
Proof. induction cs as [|c cs IH]; intro off; cbn [chunks concat sum fold_right]; [reflexivity|]. fold (sum cs). rewrite IH, seq_app. reflexivity. Qed.
Lemma txt_concat ins w : forall l, concat (map (txt ins w) l) = txt ins w (concat l).
Proof. induction l as [|a l IH]; [reflexivity|]. cbn [map concat]. rewrite IH, txt_app. reflexivity. Qed.
Lemma face_chunks_concat : forall F off, concat (concat (face_chunks off F)) = seq off (size F).
Proof.
  induction F as [|f F IH]; intro off; [reflexivity|]. cbn [face_chunks concat]. rewrite concat_app, IH, chunks_concat.
  unfold size. rewrite entries_cons, sum_app, seq_app. reflexivity.
Qed.
Lemma all_text ins w : forall F off, concat (concat (map (map (txt ins w)) (face_chunks off F))) = txt ins w (seq off (size F)).
Proof.
  intros F off. rewrite <- face_chunks_concat with (F := F) (off := off). rewrite <- txt_concat. f_equal. rewrite concat_map. reflexivity.
Qed.
