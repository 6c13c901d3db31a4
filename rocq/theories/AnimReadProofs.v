(** Lemmas for reading the sources of animations. *)
From Coq Require Import String List ZArith NArith QArith Qabs Bool Lia.
From Verif Require Import TextModel TextSpec TextProofs StringModel FloatModel FloatSpec DaeModel DaeSpec DaeProofs RigModel RigSpec RigTextProofs RigProofs CrcModel
  AnimModel AnimSpec.
Import ListNotations.
Local Open Scope nat_scope.
Local Open Scope list_scope.

(** *** Rows *)
Section Rows.
Variables (a : arith) (w : nat).
Hypothesis Hw : 0 < w.
Notation reads := (parses (ToFloat a)).
Definition cells_ok (cells : list (list Q)) : Prop := Forall (fun c => List.length c = w) cells.
Lemma parses_ne s v vs : reads s (v :: vs) -> s <> [].
Proof. inversion 1; auto. Qed.
Lemma read_row_spec : forall cells s rest room, cells_ok cells -> List.length cells <= room -> reads s (List.concat cells ++ rest) ->
  exists s', read_row a w (List.length cells) room s = Some (cells, s') /\ reads s' rest /\ (cells <> [] -> List.length s' < List.length s).
Proof.
  induction cells as [|c cells IH]; intros s rest room Hc Hr H.
  - exists s. cbn. split; [destruct s; reflexivity|]. split; [exact H|congruence].
  - inversion Hc as [|? ? H1 H2]; subst. cbn [List.concat] in H. rewrite <- app_assoc in H.
    destruct (to_floats_split a c s _ H) as (s1 & E & H3 & Hlt). rewrite H1 in E.
    destruct c as [|q c]; [cbn in H1; lia|]. pose proof (parses_ne _ _ _ H) as Hne.
    destruct room as [|room]; [cbn in Hr; lia|]. cbn [List.length] in Hr.
    destruct (IH s1 rest room H2 ltac:(lia) H3) as (s2 & E2 & H4 & Hlt2).
    exists s2. cbn [List.length read_row]. destruct s as [|x s]; [congruence|]. rewrite E, E2. split; [reflexivity|]. split; [exact H4|].
    intros _. specialize (Hlt ltac:(discriminate)). destruct cells; [|specialize (Hlt2 ltac:(discriminate)); lia].
    cbn in E2. destruct s1; injection E2 as <-; exact Hlt.
Qed.
Variable k : nat.
Hypothesis Hk : 0 < k.
Definition rows_ok (rows : list (list (list Q))) : Prop := Forall (fun r => List.length r = k /\ cells_ok r) rows.
Definition flat (rows : list (list (list Q))) : list Q := List.concat (map (@List.concat Q) rows).
Lemma row_filled (r : list (list Q)) : List.length r = k -> r <> [].
Proof. intros H ->. cbn in H. lia. Qed.
Lemma row_first (r : list (list Q)) rest s : List.length r = k -> cells_ok r -> reads s (List.concat r ++ rest) -> s <> [].
Proof.
  intros H1 H2 H. destruct r as [|c r]; [cbn in H1; lia|]. inversion H2 as [|? ? Hc _]. destruct c; [exfalso; cbn in Hc; lia|]. cbn in H. apply (parses_ne _ _ _ H).
Qed.
Lemma read_rows_spec : forall count rows s, rows_ok rows -> reads s (flat rows) -> count <= List.length rows ->
  exists s', read_rows a w k count s = Some (firstn count rows, s') /\ reads s' (flat (skipn count rows)).
Proof.
  induction count as [|count IH]; intros rows s Hr H Hc; [exists s; split; [destruct s; reflexivity|exact H]|].
  destruct rows as [|r rows]; [cbn in Hc; lia|]. inversion Hr as [|? ? (H1 & H2) H3]; subst.
  change (flat (r :: rows)) with (List.concat r ++ flat rows) in H.
  destruct (read_row_spec r s (flat rows) (List.length r) H2 (le_n _) H) as (s1 & E & H4 & _).
  pose proof (row_first r _ s H1 H2 H) as Hne.
  destruct (IH rows s1 H3 H4 ltac:(cbn in Hc; lia)) as (s2 & E2 & H5). exists s2. cbn [read_rows firstn skipn].
  destruct s as [|x s]; [congruence|]. rewrite H1 in E. rewrite E, E2. auto.
Qed.
Lemma more_rows_spec room : k <= room -> forall fuel rows s, rows_ok rows -> reads s (flat rows) -> List.length s <= fuel -> more_rows a fuel w k room s = Some rows.
Proof.
  intros Hroom. induction fuel as [|fuel IH]; intros rows s Hr H Hf.
  - destruct s; [|cbn in Hf; lia]. destruct rows as [|r rows]; [reflexivity|]. inversion Hr as [|? ? (H1 & H2) _]; subst.
    exfalso. now apply (row_first r (flat rows) [] H1 H2 H).
  - destruct rows as [|r rows].
    + inversion H; subst. reflexivity.
    + inversion Hr as [|? ? (H1 & H2) H3]; subst. change (flat (r :: rows)) with (List.concat r ++ flat rows) in H.
      destruct (read_row_spec r s (flat rows) room H2 ltac:(lia) H) as (s1 & E & H4 & Hlt). specialize (Hlt (row_filled r H1)).
      pose proof (row_first r _ s H1 H2 H) as Hne. destruct s as [|x s]; [congruence|]. cbn [more_rows]. rewrite H1 in E. rewrite E.
      rewrite (IH rows s1 H3 H4 ltac:(cbn in *; lia)). reflexivity.
Qed.
Lemma read_table_spec more_k count rows s : rows_ok rows -> reads s (flat rows) -> count <= List.length rows -> (more_k = k \/ count = List.length rows) ->
  read_table a w k more_k count s = Some (firstn count rows, skipn count rows).
Proof.
  intros Hr H Hc Hm. destruct (read_rows_spec count rows s Hr H Hc) as (s1 & E & H1). unfold read_table. rewrite E.
  assert (Hs : rows_ok (skipn count rows)).
  { unfold rows_ok in *. rewrite Forall_forall in *. intros x Hx. apply Hr. rewrite <- (firstn_skipn count rows). apply in_or_app. now right. }
  destruct Hm as [-> | ->].
  - rewrite (more_rows_spec k (le_n _) _ _ _ Hs H1 (le_n _)). reflexivity.
  - rewrite skipn_all in *. inversion H1; subst. reflexivity.
Qed.
End Rows.
Lemma column_spec (w k count : nat) rows i : rows_ok w k rows -> count <= List.length rows -> i < k ->
  column count (firstn count rows) (skipn count rows) i = map (fun r => nth_error r i) rows.
Proof.
  intros Hr Hc Hi. unfold column. rewrite firstn_length_le by exact Hc. rewrite Nat.sub_diag. cbn [repeat app].
  rewrite <- (firstn_skipn count rows) at 3. rewrite map_app. f_equal.
  assert (Hs : rows_ok w k (skipn count rows)).
  { unfold rows_ok in *. rewrite Forall_forall in *. intros x Hx. apply Hr. rewrite <- (firstn_skipn count rows). apply in_or_app. now right. }
  revert Hs. generalize (skipn count rows). induction l as [|r l IH]; intro Hs; [reflexivity|]. inversion Hs as [|? ? (H1 & _) H2]; subst. cbn [map flat_map].
  rewrite (IH H2). destruct (nth_error r i) eqn:E; [reflexivity|]. apply nth_error_None in E. lia.
Qed.

(** *** Cutting a list of numbers into rows *)
Lemma chunk (w : nat) : forall k (l : list Q), List.length l = w * k -> exists cells, List.length cells = k /\ cells_ok w cells /\ List.concat cells = l.
Proof.
  induction k as [|k IH]; intros l H.
  - exists []. destruct l; [|cbn in H; lia]. repeat split. constructor.
  - destruct (IH (skipn w l)) as (cells & H1 & H2 & H3); [rewrite skipn_length; lia|]. exists (firstn w l :: cells). split; [cbn; lia|]. split.
    + constructor; [apply firstn_length_le; lia|exact H2].
    + cbn. rewrite H3. apply firstn_skipn.
Qed.
Lemma chunk_nth (w : nat) : forall cells i c, cells_ok w cells -> i < List.length cells -> c < w -> nth c (nth i cells []) 0%Q = nth (w * i + c) (List.concat cells) 0%Q.
Proof.
  induction cells as [|x cells IH]; intros i c H Hi Hc; [cbn in Hi; lia|]. inversion H as [|? ? H1 H2]; subst. cbn [List.concat]. destruct i as [|i].
  - rewrite Nat.mul_0_r. cbn [nth Nat.add]. symmetry. apply app_nth1. lia.
  - cbn [nth]. rewrite IH by (auto; cbn in Hi; lia). rewrite app_nth2 by lia. f_equal. lia.
Qed.
Lemma Forall2_nthq l rs : Forall2 (fun v r => r == v)%Q l rs -> forall k, (nth k rs 0 == nth k l 0)%Q.
Proof. induction 1 as [|v r l rs H _ IH]; intros [|k]; cbn; try reflexivity; auto. Qed.
Lemma rechunk (w k : nat) : forall rows rs, Forall (fun r => List.length r = w * k) rows -> Forall2 (fun v r => r == v)%Q (List.concat rows) rs ->
  exists crows, rows_ok w k crows /\ flat crows = rs /\ List.length crows = List.length rows /\
    Forall2 (fun row crow => forall i c, i < k -> c < w -> (nth c (nth i crow []) 0 == nth (w * i + c) row 0)%Q) rows crows.
Proof.
  induction rows as [|r rows IH]; intros rs Hl H.
  - inversion H; subst. exists []. split; [constructor|]. split; [reflexivity|]. split; [reflexivity|constructor].
  - cbn [List.concat] in H. inversion Hl as [|? ? H1 H2]; subst. apply Forall2_app_l in H as (r1 & r2 & -> & Ha & Hb).
    destruct (IH r2 H2 Hb) as (cr & H3 & H4 & H5 & H6). pose proof (Forall2_len _ _ _ Ha) as Hlen.
    destruct (chunk w k r1 ltac:(lia)) as (cells & H7 & H8 & H9). exists (cells :: cr). split; [constructor; auto|].
    split; [unfold flat in *; cbn; rewrite H9, H4; reflexivity|]. split; [cbn; lia|]. constructor; [|exact H6].
    intros i c Hi Hc. rewrite (chunk_nth w cells i c H8 ltac:(lia) Hc), H9. now apply Forall2_nthq.
Qed.

(** *** Sources *)
(** The entry j of column i: the w numbers of the row, or none. *)
Definition entry_is (w : nat) (rows : list (list Q)) (i j : nat) (e : option (list Q)) : Prop :=
  if j <? List.length rows then exists v, e = Some v /\ forall c, c < w -> (nth c v 0 == at_row rows j (w * i + c))%Q else e = None.
Definition column_is (w : nat) (rows : list (list Q)) (i : nat) (col : list (option (list Q))) : Prop :=
  List.length col = List.length rows /\ forall j e, nth_error col j = Some e -> exists v, e = Some v /\ forall c, c < w -> (nth c v 0 == at_row rows j (w * i + c))%Q.
Lemma accessor_read n stride count : 0 < stride -> accessor n stride count ->
  Z.to_nat (count_of (FindTechniqueAccessor n)) = count /\ Z.to_nat (stride_of (FindTechniqueAccessor n)) = stride /\
  count_of (FindTechniqueAccessor n) = Z.of_nat count /\ stride_of (FindTechniqueAccessor n) = Z.of_nat stride.
Proof.
  intros Hs (tc & acc & t1 & t2 & H1 & H2 & H3 & D1 & H4 & D2 & L1 & L2). unfold FindTechniqueAccessor, FindChildByType, child_of.
  rewrite (find_elem _ _ _ H1). unfold FindChildByType. rewrite (find_elem _ _ _ H2). unfold count_of, stride_of, property_of.
  apply decimal_dec in D1, D2. subst t1 t2.
  rewrite (has_attr_plain _ _ _ H3 (dec_plain _ (Nat2Z.is_nonneg stride))), (has_attr_plain _ _ _ H4 (dec_plain _ (Nat2Z.is_nonneg count))).
  rewrite !read_u32 by lia. rewrite (proj2 (Z.eqb_neq _ _)) by lia. rewrite !Nat2Z.id. auto.
Qed.
Lemma table_rows a n (w k count : nat) rows : 0 < w -> 0 < k -> table n (w * k) count rows -> exists crows, rows_ok w k crows /\ parses (ToFloat a) (float_text_of n) (flat crows) /\
  List.length crows = List.length rows /\
  Forall2 (fun row crow => forall i c, i < k -> c < w -> (nth c (nth i crow []) 0 == nth (w * i + c) row 0)%Q) rows crows.
Proof.
  intros Hw Hk (_ & _ & Hl & nm & at' & ch & e & t & -> & Ht & Hf & Hn). destruct (floats_of_parse a t _ Hn) as (rs & Hp & Hq).
  destruct (rechunk w k rows rs Hl Hq) as (crows & H1 & H2 & H3 & H4). exists crows. split; [exact H1|]. split; [|auto]. rewrite H2.
  unfold float_text_of, FindChildByType. cbn [children_of]. rewrite (find_elem _ _ _ Hf). cbn [content_of]. rewrite (has_text_read _ _ Ht). exact Hp.
Qed.
Lemma column_of_rows (w k : nat) rows crows i : rows_ok w k crows -> List.length crows = List.length rows -> i < k ->
  Forall2 (fun row crow => forall i c, i < k -> c < w -> (nth c (nth i crow []) 0 == nth (w * i + c) row 0)%Q) rows crows ->
  column_is w rows i (map (fun r => nth_error r i) crows).
Proof.
  intros Hr Hlen Hi H. split; [now rewrite map_length|]. intros j e He. rewrite nth_error_map in He. destruct (nth_error crows j) as [crow|] eqn:E; [|discriminate].
  injection He as <-. unfold rows_ok in Hr. rewrite Forall_forall in Hr. destruct (Hr _ (nth_error_In _ _ E)) as (H1 & H2).
  destruct (nth_error crow i) as [v|] eqn:Ev; [|apply nth_error_None in Ev; lia]. exists v. split; [reflexivity|]. intros c Hc. unfold at_row.
  clear Hr Hlen. revert j E. induction H as [|row cr rows crows Hrow _ IH]; intros [|j] E; try discriminate.
  - cbn in E. injection E as ->. cbn [nth]. specialize (Hrow i c Hi Hc). rewrite (nth_error_nth _ _ _ Ev) in Hrow. exact Hrow.
  - cbn [nth]. apply IH. exact E.
Qed.
Lemma map_ext_seq {A} (f g : nat -> A) k : (forall i, i < k -> f i = g i) -> map f (seq 0 k) = map g (seq 0 k).
Proof. intro H. apply map_ext_in. intros i Hi. apply in_seq in Hi. apply H. lia. Qed.
Lemma nth_error_seq_map {A} (f : nat -> A) k i x : nth_error (map f (seq 0 k)) i = Some x -> i < k /\ x = f i.
Proof.
  intro H. assert (Hi : i < k). { destruct (Nat.lt_ge_cases i k) as [|Hge]; auto. exfalso.
    assert (nth_error (map f (seq 0 k)) i = None) by (apply nth_error_None; rewrite map_length, seq_length; exact Hge). congruence. }
  split; [exact Hi|]. rewrite nth_error_map in H. assert (E : nth_error (seq 0 k) i = Some i).
  { rewrite (nth_error_nth' (seq 0 k) 0) by (rewrite seq_length; exact Hi). now rewrite seq_nth. }
  rewrite E in H. cbn in H. congruence.
Qed.
Definition columns_are (w k : nat) (rows : list (list Q)) (cols : list (list (option (list Q)))) : Prop :=
  List.length cols = k /\ forall i col, nth_error cols i = Some col -> column_is w rows i col.
Lemma read_interleaved a (w k count : nat) n rows : 1 < w -> table n (w * k) count rows -> count <= List.length rows -> (w = 2 \/ count = List.length rows) ->
  exists cols, ReadInterleaved a w k n = Some (w * k, cols) /\ columns_are w k rows cols.
Proof.
  intros Hw Ht Hc Hm. assert (Hk : 0 < k) by (destruct Ht as (H & _); destruct k; [rewrite Nat.mul_0_r in H; lia|lia]).
  destruct (table_rows a n w k count rows ltac:(lia) Hk Ht) as (crows & H1 & H2 & H3 & H4). destruct Ht as (Hs & Hacc & _).
  destruct (accessor_read _ _ _ Hs Hacc) as (E1 & E2 & _). unfold ReadInterleaved. rewrite E1, E2. rewrite (proj2 (Nat.eqb_neq (w * k) k)) by nia.
  assert (El : (w * k + w - 1) / w = k).
  { replace (w * k + w - 1) with (k * w + (w - 1)) by lia. rewrite Nat.div_add_l by lia. rewrite Nat.div_small by lia. lia. }
  rewrite El. rewrite (read_table_spec a w ltac:(lia) k Hk ((w * k + 1) / 2) count crows _ H1 H2 ltac:(lia)).
  2:{ destruct Hm as [-> | ->]; [left|right; lia]. replace (2 * k + 1) with (k * 2 + 1) by lia. rewrite Nat.div_add_l by lia. cbn. lia. }
  eexists. split; [reflexivity|]. split; [now rewrite map_length, seq_length|]. intros i col Hi. apply nth_error_seq_map in Hi as (Hi & ->).
  replace (w * k / w) with k by (rewrite Nat.mul_comm, Nat.div_mul; lia). rewrite (proj2 (Nat.ltb_lt i k) Hi).
  rewrite (column_spec w k count crows i H1 ltac:(lia) Hi). apply (column_of_rows w k); auto.
Qed.
Lemma read_relative a (w k count : nat) n rows : table n k count rows -> count <= List.length rows ->
  exists cols, ReadInterleaved a w k n = Some (k, cols) /\ columns_are 1 k rows cols.
Proof.
  intros Ht Hc. assert (Hk : 0 < k) by (destruct Ht as (H & _); exact H). assert (Ht' : table n (1 * k) count rows) by (rewrite Nat.mul_1_l; exact Ht).
  destruct (table_rows a n 1 k count rows ltac:(lia) Hk Ht') as (crows & H1 & H2 & H3 & H4). destruct Ht as (Hs & Hacc & _).
  destruct (accessor_read _ _ _ Hs Hacc) as (E1 & E2 & _). unfold ReadInterleaved. rewrite E1, E2, Nat.eqb_refl.
  rewrite (read_table_spec a 1 ltac:(lia) k Hk k count crows _ H1 H2 ltac:(lia) (or_introl eq_refl)).
  eexists. split; [reflexivity|]. split; [now rewrite map_length, seq_length|]. intros i col Hi. apply nth_error_seq_map in Hi as (Hi & ->).
  rewrite (column_spec 1 k count crows i H1 ltac:(lia) Hi). destruct (column_of_rows 1 k rows crows i H1 H3 Hi H4) as (L & H5).
  split; [rewrite map_length; exact L|]. intros j e He. rewrite nth_error_map in He. destruct (nth_error (map (fun r => nth_error r i) crows) j) as [e'|] eqn:E; [|discriminate].
  destruct (H5 j e' E) as (v & -> & Hv). injection He as <-. exists (v ++ repeat 0%Q (w - 1)). split; [reflexivity|]. intros c Hcc. assert (c = 0) by lia. subst c.
  specialize (Hv 0 ltac:(lia)). destruct v as [|q v]; [|exact Hv]. cbn in Hv. rewrite <- Hv. destruct (w - 1); reflexivity.
Qed.
Lemma filter_full (k : nat) : forall l : list (list (list Q)), Forall (fun r => List.length r = k) l -> List.length (filter (fun r => List.length r =? k) l) = List.length l.
Proof. induction 1 as [|r l H _ IH]; [reflexivity|]. cbn. rewrite H, Nat.eqb_refl. cbn. now rewrite IH. Qed.
Lemma read_values a (k count : nat) n rows : table n k count rows -> count <= List.length rows ->
  exists cols, ReadInterleavedFloats a k n = Some cols /\ columns_are 1 k rows cols.
Proof.
  intros Ht Hc. assert (Hk : 0 < k) by (destruct Ht as (H & _); exact H). assert (Ht' : table n (1 * k) count rows) by (rewrite Nat.mul_1_l; exact Ht).
  destruct (table_rows a n 1 k count rows ltac:(lia) Hk Ht') as (crows & H1 & H2 & H3 & H4). destruct Ht as (Hs & Hacc & _).
  destruct (accessor_read _ _ _ Hs Hacc) as (E1 & E2 & _). unfold ReadInterleavedFloats. rewrite E1.
  rewrite (read_table_spec a 1 ltac:(lia) k Hk k count crows _ H1 H2 ltac:(lia) (or_introl eq_refl)).
  eexists. split; [reflexivity|]. split; [now rewrite map_length, seq_length|]. intros i col Hi. apply nth_error_seq_map in Hi as (Hi & ->).
  rewrite (column_spec 1 k count crows i H1 ltac:(lia) Hi). rewrite filter_full.
  2:{ unfold rows_ok in H1. rewrite Forall_forall in *. intros x Hx. apply H1. rewrite <- (firstn_skipn count crows). apply in_or_app. now right. }
  rewrite <- app_length, firstn_skipn. rewrite firstn_all2 by (rewrite map_length; lia). apply (column_of_rows 1 k); auto.
Qed.
Lemma read_interpolations n taken : interpolation_source n taken -> ReadSourceInterpolation (Some n) = Some (map InterpolationFromString taken).
Proof.
  intros (stride & l & Hs & Hacc & Hlt & Hl & nm & at' & ch & e & t & -> & Ht & Hf & Hw). unfold ReadSourceInterpolation.
  destruct (accessor_read _ _ _ Hs Hacc) as (E1 & E2 & E3 & E4). rewrite E1, E4. unfold FindChildByType at 1. cbn [children_of].
  rewrite (find_elem _ _ _ Hf). cbn [content_of]. rewrite (has_text_read _ _ Ht), (to_string_list_any t l _ Hw). clear - Hl Hs Hlt.
  assert (G : forall m off, (forall i, i < List.length m -> nth_error l ((off + i) * stride) = nth_error m i) ->
    (Z.of_nat ((off + List.length m) * stride) < 4294967296)%Z ->
    fold_right (fun i r => match nth_error l (Z.to_nat (u32 (Z.of_nat i * Z.of_nat stride))), r with
      | Some t, Some r => Some (InterpolationFromString t :: r) | _, _ => None end) (Some []) (seq off (List.length m)) = Some (map InterpolationFromString m)).
  { induction m as [|x m IH]; intros off H Hb; [reflexivity|]. cbn [List.length seq fold_right map]. rewrite IH.
    - unfold u32. rewrite Z.mod_small by (cbn [List.length] in Hb; nia). rewrite <- Nat2Z.inj_mul, Nat2Z.id. specialize (H 0 ltac:(cbn; lia)).
      rewrite Nat.add_0_r in H. rewrite H. reflexivity.
    - intros i Hi. specialize (H (S i) ltac:(cbn; lia)). cbn [nth_error] in H. rewrite <- H. f_equal. lia.
    - cbn [List.length] in Hb. nia. }
  apply (G taken 0); [intros i Hi; apply Hl; exact Hi|exact Hlt].
Qed.

(** *** Finding elements by their ids *)
Lemma find_by_crc scopes id n : refers scopes id n -> FindChildByIdFCDAnimation scopes (35%Z :: id) = Some n.
Proof.
  intros (_ & inner & l & outer & -> & Hi & Hf & Hu).
  assert (G : forall c l', In l' (inner ++ [l]) -> In c l' -> (is_element c && (id_crc c =? CRC32 (map Z.to_N (drop_hash (35%Z :: id))))%N = true <-> with_id id c)).
  { intros c l' Hl' Hc. destruct (Hu l' c Hl' Hc) as (H1 & H2). change (drop_hash (35%Z :: id)) with id. change (map Z.to_N id) with (bytes id). unfold with_id. split.
    - intro H. apply andb_true_iff in H as (He & H). apply N.eqb_eq in H. destruct c as [nm at' ch|t]; [|discriminate]. cbn [id_crc] in H.
      destruct (find_attr at' (tx "id")) as [v|] eqn:E.
      + apply find_attr_inv in E as (pre & post & -> & Hp). assert (Ha : has_attr (Elem nm (pre ++ (tx "id", v) :: post) ch) "id" v) by (exists nm, ch, pre, post; auto).
        pose proof (H1 v Ha H) as E. subst v. exact Ha.
      + exfalso. apply H2; [|now symmetry]. intros nm' at2 ch' E2. injection E2 as _ <- _. rewrite Forall_forall. intros x Hx Ex.
        clear - E Hx Ex. induction at' as [|[p q] r IH]; [destruct Hx|]. cbn [find_attr] in E. destruct (text_eq p (tx "id")) eqn:Ep; [discriminate|].
        destruct Hx as [<- | Hx]; [|auto]. cbn in Ex. subst p. now rewrite text_eq_refl in Ep.
    - intros (nm & ch & pre & post & -> & Hp). cbn [is_element id_crc]. rewrite find_attr_some by exact Hp. apply N.eqb_refl. }
  revert G Hi. clear Hu. induction inner as [|x inner IH]; intros G Hi.
  - cbn [app FindChildByIdFCDAnimation]. rewrite (find_first _ (with_id id) l n); [reflexivity| |exact Hf]. intros d Hd. apply (G d l); auto. left. reflexivity.
  - inversion Hi as [|? ? H1 H2]; subst. cbn [app FindChildByIdFCDAnimation]. rewrite find_none.
    + apply IH; [|exact H2]. intros c l' Hl'. apply G. right. exact Hl'.
    + rewrite Forall_forall in *. intros d Hd. apply not_true_is_false. intro H. apply (H1 d Hd). apply (G d x); auto. left. reflexivity.
Qed.
