(** Reading a <skin> element. *)
From Coq Require Import List ZArith QArith Qabs Bool String Permutation Lia Lqa.
From Verif Require Import TextModel TextSpec TextProofs StringModel XmlModel FloatModel FloatSpec FloatProofs FloatProps SkinModel DaeModel DaeSpec StringProofs DaeProofs RigModel RigSpec RigTextProofs.
Import ListNotations.
Local Open Scope nat_scope.
Local Open Scope list_scope.

(** *** XML *)
Lemma named_iff c k : named c k = true <-> is_elem k c.
Proof.
  unfold is_elem. destruct c as [n a ch|t]; cbn.
  - rewrite text_eq_spec. split; [intros ->; eauto|intros (x & y & E); inversion E; auto].
  - split; [discriminate|intros (x & y & E); discriminate].
Qed.
Lemma named_not c k : named c k = false <-> ~ is_elem k c.
Proof. rewrite <- named_iff. destruct (named c k); split; congruence. Qed.
Lemma find_first (p : xml -> bool) (P : xml -> Prop) ch c : (forall d, In d ch -> (p d = true <-> P d)) -> first_child ch P c -> find p ch = Some c.
Proof.
  intros Hp (pre & post & -> & Hc & Hpre).
  assert (Hn : Forall (fun d => p d = false) pre).
  { rewrite Forall_forall in *. intros d Hd. specialize (Hpre d Hd). destruct (p d) eqn:E; auto. apply Hp in E; [contradiction|].
    apply in_or_app. auto. }
  assert (Hpc : p c = true) by (apply Hp; auto; apply in_or_app; right; now left). clear - Hn Hpc.
  induction Hn as [|d pre Hd Hn IH]; cbn; [now rewrite Hpc|]. now rewrite Hd.
Qed.
Lemma find_none (p : xml -> bool) ch : Forall (fun d => p d = false) ch -> find p ch = None.
Proof. induction 1 as [|d l Hd _ IH]; cbn; auto. now rewrite Hd. Qed.
Lemma find_elem ch k c : first_child ch (is_elem k) c -> find (fun d => named d k) ch = Some c.
Proof. apply find_first. intros d _. apply named_iff. Qed.
Lemma find_no_elem ch k : Forall (fun c => ~ is_elem k c) ch -> find (fun d => named d k) ch = None.
Proof. intro H. apply find_none. revert H. apply Forall_impl. intro c. apply named_not. Qed.
Lemma find_attr_some pre k v post : Forall (fun a : list Z * list Z => fst a <> k) pre -> find_attr (pre ++ (k, v) :: post) k = Some v.
Proof.
  induction 1 as [|[a w] pre Ha _ IH]; cbn; [now rewrite text_eq_refl|]. cbn in Ha. now rewrite (text_eq_neq a k Ha).
Qed.
Lemma find_attr_none l k : Forall (fun a : list Z * list Z => fst a <> k) l -> find_attr l k = None.
Proof. induction 1 as [|[a w] l Ha _ IH]; cbn; auto. cbn in Ha. now rewrite (text_eq_neq a k Ha). Qed.
Lemma find_attr_inv l k v : find_attr l k = Some v -> exists pre post, l = pre ++ (k, v) :: post /\ Forall (fun a : list Z * list Z => fst a <> k) pre.
Proof.
  induction l as [|[a w] l IH]; cbn; [discriminate|]. destruct (text_eq a k) eqn:E; intro H.
  - apply text_eq_spec in E. injection H as <-. subst a. exists [], l. auto.
  - destruct (IH H) as (pre & post & -> & Hp). exists ((a, w) :: pre), post. split; [reflexivity|]. constructor; auto. cbn. intros ->.
    rewrite text_eq_refl in E. discriminate.
Qed.
Lemma has_attr_read n k v : has_attr n k v -> ReadNodeProperty n k = XmlToString v.
Proof. intros (name & ch & pre & post & -> & H). cbn. now rewrite find_attr_some. Qed.
Lemma has_attr_plain n k v : has_attr n k v -> plain v -> ReadNodeProperty n k = v.
Proof. intros H Hp. rewrite (has_attr_read _ _ _ H). now apply plain_same. Qed.
Lemma no_attr_read n k : no_attr n k -> ReadNodeProperty n k = [].
Proof. destruct n as [name attrs ch|t]; cbn; auto. intro H. rewrite find_attr_none; auto. apply (H name attrs ch eq_refl). Qed.
Lemma read_attr_has n k v : ReadNodeProperty n k = v -> v <> [] -> exists w, has_attr n k w /\ XmlToString w = v.
Proof.
  destruct n as [name attrs ch|t]; cbn; [|congruence]. destruct (find_attr attrs (tx k)) as [w|] eqn:E; [|congruence].
  intros H _. apply find_attr_inv in E as (pre & post & -> & Hp). exists w. split; [|exact H]. exists name, ch, pre, post. auto.
Qed.
Lemma has_text_read n t : has_text n t -> ReadNodeContentDirect n = t.
Proof. intros (name & attrs & ch & -> & [(-> & ->) | (r & ->)]); reflexivity. Qed.
Lemma legal_hash id : proper_id id -> XmlToString (35%Z :: id) = 35%Z :: id.
Proof.
  intros ((Hb & H37) & _). apply plain_same. split; [constructor; auto; lia|]. intros [E|H]; [discriminate|contradiction].
Qed.
Lemma find_by_id n a ch id s : n = Elem (tx "skin") a ch \/ n = Elem (tx "morph") a ch -> proper_id id ->
  (forall c v, In c ch -> has_attr c "id" v -> plain v) -> first_child ch (with_id id) s -> FindChildById n (35%Z :: id) = Some s.
Proof.
  intros Hn (Hp & Hne) Hids Hf. unfold FindChildById.
  assert (E : drop_hash (35%Z :: id) = id) by reflexivity. rewrite E.
  assert (Ec : children_of n = ch) by (destruct Hn as [-> | ->]; reflexivity). rewrite Ec.
  apply find_first with (P := with_id id); auto. intros d Hd. unfold with_id. split.
  - intro H. destruct d as [nm at' c'|t]; [|discriminate]. apply text_eq_spec in H.
    destruct (read_attr_has _ _ _ H Hne) as (w & Hw & Ew). rewrite (plain_same w (Hids _ _ Hd Hw)) in Ew. subst w. exact Hw.
  - intro H. pose proof (has_attr_plain _ _ _ H Hp) as E2. destruct H as (nm & c' & pre & post & -> & _). rewrite E2. apply text_eq_refl.
Qed.
Lemma inputs_filter l ins : inputs_among l ins -> filter (fun c => named c "input") l = ins.
Proof.
  induction 1 as [|c l ins Hc _ IH|c l ins Hc _ IH]; cbn; auto.
  - apply named_not in Hc. now rewrite Hc.
  - apply named_iff in Hc. rewrite Hc. now f_equal.
Qed.
Lemma combiner_split pre ins vc rest : inputs_among pre ins -> Forall (fun c => ~ is_elem "v" c /\ ~ is_elem "vcount" c) pre ->
  is_elem "vcount" vc -> combiner_children (pre ++ vc :: rest) = (ins, vc :: rest).
Proof.
  intros Hi Hp Hv. induction Hi as [|c l ins Hc _ IH|c l ins Hc _ IH]; cbn [app combiner_children].
  - destruct Hv as (a & ch & ->). reflexivity.
  - inversion Hp as [|? ? (H1 & H2) H3]; subst. apply named_not in Hc, H1, H2. rewrite Hc, H1, H2. cbn. auto.
  - inversion Hp; subst. apply named_iff in Hc. rewrite Hc, IH by auto. reflexivity.
Qed.
Lemma input_parts i sem id o : input_is i sem id o -> proper_id id -> plain (tx sem) ->
  ReadNodeProperty i "semantic" = tx sem /\ ReadNodeProperty i "source" = 35%Z :: id /\
  match o with Some z => ReadNodeProperty i "offset" = XmlToString (append_i32 z) | None => ReadNodeProperty i "offset" = [] end.
Proof.
  intros (H1 & H2 & H3) Hl Hp. split; [apply has_attr_plain; auto|]. split.
  - rewrite (has_attr_read _ _ _ H2). now apply legal_hash.
  - destruct o as [z|].
    + destruct H3 as (t & Ht & Hs). rewrite (has_attr_read _ _ _ Ht). now rewrite (signed_append z t Hs).
    + now apply no_attr_read.
Qed.

(** *** Sources *)
Lemma read_words s l : word_source s l -> ReadSourceStrings (Some s) [] = Some l.
Proof.
  intros (nm & at' & ch & e & t & -> & Ht & Hw & H). unfold ReadSourceStrings, FindChildByType. cbn [children_of].
  assert (E : content_of (match find (fun c => named c "Name_array") ch with Some c => Some c | None => find (fun c => named c "IDREF_array") ch end) = t).
  { destruct H as [H|(H1 & H2)].
    - rewrite (find_elem _ _ _ H). cbn. now apply has_text_read.
    - rewrite (find_no_elem _ _ H1), (find_elem _ _ _ H2). cbn. now apply has_text_read. }
  rewrite E. unfold resize. rewrite firstn_nil. cbn [app List.length]. now apply to_string_list_any.
Qed.
Lemma read_floats a s l old : float_source s l -> exists rs, ReadSourceFloats a (Some s) old = Some rs /\ Forall2 (fun v r => r == v)%Q l rs.
Proof.
  intros (nm & at' & ch & e & t & -> & Ht & Hn & H). unfold ReadSourceFloats, FindChildByType. cbn [children_of].
  rewrite (find_elem _ _ _ H). cbn [content_of]. rewrite (has_text_read _ _ Ht).
  destruct (floats_of_parse a t l Hn) as (rs & Hp & Hk). exists rs. split; auto. now apply to_list_spec.
Qed.
Lemma read_matrices a s ps old : float_source s (flat_map components ps) -> exists ms, ReadSourceMatrices a (Some s) old = Some ms /\ Forall2 same_matrix ps ms.
Proof.
  intros (nm & at' & ch & e & t & -> & Ht & Hn & H). unfold ReadSourceMatrices, FindChildByType. cbn [children_of].
  rewrite (find_elem _ _ _ H). cbn [content_of]. rewrite (has_text_read _ _ Ht). now apply to_matrix_list_spec.
Qed.

(** *** Inputs *)
Section Inputs.
Variables (a : arith) (n : xml) (J B W : list Z) (d : skin_data) (sj sb sw : xml).
Hypothesis HJ : proper_id J.
Hypothesis HB : proper_id B.
Hypothesis HW : proper_id W.
Hypothesis FJ : FindChildById n (35%Z :: J) = Some sj.
Hypothesis FB : FindChildById n (35%Z :: B) = Some sb.
Hypothesis FW : FindChildById n (35%Z :: W) = Some sw.
Hypothesis SJ : word_source sj (d_names d).
Hypothesis SB : float_source sb (flat_map components (d_poses d)).
Hypothesis SW : float_source sw (d_weights d).
Definition set_at (o : option Z) (old : Z) : Z := match o with Some z => z | None => old end.
Lemma plain_sem k : In k ["JOINT"; "INV_BIND_MATRIX"; "WEIGHT"]%string -> plain (tx k).
Proof.
  intros [<- | [<- | [<- | []]]]; cbn; (split; [repeat (apply Forall_cons; [lia|]); apply Forall_nil|cbn; intuition discriminate]).
Qed.
Lemma offset_read t o old : match o with Some z => (z = 0 \/ z = 1)%Z /\ t = XmlToString (append_i32 z) | None => t = [] end ->
  match t with [] => Some old | c :: u => option_map fst (ToInt32 a (c :: u)) end = Some (set_at o old).
Proof.
  destruct o as [z|]; [|intros ->; reflexivity]. intros ([-> | ->] & ->); destruct a; reflexivity.
Qed.
Lemma gather_joint i o g : input_is i "JOINT" J o -> match o with Some z => (z = 0 \/ z = 1)%Z | None => True end ->
  names g = [] \/ names g = d_names d ->
  exists b, gather a n g i = Some (Gathered (set_at o (joint_at g)) (weight_at g) (d_names d) b (poses g) (weights g)).
Proof.
  intros Hi Ho Hn. destruct (input_parts _ _ _ _ Hi HJ (plain_sem "JOINT" ltac:(cbn; auto))) as (E1 & E2 & E3).
  unfold gather. rewrite E1, E2, FJ. change (text_eq (tx "JOINT") (tx "JOINT")) with true. cbv beta iota zeta.
  rewrite (offset_read _ o) by (destruct o; auto).
  destruct (names g) as [|x l] eqn:En.
  - rewrite (read_words _ _ SJ). eexists. reflexivity.
  - exists (sids g). destruct Hn as [Hn|Hn]; [discriminate|]. now rewrite <- Hn.
Qed.
Lemma gather_bind i o g : input_is i "INV_BIND_MATRIX" B o ->
  exists ms, Forall2 same_matrix (d_poses d) ms /\ gather a n g i = Some (Gathered (joint_at g) (weight_at g) (names g) (sids g) ms (weights g)).
Proof.
  intros Hi. destruct (input_parts _ _ _ _ Hi HB (plain_sem "INV_BIND_MATRIX" ltac:(cbn; auto))) as (E1 & E2 & E3).
  unfold gather. rewrite E1, E2, FB. change (text_eq (tx "INV_BIND_MATRIX") (tx "JOINT")) with false.
  change (text_eq (tx "INV_BIND_MATRIX") (tx "INV_BIND_MATRIX")) with true. cbv iota.
  destruct (read_matrices a sb (d_poses d) (poses g) SB) as (ms & E & Hm). rewrite E. exists ms. auto.
Qed.
Lemma gather_weight i o g : input_is i "WEIGHT" W o -> match o with Some z => (z = 0 \/ z = 1)%Z | None => True end ->
  exists rs, Forall2 (fun v r => r == v)%Q (d_weights d) rs /\
    gather a n g i = Some (Gathered (joint_at g) (set_at o (weight_at g)) (names g) (sids g) (poses g) rs).
Proof.
  intros Hi Ho. destruct (input_parts _ _ _ _ Hi HW (plain_sem "WEIGHT" ltac:(cbn; auto))) as (E1 & E2 & E3).
  unfold gather. rewrite E1, E2, FW. change (text_eq (tx "WEIGHT") (tx "JOINT")) with false.
  change (text_eq (tx "WEIGHT") (tx "INV_BIND_MATRIX")) with false. change (text_eq (tx "WEIGHT") (tx "WEIGHT")) with true. cbv beta iota zeta.
  rewrite (offset_read _ o) by (destruct o; auto).
  destruct (read_floats a sw (d_weights d) (weights g) SW) as (rs & E & Hr). rewrite E. exists rs. auto.
Qed.
Lemma gather_four j1 j2 js w1 w2 ws oj ow : Permutation [j1; j2] js -> Permutation [w1; w2] ws ->
  input_is j1 "JOINT" J None -> input_is j2 "INV_BIND_MATRIX" B None ->
  input_is w1 "JOINT" J (Some oj) -> input_is w2 "WEIGHT" W (Some ow) -> (oj = 0 \/ oj = 1)%Z -> (ow = 0 \/ ow = 1)%Z ->
  exists b ms rs, gather_all a n (Gathered 0 1 [] false [] []) (js ++ ws) = Some (Gathered oj ow (d_names d) b ms rs) /\
    Forall2 same_matrix (d_poses d) ms /\ Forall2 (fun v r => r == v)%Q (d_weights d) rs.
Proof.
  intros Pj Pw Hj1 Hj2 Hw1 Hw2 Hoj How.
  assert (Gw : forall g, names g = d_names d -> exists b rs, gather_all a n g ws = Some (Gathered oj ow (d_names d) b (poses g) rs) /\
     Forall2 (fun v r => r == v)%Q (d_weights d) rs).
  { intros g Hg. apply Permutation_length_2_inv in Pw as [-> | ->]; cbn [gather_all].
    - destruct (gather_joint w1 (Some oj) g Hw1 Hoj (or_intror Hg)) as (b & E). rewrite E.
      match goal with |- context [gather a n ?g1 w2] => destruct (gather_weight w2 (Some ow) g1 Hw2 How) as (rs & Hr & E2) end.
      rewrite E2. exists b, rs. auto.
    - destruct (gather_weight w2 (Some ow) g Hw2 How) as (rs & Hr & E). rewrite E.
      match goal with |- context [gather a n ?g1 w1] => destruct (gather_joint w1 (Some oj) g1 Hw1 Hoj) as (b & E2) end.
      { right. exact Hg. }
      rewrite E2. exists b, rs. auto. }
  assert (Happ : forall l g, gather_all a n g (l ++ ws) = match gather_all a n g l with Some g => gather_all a n g ws | None => None end).
  { induction l as [|x l IH]; intro g; cbn; auto. destruct (gather a n g x); auto. }
  rewrite Happ. apply Permutation_length_2_inv in Pj as [-> | ->]; cbn [gather_all].
  - match goal with |- context [gather a n ?g0 j1] => destruct (gather_joint j1 None g0 Hj1 I) as (b & E) end; [left; reflexivity|]. rewrite E.
    match goal with |- context [gather a n ?g1 j2] => destruct (gather_bind j2 None g1 Hj2) as (ms & Hm & E2) end. rewrite E2.
    match goal with |- context [gather_all a n ?g2 ws] => destruct (Gw g2 eq_refl) as (b2 & rs & E3 & Hr) end. rewrite E3. exists b2, ms, rs. auto.
  - match goal with |- context [gather a n ?g0 j2] => destruct (gather_bind j2 None g0 Hj2) as (ms & Hm & E) end. rewrite E.
    match goal with |- context [gather a n ?g1 j1] => destruct (gather_joint j1 None g1 Hj1 I) as (b & E2) end; [left; reflexivity|]. rewrite E2.
    match goal with |- context [gather_all a n ?g2 ws] => destruct (Gw g2 eq_refl) as (b2 & rs & E3 & Hr) end. rewrite E3. exists b2, ms, rs. auto.
Qed.
End Inputs.

(** *** Pairs *)
Definition order (jfirst : bool) (p : Z * Z) : list Z := if jfirst then [fst p; snd p] else [snd p; fst p].
Definition joint_off (jfirst : bool) : Z := if jfirst then 0%Z else 1%Z.
Definition weight_off (jfirst : bool) : Z := if jfirst then 1%Z else 0%Z.
Definition within (p : Z * Z) : Prop := (-2147483599 <= fst p <= 2147483599 /\ -2147483599 <= snd p <= 2147483599)%Z.
Definition raw_of (p : pair) : Z * Q := (joint p, weight p).
Lemma order_length jf p : List.length (order jf p) = 2. Proof. unfold order. destruct jf; reflexivity. Qed.
Lemma same_nth l rs : Forall2 (fun v r => r == v)%Q l rs -> forall k, k < List.length l -> exists q, nth_error rs k = Some q /\ (q == nth k l 0)%Q.
Proof.
  induction 1 as [|v r l rs' Hv _ IH]; intros k Hk; cbn in Hk; [lia|]. destruct k; cbn; [eauto|]. apply IH. lia.
Qed.
Section Pairs.
Variables (jf b : bool) (ms : list mat) (rs : list Q) (d : skin_data).
Hypothesis Hr : Forall2 (fun v r => r == v)%Q (d_weights d) rs.
Hypothesis Hne : d_weights d <> [].
Hypothesis Hn : (Z.of_nat (List.length (d_names d)) < 2147483600)%Z.
Hypothesis Hw : (Z.of_nat (List.length (d_weights d)) < 2147483600)%Z.
Let g := Gathered (joint_off jf) (weight_off jf) (d_names d) b ms rs.
Lemma at_index_pair (pre : list Z) x y post : at_index (pre ++ x :: y :: post) (Z.of_nat (List.length pre) + 0) = Some x /\
  at_index (pre ++ x :: y :: post) (Z.of_nat (List.length pre) + 1) = Some y.
Proof.
  unfold at_index. rewrite !(proj2 (Z.ltb_ge _ _)) by lia. split.
  - replace (Z.to_nat (Z.of_nat (List.length pre) + 0)) with (List.length pre + 0) by lia. rewrite nth_error_app2 by lia. replace (List.length pre + 0 - List.length pre) with 0 by lia. reflexivity.
  - replace (Z.to_nat (Z.of_nat (List.length pre) + 1)) with (List.length pre + 1) by lia. rewrite nth_error_app2 by lia. replace (List.length pre + 1 - List.length pre) with 1 by lia. reflexivity.
Qed.
Lemma at_order (pre : list Z) p post : at_index (pre ++ order jf p ++ post) (Z.of_nat (List.length pre) + joint_off jf) = Some (fst p) /\
  at_index (pre ++ order jf p ++ post) (Z.of_nat (List.length pre) + weight_off jf) = Some (snd p).
Proof. destruct jf; cbn; destruct (at_index_pair pre (fst p) (snd p) post), (at_index_pair pre (snd p) (fst p) post); auto. Qed.
Lemma weights_nth k : k < List.length (d_weights d) -> exists q, nth_error rs k = Some q /\ (q == nth k (d_weights d) 0)%Q.
Proof.
  apply same_nth. exact Hr.
Qed.
Lemma load_pair_spec (pre : list Z) p post : within p -> exists q, load_pair g (pre ++ order jf p ++ post) (List.length pre) = Some q /\ stands_for d p (raw_of q).
Proof.
  intros ((J1 & J2) & W1 & W2). unfold load_pair. cbn [joint_at weight_at g names weights].
  destruct (at_order pre p post) as (E1 & E2). rewrite E1, E2.
  assert (Es : s32 (Z.of_nat (List.length (d_names d))) = Z.of_nat (List.length (d_names d))).
  { unfold s32. rewrite Z.mod_small by lia. lia. }
  rewrite Es. assert (Ll : List.length rs = List.length (d_weights d)) by (symmetry; apply (Forall2_len _ _ _ Hr)). rewrite Ll.
  assert (Lp : 0 < List.length (d_weights d)) by (destruct (d_weights d); [congruence|cbn; lia]).
  set (w := if (Z.of_nat (List.length (d_weights d)) <=? u32 (snd p))%Z then 0%Z else u32 (snd p)).
  assert (Hw2 : (0 <= snd p < Z.of_nat (List.length (d_weights d)) /\ w = snd p)%Z \/ (~ (0 <= snd p < Z.of_nat (List.length (d_weights d))) /\ w = 0)%Z).
  { unfold w, u32. destruct (Z.ltb_spec (snd p) 0) as [H|H].
    - replace (snd p mod 4294967296)%Z with (snd p + 4294967296)%Z.
      + rewrite (proj2 (Z.leb_le _ _)) by lia. right. lia.
      + symmetry. rewrite <- (Z_mod_plus_full (snd p) 1). apply Z.mod_small. lia.
    - rewrite Z.mod_small by lia. destruct (Z.leb_spec (Z.of_nat (List.length (d_weights d))) (snd p)); [right|left]; lia. }
  assert (Hwr : (0 <= w < Z.of_nat (List.length (d_weights d)))%Z) by lia.
  destruct (weights_nth (Z.to_nat w) ltac:(lia)) as (q & Eq & Hq).
  unfold at_index. rewrite (proj2 (Z.ltb_ge w 0)) by lia. rewrite Eq. cbn [option_map]. eexists. split; [reflexivity|].
  unfold stands_for, raw_of. cbn [joint weight fst snd].
  assert (Hj : ((fst p <? -1) || (Z.of_nat (List.length (d_names d)) <=? fst p))%Z = true <-> ~ (-1 <= fst p < Z.of_nat (List.length (d_names d)))%Z).
  { rewrite orb_true_iff, Z.ltb_lt, Z.leb_le. lia. }
  destruct ((fst p <? -1) || (Z.of_nat (List.length (d_names d)) <=? fst p))%Z.
  - destruct Hj as (Hj & _). specialize (Hj eq_refl). split; [intro; contradiction|]. split; [auto|].
    destruct Hw2 as [(A & Ew)|(A & Ew)]; rewrite Ew in Hq; split; intro; try contradiction; exact Hq.
  - split; [auto|]. split; [intro H; apply Hj in H; discriminate|].
    destruct Hw2 as [(A & Ew)|(A & Ew)]; rewrite Ew in Hq; split; intro; try contradiction; exact Hq.
Qed.
Lemma load_pairs_spec : forall row (pre post : list Z), Forall within row ->
  exists ps, load_pairs g (pre ++ flat_map (order jf) row ++ post) (List.length row) (List.length pre) = Some (ps, List.length pre + 2 * List.length row) /\
    Forall2 (fun p q => stands_for d p (raw_of q)) row ps.
Proof.
  induction row as [|p row IH]; intros pre post Hf.
  - exists []. cbn. rewrite Nat.add_0_r. split; [reflexivity|constructor].
  - inversion Hf as [|? ? H1 H2]; subst. cbn [flat_map List.length load_pairs]. rewrite <- app_assoc.
    destruct (load_pair_spec pre p (flat_map (order jf) row ++ post) H1) as (q & Eq & Hq). rewrite Eq.
    destruct (IH (pre ++ order jf p) post H2) as (ps & Ep & Hps). rewrite <- app_assoc in Ep. rewrite app_length, order_length in Ep.
    rewrite Ep.
    assert (Hc : (match List.length (pre ++ order jf p ++ flat_map (order jf) row ++ post) with 0 => true | S k => List.length pre <? k end) = true).
    { rewrite !app_length, order_length. destruct (List.length pre + (2 + _)) eqn:E; auto. apply Nat.ltb_lt. lia. }
    rewrite Hc. exists (q :: ps). split; [do 2 f_equal; lia|constructor; auto].
Qed.
Lemma load_vertices_spec : forall rows (pre : list Z), Forall (Forall within) rows ->
  exists vs, load_vertices g (pre ++ flat_map (order jf) (List.concat rows)) (List.length rows) (map (fun r => Z.of_nat (List.length r)) rows) (List.length pre) = Some vs /\
    Forall2 (Forall2 (fun p q => stands_for d p (raw_of q))) rows vs.
Proof.
  induction rows as [|row rows IH]; intros pre Hf.
  - exists []. split; [reflexivity|constructor].
  - inversion Hf as [|? ? H1 H2]; subst. cbn [List.concat List.length map load_vertices]. rewrite flat_map_app, Nat2Z.id.
    destruct (load_pairs_spec row pre (flat_map (order jf) (List.concat rows)) H1) as (ps & Ep & Hp). rewrite Ep.
    assert (Lf : List.length (flat_map (order jf) row) = 2 * List.length row).
    { clear. induction row; cbn [flat_map List.length]; [reflexivity|]. rewrite app_length, order_length, IHrow. lia. }
    destruct (IH (pre ++ flat_map (order jf) row) H2) as (vs & Ev & Hv). rewrite <- app_assoc, app_length, Lf in Ev. rewrite Ev.
    exists (ps :: vs). split; [reflexivity|constructor; auto].
Qed.
End Pairs.

(** *** Normalization *)
Lemma qlt_iff x y : qlt x y = true <-> (x < y)%Q.
Proof. unfold qlt. destruct (Qlt_le_dec x y); split; intro H; try discriminate; auto. lra. Qed.
Lemma near_iff x y : near x y = true <-> (Qabs (x - y) < tolerance)%Q.
Proof.
  unfold near, tolerance. rewrite andb_true_iff, !qlt_iff, Qabs_Qlt_condition. split; intros (H1 & H2); split; lra.
Qed.
Lemma near_not x y : near x y = false <-> (tolerance <= Qabs (x - y))%Q.
Proof.
  rewrite <- not_true_iff_false, near_iff. split; intro H; [|lra]. destruct (Qlt_le_dec (Qabs (x - y)) tolerance); [contradiction|auto].
Qed.
Lemma total_sum l : (total l == sum_of (map weight l))%Q.
Proof.
  unfold total. assert (H : forall l s, (fold_left (fun s p => s + weight p) l s == s + sum_of (map weight l))%Q).
  { induction l0 as [|p l0 IH]; intro s; cbn [fold_left map sum_of fold_right].
    - unfold sum_of. cbn. ring.
    - rewrite IH. unfold sum_of. cbn. ring. }
  rewrite H. ring.
Qed.
Lemma Qabs_0 x : (Qabs (x - 0) == Qabs x)%Q. Proof. apply Qabs_wd. ring. Qed.
Lemma normalize_spec ps : map joint (normalize ps) = map joint ps /\ normalized (map weight ps) (map weight (normalize ps)).
Proof.
  unfold normalize. pose proof (total_sum ps) as Et. set (s := total ps) in *.
  assert (E1 : (Qabs (s - 1) == Qabs (sum_of (map weight ps) - 1))%Q) by (rewrite Et; reflexivity).
  assert (E0 : (Qabs (s - 0) == Qabs (sum_of (map weight ps)))%Q) by (rewrite Qabs_0, Et; reflexivity).
  destruct (near s 0 || near s 1) eqn:E.
  - split; [reflexivity|]. left. split.
    + apply orb_true_iff in E as [E|E]; apply near_iff in E; [left|right]; lra.
    + clear. induction ps; cbn; constructor; auto; reflexivity.
  - apply orb_false_iff in E as (Ea & Eb). apply near_not in Ea, Eb. split; [rewrite map_map; reflexivity|].
    right. split; [split; lra|].
    assert (Hs : ~ (s == 0)%Q).
    { intro Hz. assert (Ez : (Qabs (s - 0) == 0)%Q) by (rewrite Hz; reflexivity). unfold tolerance in Ea. lra. }
    rewrite map_map. cbn [scale weight].
    assert (H : forall l, Forall2 (fun w o => o * sum_of (map weight ps) == w)%Q (map weight l) (map (fun x => weight x * (1 / s))%Q l)); [|apply H].
    induction l as [|p l IH]; cbn [map]; constructor; auto. rewrite <- Et. field. exact Hs.
Qed.
Lemma load_joints_spec : forall ns ms, List.length ns <= List.length ms -> exists js, load_joints ns ms = Some js /\ map fst js = ns /\ map snd js = firstn (List.length ns) ms.
Proof.
  induction ns as [|n ns IH]; intros ms H; [exists []; auto|]. destruct ms as [|m ms]; [cbn in H; lia|].
  destruct (IH ms ltac:(cbn in H; lia)) as (js & E & E1 & E2). exists ((n, m) :: js). cbn. rewrite E. cbn. split; [reflexivity|]. split; congruence.
Qed.
Lemma load_joints_none : forall ns ms, List.length ms < List.length ns -> load_joints ns ms = None.
Proof.
  induction ns as [|n ns IH]; intros ms H; [cbn in H; lia|]. destruct ms as [|m ms]; [reflexivity|]. cbn. rewrite IH by (cbn in H; lia). reflexivity.
Qed.
Lemma Forall2_firstn {A B} (R : A -> B -> Prop) : forall k l m, Forall2 R l m -> Forall2 R (firstn k l) (firstn k m).
Proof. induction k as [|k IH]; intros l m H; cbn; [constructor|]. destruct H; constructor; auto. Qed.

(** *** The element *)
Theorem load_data a n d jf : holds n d jf -> exists b sh ms vs,
  LoadSkinController a n = option_map (fun js => LoadedSkin true (Skin sh js vs) b) (load_joints (d_names d) ms) /\
  Forall2 same_matrix (d_poses d) ms /\ same_matrix (d_shape d) sh /\ Forall2 (vertex_of d) (d_rows d) vs.
Proof.
  intros [(attrs & ch & J & B & W & jn & wn & -> & HJ & HB & HW & Hids & Hshape & (sj & FJ & SJ) & (sb & FB & SB) & (sw & FW & SW) &
    Fj & (l & ins & j1 & j2 & El & Hins & Pj & Hj1 & Hj2) & Fw & (pre & vc & mid & v & post & wins & w1 & w2 & tc & t1 & t2 & Ew & Hpre & Hwins & Pw &
    Hw1 & Hw2 & Hvc & Hmid & Hv & Htc & Dtc & Ht1 & Dt1 & Ht2 & Dt2)) Hwne (S1 & S2 & S3 & S4 & S5)].
  pose proof (find_by_id _ attrs ch J sj (or_introl eq_refl) HJ Hids FJ) as GJ.
  pose proof (find_by_id _ attrs ch B sb (or_introl eq_refl) HB Hids FB) as GB.
  pose proof (find_by_id _ attrs ch W sw (or_introl eq_refl) HW Hids FW) as GW.
  set (n := Elem (tx "skin") attrs ch) in *.
  destruct (gather_four a n J B W d sj sb sw HJ HB HW GJ GB GW SJ SB SW j1 j2 ins w1 w2 wins _ _ Pj Pw Hj1 Hj2 Hw1 Hw2)
    as (bb & ms & rs & Eg & Hms & Hrs); [destruct jf; auto|destruct jf; auto|].
  (* the numbers *)
  assert (Hrow : Forall (Forall within) (d_rows d)).
  { clear - S5. induction (d_rows d) as [|r rows IH]; constructor; cbn in S5; apply Forall_app in S5 as (A1 & A2); auto. }
  destruct (load_vertices_spec jf bb ms rs d Hrs Hwne S1 S2 (d_rows d) [] Hrow) as (vs & Ev & Hvs). cbn [app List.length] in Ev.
  assert (Ec : ToUInt32List t1 [] = Some (map (fun r => Z.of_nat (List.length r)) (d_rows d))).
  { apply to_list_spec. apply unsigned_parse; auto. unfold fits. rewrite Forall_map. revert S4. apply Forall_impl. intros r Hr. lia. }
  assert (Ei : ToInt32List a t2 [] = Some (flat_map (order jf) (List.concat (d_rows d)))).
  { apply to_list_spec. apply integer_parse; [exact Dt2|].
    clear - S5. induction S5 as [|p l (A1 & A2) _ IH]; cbn [flat_map]; [constructor|]. apply Forall_app. split; auto.
    unfold order. destruct jf; repeat constructor; auto; try apply A1; try apply A2. }
  assert (En : ReadNodeCount wn = Z.of_nat (List.length (d_rows d))).
  { unfold ReadNodeCount. rewrite (has_attr_plain _ _ _ Htc).
    - rewrite (decimal_dec _ _ Dtc). apply read_u32. lia.
    - rewrite (decimal_dec _ _ Dtc). apply dec_plain. lia. }
  assert (Hb : exists b, load_bind_shape a n = Some b /\ same_matrix (d_shape d) b).
  { unfold load_bind_shape, FindChildByType. cbn [children_of n]. destruct Hshape as [(e & t & Fe & He & Hn)|(Fe & Hu)].
    - rewrite (find_elem _ _ _ Fe), (has_text_read _ _ He). destruct (floats_of_parse a _ _ Hn) as (rs2 & Hp & Hk).
      pose proof (Forall2_len _ _ _ Hk) as Lk. rewrite components_length in Lk. symmetry in Lk.
      rewrite <- (app_nil_r rs2) in Hp. destruct (to_matrix_spec a rs2 t [] identity_matrix Lk Hp) as (s' & E & _ & Hlt).
      destruct t as [|c t]; [cbn in Hlt; lia|]. rewrite E. cbn. eexists. split; [reflexivity|]. now apply of_list_same.
    - rewrite (find_no_elem _ _ Fe). eexists. split; [reflexivity|]. intros i j Hi Hj. specialize (Hu i j Hi Hj). rewrite Hu. reflexivity. }
  destruct Hb as (sh & Esh & Hsh).
  unfold LoadSkinController. change (named n "skin") with true. cbn [negb]. rewrite Esh.
  unfold FindChildByType. cbn [children_of n]. rewrite (find_elem _ _ _ Fj), (find_elem _ _ _ Fw), Ew, (combiner_split pre wins vc _ Hwins Hpre Hvc).
  rewrite El, (inputs_filter _ _ Hins). fold n. rewrite Eg. cbv iota.
  assert (Ef : find (fun c => match c with Elem _ _ _ => true | Text _ => false end) (mid ++ v :: post) = Some v).
  { destruct Hv as (va & vch & ->). clear - Hmid. induction Hmid as [|c mid (t & ->) _ IH]; auto. }
  rewrite Ef, (has_text_read _ _ Ht1), (has_text_read _ _ Ht2), Ec, Ei, En, Nat2Z.id. cbn [names poses].
  unfold joint_off, weight_off in Ev. rewrite Ev. exists bb, sh, ms, (map normalize vs). split; [destruct (load_joints (d_names d) ms); reflexivity|].
  split; [exact Hms|]. split; [exact Hsh|].
  clear - Hvs. induction Hvs as [|row ps rows vs H _ IH]; cbn [map]; constructor; auto.
  exists (map raw_of ps). split; [|split].
  - clear - H. induction H; cbn; constructor; auto.
  - rewrite map_map. apply normalize_spec.
  - rewrite map_map. apply normalize_spec.
Qed.
Theorem load_described a n d jf : describes n d jf -> exists s b, LoadSkinController a n = Some (LoadedSkin true s b) /\ skin_of d s.
Proof.
  intros (H & Hp). destruct (load_data a n d jf H) as (b & sh & ms & vs & E & Hms & Hsh & Hvs).
  pose proof (Forall2_len _ _ _ Hms) as Lm. destruct (load_joints_spec (d_names d) ms ltac:(lia)) as (js & Ej & E1 & E2).
  rewrite Ej in E. cbn in E. exists (Skin sh js vs), b. split; [exact E|]. split; [exact E1|]. split; [|auto]. cbn [joints]. rewrite E2. now apply Forall2_firstn.
Qed.
Theorem load_few_poses a n d jf : holds n d jf -> List.length (d_poses d) < List.length (d_names d) -> LoadSkinController a n = None.
Proof.
  intros H Hp. destruct (load_data a n d jf H) as (b & sh & ms & vs & E & Hms & _). rewrite (load_joints_none (d_names d) ms) in E; [exact E|].
  rewrite <- (Forall2_len _ _ _ Hms). exact Hp.
Qed.
