(** Names and transformations of scene nodes: what is read from the texts, and what is written. *)
From Coq Require Import String List ZArith QArith Qabs Bool Lia Lqa.
From Verif Require Import TextModel TextSpec TextProofs StringModel StringProofs XmlModel FloatModel FloatSpec FloatProofs FloatProps DaeModel DaeSpec DaeProofs RigModel RigSpec RigTextProofs RigProofs RigWriteProofs UniqueSpec IdProps SceneModel NodeModel NodeSpec.
From Verif Require IdModel UniqueModel.
Import ListNotations.
Local Open Scope nat_scope.
Local Open Scope list_scope.

(** *** Names *)
Lemma id_char_plain c : id_char c -> (1 <= c <= 255)%Z /\ c <> 37%Z /\ c <> 35%Z /\ c <> 92%Z /\ c <> 58%Z /\ c <> 63%Z /\ c <> 47%Z.
Proof. unfold id_char, is_letter, UniqueSpec.is_digit. intros H. lia. Qed.
Lemma name_id_char c : name_char c -> id_char c. Proof. unfold name_char, id_char. tauto. Qed.
Lemma legal_chars (other : Z -> Prop) t : legal other t -> (forall c, other c -> id_char c) -> Forall id_char t /\ t <> [].
Proof.
  destruct t as [|c t]; [intros []|]. intros (H1 & H2) Ho. split; [|discriminate]. constructor; [unfold id_char; tauto|].
  revert H2. apply Forall_impl. exact Ho.
Qed.
Lemma chars_plain t : Forall id_char t -> plain t.
Proof.
  intro H. split; [revert H; apply Forall_impl; intros c Hc; apply (id_char_plain c Hc)|].
  intro I. rewrite Forall_forall in H. specialize (H 37%Z I). apply id_char_plain in H. lia.
Qed.
Lemma id_plain t : id_text t -> plain t /\ t <> [].
Proof. intros (H & _). destruct (legal_chars _ _ H (fun c h => h)) as (A & B). split; auto. now apply chars_plain. Qed.
Lemma name_plain t : name_text t -> plain t /\ t <> [].
Proof. intros (H & _). destruct (legal_chars _ _ H name_id_char) as (A & B). split; auto. now apply chars_plain. Qed.
Lemma clean_id_same t : id_text t -> IdModel.CleanId t = t.
Proof.
  intros H. destruct (proj1 C16_clean_partial t) as (_ & _ & E & _); [apply (id_plain t H)|]. destruct H as (H & L). now apply E.
Qed.
Lemma clean_name_same t : name_text t -> IdModel.CleanName t = t.
Proof.
  intros H. destruct (proj1 (proj2 (proj2 C16_clean_partial)) t) as (_ & _ & E & _); [apply (name_plain t H)|]. destruct H as (H & L). now apply E.
Qed.
Lemma clean_sub_same t : name_text t -> IdModel.CleanSubId t = t.
Proof. exact (clean_name_same t). Qed.
Lemma clean_first_same c : is_letter c \/ c = 95%Z -> IdModel.clean_first c = c.
Proof. exact (clean_first_id c). Qed.
Lemma clean_name_id t : id_text t -> IdModel.CleanName t = dots_replaced t.
Proof.
  intros (H & L). unfold IdModel.CleanName. assert (E : firstn IdModel.MAX_ID_LENGTH t = t) by (apply firstn_all2; exact L). rewrite E.
  destruct t as [|c t]; [reflexivity|]. destruct H as (Hc & Ht). unfold IdModel.clean_with, dots_replaced. cbn [map].
  rewrite clean_first_same by exact Hc. f_equal.
  - destruct (Z.eqb_spec c 46) as [->|]; auto. unfold is_letter in Hc. lia.
  - apply map_ext_in. intros d Hd. rewrite Forall_forall in Ht. specialize (Ht d Hd). unfold IdModel.clean_name_char.
    destruct (Z.eqb_spec d 46) as [->|Ne]; [reflexivity|]. destruct Ht as [Ht|[Ht|[-> |[-> | ->]]]]; try reflexivity; [| |congruence].
    + apply alpha_iff in Ht. now rewrite Ht.
    + assert (D : digit d = true) by (unfold digit, UniqueSpec.is_digit in *; apply andb_true_iff; rewrite !Z.leb_le; lia). rewrite D. now rewrite orb_true_r.
Qed.
Lemma dots_name t : id_text t -> name_text (dots_replaced t).
Proof.
  intros H. rewrite <- clean_name_id by exact H. destruct (proj1 (proj2 (proj2 C16_clean_partial)) t) as (A & B & _); [apply (id_plain t H)|].
  split; auto. rewrite B. cbv beta iota. apply Nat.le_min_l.
Qed.
Lemma sid_read c s : sid_is c s -> ReadNodeProperty c "sid" = s /\ IdModel.CleanSubId s = s.
Proof.
  intros [(-> & H)|(H & Hs)]; [split; [now apply no_attr_read|reflexivity]|].
  split; [|now apply clean_sub_same]. apply has_attr_plain; auto. now apply name_plain.
Qed.

(** *** Reading *)
Definition close (q r : Q) : Prop := (r == q)%Q.
Lemma elem_names k c j : is_elem k c -> named c j = text_eq (tx k) (tx j).
Proof. intros (x & y & ->). reflexivity. Qed.
Definition kind_of (v : tvalue) : tkind :=
  match v with Translation _ => TRANSLATION | Rotation _ _ => ROTATION | Scale _ => SCALE | Skew _ _ _ => SKEW | Matrix _ => MATRIX | LookAt _ _ _ => LOOKAT end.
Lemma notation_kind v name l c : notation v name l -> is_elem name c -> named c "node" = false /\ named c "instance_node" = false /\ named c "extra" = false /\
  named c "asset" = false /\ GetTransformType c = Some (kind_of v).
Proof. intros H (x & y & ->). destruct H; repeat split; reflexivity. Qed.
Lemma near_away q r : close q r -> (1 # 10000 <= Qabs q)%Q -> near_zero r = false.
Proof.
  intros H Hq. unfold near_zero. destruct (Qle_bool (1 # 10000) r) eqn:E1; [reflexivity|]. destruct (Qle_bool r (- (1 # 10000))) eqn:E2; [reflexivity|].
  exfalso. assert (A : ~ (1 # 10000 <= r)%Q) by (intro X; apply Qle_bool_iff in X; congruence).
  assert (B : ~ (r <= - (1 # 10000))%Q) by (intro X; apply Qle_bool_iff in X; congruence). red in H. rewrite <- H in Hq.
  apply Qnot_le_lt in A. apply Qnot_le_lt in B. assert (C : (Qabs r < 1 # 10000)%Q) by (apply Qabs_case; intros; lra). lra.
Qed.
Lemma away_origin x y z x' y' z' : away x y z -> close x x' -> close y y' -> close z z' -> at_origin (x', y', z') = false.
Proof.
  intros H Hx Hy Hz. unfold at_origin, coords. cbn [forallb]. destruct H as [H|[H|H]].
  - rewrite (near_away x x' Hx H). reflexivity.
  - rewrite (near_away y y' Hy H). cbn. now rewrite andb_false_r.
  - rewrite (near_away z z' Hz H). cbn. now rewrite !andb_false_r.
Qed.
Ltac rows H := repeat match type of H with
  | Forall2 _ (_ :: _) _ => let r := fresh "r" in let l := fresh "l" in let A := fresh "A" in let B := fresh "B" in
      inversion H as [|? r ? l A B]; subst; clear H; rename B into H
  | Forall2 _ [] _ => inversion H; subst; clear H
  end.
Lemma load_notation a v name l c t : notation v name l -> is_elem name c -> has_text c t -> numbers_of float_text t l ->
  exists v', LoadTransform a (kind_of v) c = Some (true, v') /\ value_rel close v v'.
Proof.
  intros Hv Hc Ht Hn. destruct (floats_of_parse a t l Hn) as (rs & Hp & Hk). apply has_text_read in Ht.
  assert (HL : ToFloatList a (ReadNodeContentDirect c) [] = Some rs) by (rewrite Ht; now apply to_list_spec).
  change (fun v r => (r == v)%Q) with close in Hk.
  destruct Hv as [x y z|x y z w|x y z|w x1 y1 z1 x2 y2 z2 A1 A2|m|x1 y1 z1 x2 y2 z2 x3 y3 z3]; cbn [kind_of LoadTransform].
  - rewrite HL. rows Hk. cbn. eexists. split; [reflexivity|]. cbn. auto.
  - rewrite HL. rows Hk. cbn. eexists. split; [reflexivity|]. cbn. auto.
  - rewrite HL. rows Hk. cbn. eexists. split; [reflexivity|]. cbn. auto.
  - rewrite HL. rows Hk. cbn [option_map]. rewrite (away_origin x1 y1 z1), (away_origin x2 y2 z2) by assumption. cbn [orb]. eexists. split; [reflexivity|]. cbn. auto 10.
  - assert (L : List.length rs = 16) by (rewrite <- (Forall2_len _ _ _ Hk); reflexivity).
    destruct (to_matrix_spec a rs t [] identity L) as (s' & E & _); [now rewrite app_nil_r|]. rewrite Ht, E. cbn.
    eexists. split; [reflexivity|]. cbn. exact (of_list_same m rs identity Hk).
  - rewrite HL. rows Hk. cbn. eexists. split; [reflexivity|]. cbn. auto 10.
Qed.
Lemma load_transform_in a c s v : transform_in c s v -> exists v', LoadTransform a (kind_of v) c = Some (true, v') /\ value_rel close v v'.
Proof. intros (name & l & t & H1 & H2 & H3 & H4 & _). eapply load_notation; eauto. Qed.

(** *** Writing *)
(** The value as it is written: the same with other numbers. *)
Definition axis_rel (R : Q -> Q -> Prop) (x y : axis) : Prop := match x, y with Given v, Given w => vec_rel R v w | _, _ => False end.
Definition text_rel (R : Q -> Q -> Prop) (v v' : tvalue) : Prop :=
  match v, v' with
  | Skew w r p, Skew w' r' p' => R w w' /\ axis_rel R r r' /\ axis_rel R p p'
  | _, _ => value_rel R v v'
  end.
Lemma eps_small eps : machine_eps eps -> (0 < eps)%Q /\ (eps <= 1 # 9999)%Q.
Proof. intros [-> | ->]; split; vm_compute; congruence. Qed.
Lemma remains_far eps q r : machine_eps eps -> remains eps q r -> (1 # 9999 <= Qabs q)%Q -> (1 # 10000 <= Qabs r)%Q.
Proof.
  intros He (_ & H2) Hq. destruct (eps_small eps He) as (_ & Hs). destruct H2 as (H & _); [lra|].
  assert (T : (Qabs q <= Qabs r + Qabs (r - q))%Q).
  { rewrite <- (Qabs_opp (r - q)). eapply Qle_trans; [|apply Qabs_triangle]. apply Qle_lteq. right.
    assert (E : (r + - (r - q) == q)%Q) by ring. rewrite E. reflexivity. }
  assert (D : (Qabs q / 200000 == Qabs q * (1 # 200000))%Q) by (unfold Qdiv; reflexivity). rewrite D in H. lra.
Qed.
Lemma far_away eps x y z x' y' z' : machine_eps eps -> far x y z -> remains eps x x' -> remains eps y y' -> remains eps z z' -> away x' y' z'.
Proof.
  intros He [H|[H|H]] Hx Hy Hz; [left|right; left|right; right]; eapply remains_far; eauto.
Qed.
Lemma of_list_components l : List.length l = 16 -> components (of_list identity l) = l.
Proof. intro L. do 16 (destruct l as [|? l]; [discriminate|]). destruct l; [reflexivity|discriminate]. Qed.
Lemma of_list_rel (R : Q -> Q -> Prop) m l : Forall2 R (components m) l -> forall i j, i < 4 -> j < 4 -> R (m i j) (of_list identity l i j).
Proof.
  intros H i j Hi Hj. unfold of_list. rewrite (proj2 (Nat.ltb_lt i 4)), (proj2 (Nat.ltb_lt j 4)) by lia. cbn [andb].
  rewrite <- (components_nth m i j Hi Hj). assert (Hk : 4 * j + i < List.length (components m)) by (rewrite components_length; lia).
  revert H Hk. generalize (components m) as c. generalize (4 * j + i) as k. clear. intros k c H. revert k.
  induction H; intros [|k] Hk; cbn in *; try lia; auto. apply IHForall2. lia.
Qed.
Lemma numbers_notation eps v l rs : machine_eps eps -> proper_value v -> numbers v = Some l -> Forall2 (remains eps) l rs ->
  exists v', notation v' (element_of v) rs /\ text_rel (remains eps) v v' /\ kind_of v' = kind_of v.
Proof.
  intros He Hp Hn Hr. destruct v as [((x & y) & z)|((x & y) & z) w|((x & y) & z)|w [((x1 & y1) & z1)|u1] [((x2 & y2) & z2)|u2]|m|((x1 & y1) & z1) ((x2 & y2) & z2) ((x3 & y3) & z3)];
    cbn in Hp; try contradiction; injection Hn as <-.
  - cbn [coords] in Hr. rows Hr. eexists. split; [constructor|]. cbn. tauto.
  - cbn [coords app] in Hr. rows Hr. eexists. split; [constructor|]. cbn. tauto.
  - cbn [coords] in Hr. rows Hr. eexists. split; [constructor|]. cbn. tauto.
  - cbn [coords app] in Hr. rows Hr. destruct Hp as (_ & _ & _ & F1 & F2). eexists. split; [constructor; [eapply (far_away eps x1 y1 z1)|eapply (far_away eps x2 y2 z2)]; eauto|]. cbn [text_rel axis_rel vec_rel kind_of]. tauto.
  - change (Forall2 (remains eps) (components m) rs) in Hr. exists (Matrix (of_list identity rs)).
    assert (L : List.length rs = 16) by (rewrite <- (Forall2_len _ _ _ Hr); reflexivity). split; [|split; [|reflexivity]].
    + rewrite <- (of_list_components rs L) at 2. constructor.
    + cbn. now apply of_list_rel.
  - cbn [coords app] in Hr. rows Hr. eexists. split; [constructor|]. cbn. tauto.
Qed.
Lemma proper_finite v l : proper_value v -> numbers v = Some l -> Forall finite l /\ l <> [].
Proof.
  intros Hp Hn. destruct v as [((x & y) & z)|((x & y) & z) w|((x & y) & z)|w [((x1 & y1) & z1)|u1] [((x2 & y2) & z2)|u2]|m|((x1 & y1) & z1) ((x2 & y2) & z2) ((x3 & y3) & z3)];
    cbn in Hp; try contradiction; injection Hn as <-; (split; [|discriminate]); cbn [coords app]; repeat (apply Forall_cons; [tauto || (apply Hp; lia)|]); apply Forall_nil.
Qed.
Lemma proper_numbers v : proper_value v -> exists l, numbers v = Some l.
Proof. destruct v as [v|v w|v|w [[[x1 y1] z1]|u1] [[[x2 y2] z2]|u2]|m|p t u]; cbn; try contradiction; eauto. Qed.
(** The element of a transformation. *)
Lemma written_value eps v text attrs : machine_eps eps -> proper_value v -> value_text eps v text ->
  let c := Elem (tx (element_of v)) attrs (value_content v text) in
  exists v' l, notation v' (element_of v) l /\ has_text c text /\ numbers_of float_text text l /\ text_rel (remains eps) v v'.
Proof.
  intros He Hp Ht c. unfold value_text in Ht. destruct (numbers v) as [l|] eqn:En; [|contradiction]. destruct (proper_finite v l Hp En) as (Hf & Hl).
  destruct (floats_written eps l He Hf text Ht) as (rs & Hn & Hr & Hok).
  destruct (numbers_notation eps v l rs He Hp En Hr) as (v' & N & R & _). exists v', rs. split; auto. split; auto.
  assert (Hc : value_content v text = content text) by (destruct v; cbn; try reflexivity; now rewrite content_same).
  unfold c. rewrite Hc. do 3 eexists. split; [reflexivity|]. unfold content. destruct text as [|z text]; [left; auto|right; eauto].
Qed.
(** Reading what was written. *)
Lemma remains_close eps q r r' : remains eps q r -> close r r' -> remains eps q r'.
Proof.
  intros (H1 & H2) H. red in H. split; intro X; [rewrite H; auto|]. destruct (H2 X) as (A & B). split; [now rewrite H|]. intro Y. rewrite H. auto.
Qed.
Lemma rel_compose eps v v1 v2 : text_rel (remains eps) v v1 -> value_rel close v1 v2 -> value_rel (remains eps) v v2.
Proof.
  intros H1 H2.
  assert (C : forall p q r, vec_rel (remains eps) p q -> vec_rel close q r -> vec_rel (remains eps) p r).
  { intros [[x y] z] [[x1 y1] z1] [[x2 y2] z2] (A1 & A2 & A3) (B1 & B2 & B3). split; [|split]; eapply remains_close; eassumption. }
  destruct v as [p|p w|p|w [p|p] [q|q]|m|p t u], v1 as [p1|p1 w1|p1|w1 [q1|q1] [r1|r1]|m1|p1 t1 u1]; cbn in H1; try contradiction; try (exfalso; tauto);
    destruct v2 as [p2|p2 w2|p2|w2 [q2|q2] [r2|r2]|m2|p2 t2 u2]; cbn in H2; try contradiction; cbn [value_rel].
  - eauto.
  - destruct H1, H2. split; [|eapply remains_close]; eauto.
  - eauto.
  - destruct H1 as (A1 & A2 & A3), H2 as (B1 & B2 & B3). split; [eapply remains_close; eassumption|]. split; eauto.
  - intros i j Hi Hj. eapply remains_close; eauto.
  - destruct H1 as (A1 & A2 & A3), H2 as (B1 & B2 & B3). split; [|split]; eauto.
Qed.
