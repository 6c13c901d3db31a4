(** Reading what was written: the inputs. *)
From Coq Require Import String List ZArith Bool Lia Arith.
From Verif Require Import TextModel TextProofs InterleaveProofs StringModel StringProofs XmlModel XmlProofs EnumModel
  PolyModel PolySpec PolyProofs TriModel DaeModel DaeSpec DaeProofs DaeReadProofs.
Import ListNotations.
Local Open Scope nat_scope.
Local Open Scope list_scope.

Lemma find_id_spec : forall l k s, NoDup (map src_id l) -> nth_error l k = Some s -> find_id l (src_id s) = Some k.
Proof.
  induction l as [|x l IH]; intros [|k] s Hn H; try discriminate; cbn in *.
  - injection H as ->. rewrite text_eq_refl. reflexivity.
  - inversion Hn as [|? ? Hx Hn1]; subst. rewrite text_eq_neq.
    + rewrite (IH k s Hn1 H). reflexivity.
    + intro E. apply Hx. rewrite E. apply in_map. eapply nth_error_In; eauto.
Qed.
Lemma forall2_nth {A B} (P : A -> B -> Prop) : forall l m, Forall2 P l m -> forall k a, nth_error l k = Some a -> exists b, nth_error m k = Some b /\ P a b.
Proof. induction 1 as [|x y l m H1 H2 IH]; intros [|k] a H; try discriminate; cbn in *; [injection H as <-; eauto|eauto]. Qed.
Lemma loading_ids m m0 : loading m m0 -> map src_id (srcs m0) = map src_id (srcs m).
Proof. intros (_ & H & _). induction H as [|x y l k (E & _) _ IH]; cbn; congruence. Qed.
Lemma nth_set_nth {A} (l : list A) k a j : k < length l -> nth_error (set_nth l k a) j = if j =? k then Some a else nth_error l j.
Proof. intro H. destruct (Nat.eqb_spec j k) as [->|N]; [apply set_nth_same; exact H|apply set_nth_other; auto]. Qed.
Lemma forall2_set {A B} (P : A -> B -> Prop) : forall l m, Forall2 P l m -> forall k a b, nth_error l k = Some a -> P a b -> Forall2 P l (set_nth m k b).
Proof. induction 1 as [|x y l m H1 H2 IH]; intros [|k] a b H Hp; try discriminate; cbn in *; constructor; auto; [congruence|eauto]. Qed.
Lemma loading_set m m0 k x : loading m m0 -> nth_error (srcs m) k = Some x ->
  loading m (SetSourceType m0 k (src_type x)) /\
  (forall j s s1, nth_error (srcs m) j = Some s -> (j = k \/ forall s0, nth_error (srcs m0) j = Some s0 -> src_type s0 = src_type s) ->
     nth_error (srcs (SetSourceType m0 k (src_type x))) j = Some s1 -> src_type s1 = src_type s).
Proof.
  intros (A & B & C) H. destruct (forall2_nth _ _ _ B k x H) as (y & Hy & E1 & E2 & E3). unfold SetSourceType. rewrite Hy. cbn [srcs vertex_srcs].
  assert (Hlt : k < length (srcs m0)) by (apply nth_error_Some; congruence).
  split.
  - split; [exact A|]. split.
    + eapply forall2_set; eauto.
    + intros v s s0 Hv Hs. cbn [srcs]. rewrite nth_set_nth by exact Hlt. destruct (Nat.eqb_spec v k) as [->|N]; [|eauto].
      intro E. injection E as <-. cbn. congruence.
  - intros j s s1 Hs Hj. rewrite nth_set_nth by exact Hlt. destruct (Nat.eqb_spec j k) as [->|N].
    + intro E. injection E as <-. cbn. congruence.
    + destruct Hj as [->|Hj]; [congruence|]. apply Hj.
Qed.
Lemma find_input_vertex V N v : In v V -> exists k, find_input (map (fun s => Input 0 s []) V ++ N) v = Some k /\ nth_error V k = Some v.
Proof.
  induction V as [|a V IH]; intros []; cbn.
  - subst a. rewrite Nat.eqb_refl. exists 0. auto.
  - destruct (Nat.eqb_spec a v) as [->|]; [exists 0; auto|]. destruct (IH H) as (k & -> & Hk). exists (S k). auto.
Qed.
Lemma set_nth_id {A} (l : list A) : forall k a, nth_error l k = Some a -> set_nth l k a = l.
Proof. induction l as [|x l IH]; intros [|k] a H; try discriminate; cbn in *; [congruence|f_equal; auto]. Qed.

Section Inputs.
Variable m : mesh.
Variable t : prim.
Variable mat : list Z.
Hypothesis Hm : proper_mesh m.
Notation V := (vertex_srcs m).
Definition vx (a : input Z * Z) : bool := IsVertexSource m (source (fst a)).
Definition bare (a : input Z * Z) : input Z := Input (offset (fst a)) (source (fst a)) [].
Definition others (P : list (input Z * Z)) : list (input Z * Z) := filter (fun a => negb (vx a)) P.
Definition loaded_inputs (P : list (input Z * Z)) : list (input Z) := map (fun v => Input 0 v []) V ++ map bare (others P).
Definition loaded_sets (P : list (input Z * Z)) : list Z := map (fun _ => (-1)%Z) V ++ map snd (others P).
Record inv (P : list (input Z * Z)) (s : rstate) : Prop := {
  i_mesh : loading m (rmesh s);
  i_set : rset s = DSet (PSet t [] [] (loaded_inputs P)) (loaded_sets P) mat;
  i_cov : covers (rowners s) (fun o => exists a, In a P /\ offset (fst a) = o);
  i_own : owners_ok (loaded_inputs P) (rowners s);
  i_types : forall a x y, In a P -> vx a = false -> nth_error (srcs m) (source (fst a)) = Some x ->
              nth_error (srcs (rmesh s)) (source (fst a)) = Some y -> src_type y = src_type x;
  i_has : has_vertex s = existsb vx P
}.
(** What an input must satisfy to be written and found again. *)
Definition good (a : input Z * Z) : Prop :=
  (Z.of_nat (offset (fst a)) < 2147483600)%Z /\ (-1 <= snd a < 2147483600)%Z /\
  exists x, nth_error (srcs m) (source (fst a)) = Some x /\
    (vx a = true -> offset (fst a) = 0) /\ (vx a = false -> (0 <= src_type x <= 12)%Z /\ src_type x <> VERTEX).
Ltac texts := repeat match goal with
  | |- context [text_eq (tx ?a) (tx ?b)] => let v := eval vm_compute in (text_eq (tx a) (tx b)) in change (text_eq (tx a) (tx b)) with v
  end.
Lemma i32_dec n : (0 <= n)%Z -> append_i32 n = dec n.
Proof. intro H. unfold append_i32. destruct (Z.ltb_spec n 0); [lia|reflexivity]. Qed.
Lemma dec_match {A} n (a : A) (f : list Z -> A) : (0 <= n)%Z -> (match dec n with [] => a | _ => f (dec n) end) = f (dec n).
Proof. intro H. pose proof (dec_nonempty n H). destruct (dec n); congruence. Qed.
(** The attributes of an <input> element. *)
Lemma input_props sid sem off set : (0 <= off)%Z -> (-1 <= set)%Z ->
  let n := Elem (tx "input") ([(tx "semantic", sem); (tx "source", 35%Z :: sid)]
          ++ (if (0 <=? off)%Z then [(tx "offset", append_i32 off)] else []) ++ (if (0 <=? set)%Z then [(tx "set", append_i32 set)] else [])) [] in
  ReadNodeProperty n "semantic" = XmlToString sem /\ ReadNodeProperty n "source" = XmlToString (35%Z :: sid) /\
  ReadNodeProperty n "offset" = dec off /\ ReadNodeProperty n "set" = (if (0 <=? set)%Z then dec set else []).
Proof.
  intros Ho Hs n. unfold n. rewrite (proj2 (Z.leb_le 0 off) Ho). unfold ReadNodeProperty. cbn [app find_attr]. texts. cbv iota.
  rewrite (i32_dec off) by exact Ho. rewrite (plain_same (dec off)) by (apply dec_plain; exact Ho).
  repeat (split; [reflexivity|]). destruct (Z.leb_spec 0 set) as [L|L]; cbn [find_attr]; texts; cbv iota; [|reflexivity].
  rewrite i32_dec by exact L. apply plain_same, dec_plain. exact L.
Qed.
Lemma semantic_back v : (0 <= v <= 12)%Z -> SemanticFromString (XmlToString (SemanticToString v)) = v /\ SemanticToString v <> [].
Proof.
  intro H. assert (Hc : (v = 0 \/ v = 1 \/ v = 2 \/ v = 3 \/ v = 4 \/ v = 5 \/ v = 6 \/ v = 7 \/ v = 8 \/ v = 9 \/ v = 10 \/ v = 11 \/ v = 12)%Z) by lia.
  repeat (destruct Hc as [->|Hc]; [split; [reflexivity|discriminate]|]). subst v. split; [reflexivity|discriminate].
Qed.
Lemma read_set set : (-1 <= set < 2147483600)%Z ->
  (match (if (0 <=? set)%Z then dec set else []) with [] => Some (-1)%Z | t0 => option_map fst (ToInt32 Strict t0) end) = Some set.
Proof.
  intro H. destruct (Z.leb_spec 0 set) as [L|L].
  - pose proof (read_i32 set ltac:(lia)) as E. rewrite i32_dec in E by exact L. pose proof (dec_nonempty set L). destruct (dec set); [congruence|exact E].
  - f_equal. lia.
Qed.
Lemma read_off (w : list (option nat)) off : (Z.of_nat off < 2147483600)%Z ->
  (match dec (Z.of_nat off) with [] => S (length w) | _ => Z.to_nat (fst (ToUInt32 (dec (Z.of_nat off)))) end) = off.
Proof.
  intro H. pose proof (read_u32 (Z.of_nat off) ltac:(lia)) as E. pose proof (dec_nonempty (Z.of_nat off) ltac:(lia)).
  destruct (dec (Z.of_nat off)); [congruence|]. rewrite E. apply Nat2Z.id.
Qed.
Lemma owners_claim ins w off i x : owners_ok ins w -> nth_error ins i = Some x -> offset x = off -> owners_ok ins (claim_owner (at_least w (S off)) off i).
Proof.
  intros H Hi Hx o j. unfold claim_owner.
  assert (Ha : nth_error (at_least w (S off)) o = Some (Some j) -> exists x, nth_error ins j = Some x /\ offset x = o).
  { rewrite at_least_nth. destruct (o <? length w); [apply H|]. destruct (o <? S off); discriminate. }
  destruct (nth_error (at_least w (S off)) off) as [[k|]|] eqn:E; auto.
  assert (L : off < length (at_least w (S off))) by (apply nth_error_Some; congruence).
  rewrite nth_set_nth by exact L. destruct (Nat.eqb_spec o off) as [->|N]; [|exact Ha]. intro Ej. injection Ej as <-. eauto.
Qed.
Lemma owners_more ins more w : owners_ok ins w -> owners_ok (ins ++ more) w.
Proof. intros H o i Ho. destruct (H o i Ho) as (x & Hx & E). exists x. split; auto. rewrite nth_error_app1; auto. apply nth_error_Some. congruence. Qed.
Lemma loaded_vertex P k v : nth_error V k = Some v -> nth_error (loaded_inputs P) k = Some (Input 0 v []).
Proof.
  intro H. unfold loaded_inputs. rewrite nth_error_app1 by (rewrite map_length; apply nth_error_Some; congruence).
  apply (map_nth_error (fun v => Input 0 v [])). exact H.
Qed.
Lemma vertex_again P s : rset s = DSet (PSet t [] [] (loaded_inputs P)) (loaded_sets P) mat -> forall Q, covers (rowners s) Q -> Q 0 ->
  forall l, (forall v, In v l -> In v V) -> fold_left (vertex_input 0 (-1)) l s = s.
Proof.
  intros E Q HQ H0. induction l as [|v l IH]; intro Hl; [reflexivity|]. cbn [fold_left].
  assert (Ev : vertex_input 0 (-1) s v = s).
  { unfold vertex_input. rewrite E. cbn [base pinputs]. unfold loaded_inputs.
    destruct (find_input_vertex V (map bare (others P)) v (Hl v (or_introl eq_refl))) as (k & -> & Hk).
    rewrite (claim_again _ _ _ _ HQ H0). cbn [sets material]. rewrite set_nth_id.
    - destruct s; cbn in E |- *; rewrite E; reflexivity.
    - unfold loaded_sets. rewrite nth_error_app1 by (rewrite map_length; apply nth_error_Some; congruence). apply (map_nth_error (fun _ => (-1)%Z)) in Hk. exact Hk. }
  rewrite Ev. apply IH. intros; apply Hl; right; auto.
Qed.
Lemma exists_app (P : list (input Z * Z)) a o : (exists b, In b (P ++ [a]) /\ offset (fst b) = o) <-> (exists b, In b P /\ offset (fst b) = o) \/ o = offset (fst a).
Proof.
  split.
  - intros (b & Hb & E). apply in_app_iff in Hb. destruct Hb as [Hb|[<-|[]]]; [left; eauto|right; auto].
  - intros [(b & Hb & E)| ->]; [exists b|exists a]; rewrite in_app_iff; cbn; auto.
Qed.
Lemma covers_iff w P Q : (forall o, P o <-> Q o) -> covers w P -> covers w Q.
Proof. intros H (A & B). split; [intro o; rewrite A; apply H|]. intros o Ho. destruct (B o Ho) as (o1 & ? & ?). exists o1. split; auto. apply H; auto. Qed.

(** One input is written (or skipped) and read. *)
Definition one_input (a : input Z * Z) (found : bool) : list xml :=
  if vx a then (if found then [] else AddInput (mesh_id m ++ tx "-vertices") (tx "VERTEX") (Z.of_nat (offset (fst a))) (-1))
  else match nth_error (srcs m) (source (fst a)) with
       | Some x => AddInput (src_id x) (SemanticToString (src_type x)) (Z.of_nat (offset (fst a))) (snd a)
       | None => []
       end.
Lemma others_vertex P a : vx a = true -> others (P ++ [a]) = others P.
Proof. intro H. unfold others. rewrite filter_app. cbn. rewrite H. apply app_nil_r. Qed.
Lemma others_other P a : vx a = false -> others (P ++ [a]) = others P ++ [a].
Proof. intro H. unfold others. rewrite filter_app. cbn. rewrite H. reflexivity. Qed.
Lemma add_vertex_input off : AddInput (mesh_id m ++ tx "-vertices") (tx "VERTEX") off (-1) =
  [Elem (tx "input") ([(tx "semantic", tx "VERTEX"); (tx "source", 35%Z :: mesh_id m ++ tx "-vertices")]
     ++ (if (0 <=? off)%Z then [(tx "offset", append_i32 off)] else []) ++ (if (0 <=? -1)%Z then [(tx "set", append_i32 (-1))] else [])) []].
Proof. unfold AddInput. destruct (mesh_id m); reflexivity. Qed.
Lemma add_other_input sid sem off set : sid <> [] -> sem <> [] -> AddInput sid sem off set =
  [Elem (tx "input") ([(tx "semantic", sem); (tx "source", 35%Z :: sid)]
     ++ (if (0 <=? off)%Z then [(tx "offset", append_i32 off)] else []) ++ (if (0 <=? set)%Z then [(tx "set", append_i32 set)] else [])) []].
Proof. intros. unfold AddInput. destruct sid; [congruence|]. destruct sem; [congruence|]. reflexivity. Qed.
Lemma vertex_first P s x : inv P s -> has_vertex s = false -> (forall a, In a P -> vx a = true -> offset (fst a) = 0) -> offset (fst x) = 0 -> vx x = true ->
  inv (P ++ [x]) (fold_left (vertex_input 0 (-1)) V (RState (rmesh s) (rset s) (at_least (rowners s) 1) true)).
Proof.
  intros [I1 I2 I3 I4 I5 I6] Hh HP Hx Ev. destruct Hm as (M1 & M2 & M3 & M4 & M5).
  destruct V as [|v0 Vr] eqn:EV; [congruence|]. rewrite <- EV in *. clear M4.
  assert (Hin : In v0 V) by (rewrite EV; left; reflexivity).
  destruct (find_input_vertex V (map bare (others P)) v0 Hin) as (k & Hf & Hk).
  set (s1 := RState (rmesh s) (rset s) (claim_owner (at_least (rowners s) 1) 0 k) true).
  assert (E1 : vertex_input 0 (-1) (RState (rmesh s) (rset s) (at_least (rowners s) 1) true) v0 = s1).
  { unfold vertex_input, s1. cbn [rset rmesh rowners has_vertex]. rewrite I2. cbn [base pinputs]. unfold loaded_inputs. rewrite Hf.
    cbn [sets material]. rewrite set_nth_id; [reflexivity|].
    unfold loaded_sets. rewrite nth_error_app1 by (rewrite map_length; apply nth_error_Some; congruence). apply (map_nth_error (fun _ => (-1)%Z)) in Hk. exact Hk. }
  assert (C1 : covers (rowners s1) (fun o => exists a, In a (P ++ [x]) /\ offset (fst a) = o)).
  { eapply covers_iff; [|apply claim_covers; exact I3]. intro o. cbv beta. rewrite exists_app, Hx. reflexivity. }
  assert (E2 : fold_left (vertex_input 0 (-1)) V (RState (rmesh s) (rset s) (at_least (rowners s) 1) true) = s1).
  { rewrite EV at 1. cbn [fold_left]. rewrite E1. apply (vertex_again P s1 I2 _ C1).
    - exists x. rewrite in_app_iff. cbn. auto.
    - intros v Hv. rewrite EV. right. exact Hv. }
  rewrite E2. constructor; unfold s1; cbn [rset rmesh rowners has_vertex].
  - exact I1.
  - unfold loaded_inputs, loaded_sets. rewrite others_vertex by exact Ev. exact I2.
  - exact C1.
  - unfold loaded_inputs. rewrite others_vertex by exact Ev. apply (owners_claim _ _ _ _ (Input 0 v0 [])); [exact I4| |reflexivity]. exact (loaded_vertex P k v0 Hk).
  - intros b y z Hb Eb. apply in_app_iff in Hb. destruct Hb as [Hb|[<-|[]]]; [eauto|congruence].
  - rewrite existsb_app. cbn. rewrite Ev. destruct (existsb vx P); reflexivity.
Qed.
Lemma one_step P s a : inv P s -> (forall b, In b P -> vx b = true -> offset (fst b) = 0) -> good a -> exists s1, inv (P ++ [a]) s1 /\ forall rest, read_inputs s (one_input a (existsb vx P) ++ rest) = read_inputs s1 rest.
Proof.
  intros I HP (Go & Gs & x & Gx & Gv & Gn). pose proof Hm as (M1 & M2 & M3 & M4 & M5). unfold one_input. destruct (vx a) eqn:Ev.
  - specialize (Gv eq_refl). clear Gn. destruct (existsb vx P) eqn:Ef.
    + destruct I as [I1 I2 I3 I4 I5 I6]. exists s. split; [|reflexivity]. constructor.
      * exact I1.
      * unfold loaded_inputs, loaded_sets. rewrite others_vertex by exact Ev. exact I2.
      * eapply covers_iff; [|exact I3]. intro o. rewrite exists_app. split; [tauto|]. intros [H| ->]; [exact H|]. apply existsb_exists in Ef.
        destruct Ef as (b & Hb & Eb). exists b. split; [exact Hb|]. rewrite (HP b Hb Eb), Gv. reflexivity.
      * unfold loaded_inputs. rewrite others_vertex by exact Ev. exact I4.
      * intros b y z Hb Eb. apply in_app_iff in Hb. destruct Hb as [Hb|[<-|[]]]; [eauto|congruence].
      * rewrite existsb_app, I6, Ef. reflexivity.
    + assert (Hh : has_vertex s = false) by (rewrite (i_has _ _ I); exact Ef).
      eexists. split; [exact (vertex_first P s a I Hh HP Gv Ev)|]. intro rest. rewrite add_vertex_input, Gv.
      destruct (input_props (mesh_id m ++ tx "-vertices") (tx "VERTEX") 0 (-1) ltac:(lia) ltac:(lia)) as (p1 & p2 & p3 & p4).
      change (Z.of_nat 0) with 0%Z. match type of p1 with ReadNodeProperty ?e _ = _ => set (n := e) in * end.
      transitivity (match read_input s n with Some s1 => read_inputs s1 rest | None => None end); [reflexivity|].
      unfold read_input. rewrite p1, p3, p4. pose proof (read_off (rowners s) 0 ltac:(lia)) as Er. change (Z.of_nat 0) with 0%Z in Er. rewrite Er.
      change (0 <=? -1)%Z with false. cbv iota. change (SemanticFromString (XmlToString (tx "VERTEX"))) with 1%Z. rewrite Hh.
      rewrite (proj1 (i_mesh _ _ I)). reflexivity.
  - specialize (Gn eq_refl). clear Gv. destruct Gn as (Gt & Gne). rewrite Gx.
    assert (Hid : legal_id (src_id x)) by (apply M2; eapply nth_error_In; eauto). destruct Hid as (Hpl & Hne & Hhd).
    destruct (semantic_back (src_type x) Gt) as (Sb & Sn).
    destruct I as [I1 I2 I3 I4 I5 I6].
    set (k := source (fst a)) in *. set (off := offset (fst a)) in *.
    set (s1 := RState (SetSourceType (rmesh s) k (src_type x)) (add_input (rset s) k off (snd a))
       (claim_owner (at_least (rowners s) (S off)) off (length (loaded_inputs P))) (has_vertex s)).
    assert (Ein : loaded_inputs (P ++ [a]) = loaded_inputs P ++ [Input off k []]).
    { unfold loaded_inputs. rewrite others_other by exact Ev. rewrite map_app, app_assoc. reflexivity. }
    assert (Est : loaded_sets (P ++ [a]) = loaded_sets P ++ [snd a]).
    { unfold loaded_sets. rewrite others_other by exact Ev. rewrite map_app, app_assoc. reflexivity. }
    destruct (loading_set m (rmesh s) k x I1 Gx) as (L1 & L2).
    exists s1. split.
    + constructor; unfold s1; cbn [rmesh rset rowners has_vertex].
      * exact L1.
      * rewrite I2, Ein, Est. reflexivity.
      * eapply covers_iff; [|apply claim_covers; exact I3]. intro o. cbv beta. rewrite exists_app. reflexivity.
      * rewrite Ein. apply (owners_claim _ _ _ _ (Input off k [])); [apply owners_more; exact I4| |reflexivity].
        rewrite nth_error_app2, Nat.sub_diag by lia. reflexivity.
      * intros b y z Hb Eb Hy Hz. eapply L2; [exact Hy| |exact Hz]. apply in_app_iff in Hb. destruct Hb as [Hb|[<-|[]]]; [right|left; reflexivity].
        intros s0 Hs0. exact (I5 b y s0 Hb Eb Hy Hs0).
      * rewrite existsb_app. cbn. rewrite Ev, I6. destruct (existsb vx P); reflexivity.
    + intro rest. rewrite (add_other_input _ _ _ _ Hne Sn).
      destruct (input_props (src_id x) (SemanticToString (src_type x)) (Z.of_nat off) (snd a) ltac:(lia) ltac:(lia)) as (p1 & p2 & p3 & p4).
      match type of p1 with ReadNodeProperty ?e _ = _ => set (n := e) in * end.
      transitivity (match read_input s n with Some s1 => read_inputs s1 rest | None => None end); [reflexivity|].
      unfold read_input. rewrite p1, p2, p3, p4. rewrite (read_off (rowners s) off Go). rewrite (read_set (snd a) Gs). rewrite Sb.
      destruct (Z.eqb_spec (src_type x) UNKNOWN) as [Eu|_]; [unfold UNKNOWN in Eu; lia|].
      destruct (Z.eqb_spec (src_type x) VERTEX) as [Eu|_]; [congruence|].
      assert (Hf : FindSourceById (rmesh s) (drop_hash (XmlToString (35%Z :: src_id x))) = Some k).
      { rewrite plain_same.
        - change (drop_hash (35%Z :: src_id x)) with (src_id x). unfold FindSourceById. assert (Hd : drop_hash (src_id x) = src_id x).
          { unfold drop_hash. destruct (src_id x) as [|c r]; [reflexivity|]. cbn [hd] in Hhd. destruct (Z.eqb_spec c 35); [congruence|reflexivity]. }
          rewrite Hd. destruct I1 as (A & B & C). destruct (forall2_nth _ _ _ B k x Gx) as (y & Hy & E1 & _).
          rewrite <- E1. apply find_id_spec; [|exact Hy]. rewrite (loading_ids m (rmesh s) (conj A (conj B C))). exact M1.
        - destruct Hpl as (F1 & F2). split; [constructor; [lia|exact F1]|]. intros [E|E]; [discriminate|auto]. }
      rewrite Hf. unfold s1. rewrite I2. reflexivity.
Qed.
(** All the inputs. *)
Lemma write_inputs_spec : forall ins sts P s, length sts = length ins -> inv P s -> (forall b, In b P -> vx b = true -> offset (fst b) = 0) ->
  (forall a, In a (combine ins sts) -> good a) ->
  exists xs s1, write_inputs m ins sts (existsb vx P) = Some xs /\ inv (P ++ combine ins sts) s1 /\ forall rest, read_inputs s (xs ++ rest) = read_inputs s1 rest.
Proof.
  induction ins as [|x ins IH]; intros [|st sts] P s Hl I HP Hg; try discriminate.
  - exists [], s. cbn. rewrite app_nil_r. auto.
  - assert (Ga : good (x, st)) by (apply Hg; left; reflexivity). pose proof Ga as (Go & Gs & y & Gy & Gv & Gn). cbn [fst snd] in *.
    destruct (one_step P s (x, st) I HP Ga) as (s1 & I1 & H1).
    assert (HP1 : forall b, In b (P ++ [(x, st)]) -> vx b = true -> offset (fst b) = 0).
    { intros b Hb Eb. apply in_app_iff in Hb. destruct Hb as [Hb|[<-|[]]]; auto. }
    destruct (IH sts (P ++ [(x, st)]) s1 ltac:(cbn in Hl; lia) I1 HP1 ltac:(intros; apply Hg; right; auto)) as (xs & s2 & W & I2 & H2).
    rewrite existsb_app in W. cbn [existsb] in W.
    exists (one_input (x, st) (existsb vx P) ++ xs), s2. split; [|split].
    + cbn [write_inputs]. rewrite Gy. unfold one_input. cbn [fst snd]. rewrite Gy. change (IsVertexSource m (source x)) with (vx (x, st)). destruct (vx (x, st)) eqn:Ev.
      * rewrite orb_true_r in W. rewrite W. reflexivity.
      * rewrite orb_false_r in W. rewrite W. reflexivity.
    + rewrite <- app_assoc in I2. exact I2.
    + intro rest. rewrite <- app_assoc. rewrite H1. apply H2.
Qed.
Lemma inv_start m0 : loading m m0 -> inv [] (RState m0 (DSet (base (AddPolygons m0 t)) (sets (AddPolygons m0 t)) mat) [] false).
Proof.
  intro L. constructor; cbn.
  - exact L.
  - unfold loaded_inputs, loaded_sets. cbn. rewrite !app_nil_r. rewrite (proj1 L). reflexivity.
  - eapply covers_iff; [|apply covers_nil]. intro o. split; [tauto|]. intros (a & [] & _).
  - intros o i H. destruct o; discriminate.
  - intros a x y [].
  - reflexivity.
Qed.
End Inputs.
