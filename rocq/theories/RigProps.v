(** C90: a skin controller written to XML and read back.  C91: reading a <skin> element. *)
From Coq Require Import List ZArith QArith Qabs Qpower Bool String Permutation Lia Lqa.
From Verif Require Import TextModel TextSpec TextProofs StringModel StringProofs XmlModel FloatModel FloatSpec FloatProofs FloatProps SkinModel DaeModel DaeSpec DaeProofs RigModel RigSpec RigTextProofs RigProofs RigWriteProofs.
Import ListNotations.
Local Open Scope nat_scope.
Local Open Scope list_scope.

(** *** C90 *)
(** C90 (full statement, refuted below): a skin that is written and read back has the same joint ids, bind poses, bind shape and, for
    every vertex, the same joints and weights.  What holds, for every skin whose joint ids are words: the joint ids and the joint numbers
    are the same, every matrix component keeps six digits, and the weights of a vertex are the written ones - those near 1
    replaced by 1, six digits - divided by their sum unless that is near 0 or 1. *)
Theorem C90_round_trip_partial : forall a eps id s n, machine_eps eps -> plain id -> proper_skin s -> Forall (fun j => word (fst j)) (joints s) ->
  WriteSkinController eps id s n -> exists s' b, LoadSkinController a n = Some (LoadedSkin true s' b) /\ skin_remains eps s s'.
Proof. intros a eps id s n. apply written_read. Qed.
Print Assumptions C90_round_trip_partial.
(** Every skin can be written. *)
Theorem C90_writable : forall eps id s, machine_eps eps -> exists n, WriteSkinController eps id s n.
Proof. intros eps id s. apply skin_writable. Qed.
Print Assumptions C90_writable.

(** A number that is written exactly: 0, or not smaller than eps and with six digits or fewer. *)
Definition short (eps q : Q) : Prop := (q == 0 \/ eps <= Qabs q /\ six_digits q)%Q.
Definition short_matrix (eps : Q) (m : mat) : Prop := forall i j, i < 4 -> j < 4 -> short eps (m i j).
Definition sharp (w : Q) : Prop := (w == 1 \/ tolerance <= Qabs (w - 1))%Q.
Definition same_pair (p p' : pair) : Prop := joint p' = joint p /\ (weight p' == weight p)%Q.
Definition same_skin (s s' : skin) : Prop :=
  map fst (joints s') = map fst (joints s) /\ Forall2 same_matrix (map snd (joints s)) (map snd (joints s')) /\ same_matrix (bind_shape s) (bind_shape s') /\
  Forall2 (Forall2 same_pair) (influences s) (influences s').
Lemma eps_pos eps : machine_eps eps -> (0 < eps)%Q. Proof. intro H. apply (eps_bounds eps H). Qed.
Lemma matrix_exact eps m m' : machine_eps eps -> short_matrix eps m -> matrix_remains eps m m' -> same_matrix m m'.
Proof. intros He Hs H i j Hi Hj. apply (exact_remains eps); auto. now apply Hs. now apply eps_pos. Qed.
Lemma weights_exact eps ws rs : machine_eps eps -> Forall (fun w => short eps w /\ sharp w) ws -> Forall2 (weight_remains eps) ws rs -> Forall2 Qeq ws rs.
Proof.
  intros He Hs H. induction H as [|w r ws rs (H1 & H2) _ IH]; [constructor|]. inversion Hs as [|? ? (S1 & S2) S3]; subst. constructor; auto.
  destruct S2 as [E|S2].
  - rewrite E. symmetry. apply H1. rewrite E. change (Qabs (1 - 1)) with 0%Q. unfold tolerance. lra.
  - symmetry. apply (exact_remains eps); auto. now apply eps_pos.
Qed.
Lemma sum_eq l m : Forall2 Qeq l m -> (sum_of m == sum_of l)%Q.
Proof. induction 1; cbn; [reflexivity|]. unfold sum_of in *. rewrite H, IHForall2. reflexivity. Qed.
Lemma Qeq_trans2 : forall l m k, Forall2 Qeq l m -> Forall2 Qeq m k -> Forall2 Qeq l k.
Proof. intros l m k H. revert k. induction H as [|x y l m E _ IH]; intros k Hk; inversion Hk; subst; constructor; auto. now rewrite E. Qed.
Lemma same_pairs : forall ps ps', map joint ps' = map joint ps -> Forall2 Qeq (map weight ps) (map weight ps') -> Forall2 same_pair ps ps'.
Proof.
  induction ps as [|p ps IH]; intros [|q ps'] E H; try discriminate; constructor; cbn in *; inversion H; subst.
  - split; [congruence|]. symmetry. auto.
  - apply IH; auto. congruence.
Qed.
(** A skin whose numbers have six digits or fewer, whose weights are 1 or not near 1, and whose weights sum up to about 1 - or to
    about 0 - at every vertex, comes back exactly. *)
Theorem C90_exact_partial : forall a eps id s n, machine_eps eps -> plain id -> proper_skin s -> Forall (fun j => word (fst j) /\ short_matrix eps (snd j)) (joints s) ->
  short_matrix eps (bind_shape s) -> Forall (fun ps => Forall (fun w => short eps w /\ sharp w) (map weight ps) /\
    (Qabs (sum_of (map weight ps)) < tolerance \/ Qabs (sum_of (map weight ps) - 1) < tolerance)%Q) (influences s) ->
  WriteSkinController eps id s n -> exists s' b, LoadSkinController a n = Some (LoadedSkin true s' b) /\ same_skin s s'.
Proof.
  intros a eps id s n He Hid Hs Hj Hb Hv Hw. destruct (written_read a eps id s n He Hid Hs) as (s' & b & E & (K1 & K2 & K3 & K4)); auto.
  { revert Hj. apply Forall_impl. tauto. }
  exists s', b. split; auto. split; [exact K1|]. split; [|split].
  - clear - He Hj K2. revert K2. generalize (map snd (joints s')) as l'. induction Hj as [|x l (_ & Hx) _ IH]; intros l' K; cbn in K; inversion K; subst; cbn; constructor; auto.
    now apply (matrix_exact eps).
  - now apply (matrix_exact eps).
  - clear - He Hv K4. revert K4. generalize (influences s') as l'. induction Hv as [|ps l (Hp & Hsum) _ IH]; intros l' K; inversion K as [|? ps' ? l'' K1 K2]; subst; constructor; auto.
    destruct K1 as (E1 & ws & R & N). pose proof (weights_exact eps _ _ He Hp R) as Ew. pose proof (sum_eq _ _ Ew) as Es.
    apply same_pairs; auto. destruct N as [(_ & N)|((N1 & N2) & _)]; [apply (Qeq_trans2 _ ws); auto|]. exfalso. rewrite Es in N1, N2. lra.
Qed.
Print Assumptions C90_exact_partial.

(** A rig of two joints: a vertex bound to both, a vertex bound to one, a vertex bound to nothing. *)
Definition shifted : mat := fun i j => if i =? j then 1%Q else if (i =? 3) && (j =? 1) then (-5 # 2)%Q else 0%Q.
Definition rig : skin := Skin unit_matrix [(tx "hip", unit_matrix); (tx "knee", shifted)] [[Pair 0 (1 # 4); Pair 1 (3 # 4)]; [Pair 1 1]; []].
Lemma small_finite q : (Qabs q <= 10)%Q -> finite q.
Proof. intro H. unfold finite. eapply Qle_trans; [exact H|]. vm_compute. discriminate. Qed.
Lemma unit_finite i j : finite (unit_matrix i j).
Proof. apply small_finite. unfold unit_matrix. destruct (i =? j); vm_compute; discriminate. Qed.
Lemma shifted_finite i j : finite (shifted i j).
Proof. apply small_finite. unfold shifted. destruct (i =? j); [vm_compute; discriminate|]. destruct ((i =? 3) && (j =? 1)); vm_compute; discriminate. Qed.
Lemma rig_proper : proper_skin rig.
Proof.
  constructor; cbn.
  - split; [exact unit_finite|]. split; [repeat constructor; cbn; auto using unit_finite, shifted_finite|].
    repeat constructor; cbn; apply small_finite; vm_compute; discriminate.
  - repeat constructor; cbn; lia.
  - lia.
Qed.
Lemma short_six eps q m e : machine_eps eps -> (100000 <= m < 1000000)%Z -> (Qabs q == inject_Z m * Qpower 10 (e - 5))%Q -> (1 # 1000 <= Qabs q)%Q -> short eps q.
Proof.
  intros He Hm E Hq. right. split; [|exists m, e; auto]. eapply Qle_trans; [|exact Hq]. destruct He as [-> | ->]; vm_compute; discriminate.
Qed.
Lemma short_one eps : machine_eps eps -> short eps 1.
Proof. intro He. apply (short_six eps 1 100000 0); [auto|lia|vm_compute; reflexivity|vm_compute; discriminate]. Qed.
Lemma short_zero eps : short eps 0. Proof. left. reflexivity. Qed.
Lemma word_check t : forallb (fun c => (33 <=? c) && (c <=? 255))%Z t = true -> t <> [] -> word t.
Proof.
  intros H Hn. split; auto. rewrite forallb_forall in H. apply Forall_forall. intros c Hc. specialize (H c Hc). apply andb_true_iff in H as (A & B).
  apply Z.leb_le in A. apply Z.leb_le in B. split; [lia|]. intros [[E|[E|E]]|E]; lia.
Qed.
Example C90_demo : forall eps, machine_eps eps -> plain (tx "rig") /\ proper_skin rig /\ Forall (fun j => word (fst j) /\ short_matrix eps (snd j)) (joints rig) /\
  short_matrix eps (bind_shape rig) /\ Forall (fun ps => Forall (fun w => short eps w /\ sharp w) (map weight ps) /\
    (Qabs (sum_of (map weight ps)) < tolerance \/ Qabs (sum_of (map weight ps) - 1) < tolerance)%Q) (influences rig).
Proof.
  intros eps He. assert (U : short_matrix eps unit_matrix).
  { intros i j _ _. unfold unit_matrix. destruct (i =? j); [now apply short_one|apply short_zero]. }
  assert (V : short_matrix eps shifted).
  { intros i j _ _. unfold shifted. destruct (i =? j); [now apply short_one|]. destruct ((i =? 3) && (j =? 1)); [|apply short_zero].
    apply (short_six eps _ 250000 0); [auto|lia|vm_compute; reflexivity|vm_compute; discriminate]. }
  split; [cbn; split; [repeat (apply Forall_cons; [lia|]); apply Forall_nil|cbn; intuition discriminate]|]. split; [exact rig_proper|].
  split; [repeat (apply Forall_cons; [split; [apply word_check; [reflexivity|discriminate]|auto]|]); apply Forall_nil|]. split; [exact U|].
  assert (S1 : short eps (1 # 4)) by (apply (short_six eps _ 250000 (-1)); [auto|lia|vm_compute; reflexivity|vm_compute; discriminate]).
  assert (S3 : short eps (3 # 4)) by (apply (short_six eps _ 750000 (-1)); [auto|lia|vm_compute; reflexivity|vm_compute; discriminate]).
  repeat (apply Forall_cons); try apply Forall_nil; split; cbn [map weight].
  - repeat (apply Forall_cons; [split; [assumption|right; vm_compute; discriminate]|]). apply Forall_nil.
  - right. vm_compute. reflexivity.
  - apply Forall_cons; [|apply Forall_nil]. split; [now apply short_one|left; reflexivity].
  - right. vm_compute. reflexivity.
  - apply Forall_nil.
  - left. vm_compute. reflexivity.
Qed.
(** The element written for it, and the skin read from that. *)
Definition unit_text : list Z := tx "1 0 0 0 0 1 0 0 0 0 1 0 0 0 0 1".
Example C90_element_demo :
  exists s', LoadSkinController Strict (skin_element (tx "rig") rig unit_text (unit_text ++ 32%Z :: tx "1 0 0 0 0 1 0 -2.5 0 0 1 0 0 0 0 1") (tx "1 0.25 0.75"))
    = Some (LoadedSkin true s' true) /\ map fst (joints s') = [tx "hip"; tx "knee"] /\
  map (map (fun p => (joint p, Qred (weight p)))) (influences s') = [[(0%Z, (1 # 4)%Q); (1%Z, (3 # 4)%Q)]; [(1%Z, 1%Q)]; []] /\
  vertexCounts rig = tx "2 1 0 " /\ vertexMatches rig = tx "0 1 1 2 1 0".
Proof. eexists. split; [vm_compute; reflexivity|]. split; [reflexivity|]. split; [vm_compute; reflexivity|]. split; reflexivity. Qed.

(** C90 (full statement, refuted): the weights of a vertex that do not sum up to about 1 or 0 come back divided by their sum: for all
    skins with short numbers, at every such vertex. *)
Lemma vertex_at eps s s' i ps : Forall2 (vertex_remains eps) (influences s) (influences s') -> nth_error (influences s) i = Some ps ->
  exists ps', nth_error (influences s') i = Some ps' /\ vertex_remains eps ps ps'.
Proof.
  generalize (influences s), (influences s'). intros l l' H. revert i. induction H as [|x y l l' Hx _ IH]; intros [|i] E; cbn in *; try discriminate.
  - injection E as <-. eauto.
  - auto.
Qed.
Theorem C90_normalized_refuted : forall a eps id s n i ps, machine_eps eps -> plain id -> proper_skin s -> Forall (fun j => word (fst j)) (joints s) ->
  nth_error (influences s) i = Some ps -> Forall (fun w => short eps w /\ sharp w) (map weight ps) ->
  (tolerance <= Qabs (sum_of (map weight ps)) /\ tolerance <= Qabs (sum_of (map weight ps) - 1))%Q -> WriteSkinController eps id s n ->
  exists s' b ps', LoadSkinController a n = Some (LoadedSkin true s' b) /\ nth_error (influences s') i = Some ps' /\
    Forall2 (fun p p' => joint p' = joint p /\ weight p' == weight p / sum_of (map weight ps) /\ (~ weight p == 0 -> ~ weight p' == weight p))%Q ps ps'.
Proof.
  intros a eps id s n i ps He Hid Hs Hj Hi Hp Hsum Hw. destruct (written_read a eps id s n He Hid Hs Hj Hw) as (s' & b & E & (K1 & K2 & K3 & K4)).
  destruct (vertex_at eps s s' i ps K4 Hi) as (ps' & Ei & (E1 & ws & R & N)). exists s', b, ps'. split; [exact E|]. split; [exact Ei|].
  pose proof (weights_exact eps _ _ He Hp R) as Ew. pose proof (sum_eq _ _ Ew) as Es. destruct N as [(N & _)|(_ & N)]; [exfalso; rewrite Es in N; lra|].
  set (q := sum_of (map weight ps)) in *. assert (Hq : ~ (q == 0)%Q). { intro X. rewrite X in Hsum. change (Qabs 0) with 0%Q in Hsum. unfold tolerance in Hsum. lra. }
  assert (Hq1 : ~ (q == 1)%Q). { intro X. rewrite X in Hsum. change (Qabs (1 - 1)) with 0%Q in Hsum. unfold tolerance in Hsum. lra. }
  assert (Es' : (sum_of ws == q)%Q) by exact Es. clearbody q. set (z := sum_of ws) in *. clearbody z. clear - E1 Ew N Hq Hq1 Es'.
  revert ps' ws E1 Ew N. induction ps as [|p ps IH]; intros [|p' ps'] ws E1 Ew N; try discriminate; [constructor|].
  cbn in *. inversion Ew as [|? w ? ws' W1 W2]; subst. inversion N as [|? ? ? ? N1 N2]; subst. constructor; [|apply (IH ps' ws'); auto; congruence].
  rewrite Es', <- W1 in N1. assert (D : (weight p' == weight p / q)%Q) by (rewrite <- N1; field; auto).
  split; [congruence|]. split; [exact D|]. intros Hp X. rewrite X in N1. apply Hq1. setoid_replace q with ((weight p * q) / weight p)%Q by (field; auto).
  rewrite N1. field. auto.
Qed.
Print Assumptions C90_normalized_refuted.
(** C90 (full statement, refuted): a weight near 1 but not 1, alone at its vertex, comes back as 1. *)
Theorem C90_near_one_refuted : forall a eps id s n i j w, machine_eps eps -> plain id -> proper_skin s -> Forall (fun j => word (fst j)) (joints s) ->
  nth_error (influences s) i = Some [Pair j w] -> ~ (w == 1)%Q -> (Qabs (w - 1) < tolerance)%Q -> WriteSkinController eps id s n ->
  exists s' b w', LoadSkinController a n = Some (LoadedSkin true s' b) /\ nth_error (influences s') i = Some [Pair j w'] /\ (w' == 1)%Q /\ ~ (w' == w)%Q.
Proof.
  intros a eps id s n i j w He Hid Hs Hj Hi Hw1 Hw2 Hw. destruct (written_read a eps id s n He Hid Hs Hj Hw) as (s' & b & E & (K1 & K2 & K3 & K4)).
  destruct (vertex_at eps s s' i _ K4 Hi) as (ps' & Ei & (E1 & ws & R & N)). cbn in E1, R. destruct ps' as [|[j' w'] [|? ?]]; try discriminate.
  injection E1 as ->. inversion R as [|? r ? l (R1 & _) R2]; subst. inversion R2; subst. specialize (R1 Hw2).
  assert (Es : (sum_of [r] == 1)%Q) by (cbn; rewrite R1; reflexivity).
  exists s', b, w'. split; [exact E|]. split; [exact Ei|]. assert (W : (w' == 1)%Q).
  { destruct N as [(_ & N)|((_ & N) & _)]; [inversion N; subst; cbn in *; congruence || (rewrite <- R1; symmetry; assumption)|].
    exfalso. rewrite Es in N. change (Qabs (1 - 1)) with 0%Q in N. unfold tolerance in N. lra. }
  split; [exact W|]. intro X. apply Hw1. now rewrite <- X.
Qed.
Print Assumptions C90_near_one_refuted.
Example C90_loss_demo : exists s1 s2, nth_error (influences s1) 0 = Some [Pair 0 (1 # 2); Pair 1 (1 # 4)] /\ proper_skin s1 /\
  nth_error (influences s2) 0 = Some [Pair 1 (99995 # 100000)] /\ proper_skin s2 /\ (Qabs ((99995 # 100000) - 1) < tolerance)%Q.
Proof.
  exists (Skin unit_matrix (joints rig) [[Pair 0 (1 # 2); Pair 1 (1 # 4)]]), (Skin unit_matrix (joints rig) [[Pair 1 (99995 # 100000)]]).
  assert (P : forall ps, Forall (fun p => finite (weight p)) ps -> Forall (fun p => -1 <= joint p < 2)%Z ps -> (Z.of_nat (List.length ps) < 10)%Z -> proper_skin (Skin unit_matrix (joints rig) [ps])).
  { intros ps H1 H2 H3. constructor; cbn.
    - split; [exact unit_finite|]. split; [repeat constructor; cbn; auto using unit_finite, shifted_finite|]. repeat constructor. exact H1.
    - repeat constructor. exact H2.
    - rewrite app_nil_r. lia. }
  split; [reflexivity|]. split; [|split; [reflexivity|split; [|vm_compute; reflexivity]]].
  - apply P; [repeat constructor; cbn; apply small_finite; vm_compute; discriminate|repeat constructor; cbn; lia|cbn; lia].
  - apply P; [repeat constructor; cbn; apply small_finite; vm_compute; discriminate|repeat constructor; cbn; lia|cbn; lia].
Qed.
(** C90 (full statement, refuted): joint ids are written separated by blanks.  If the ids are together more words than there are joints,
    reading uses a bind pose that does not exist; if they are fewer - an id is empty - the skin has fewer joints than before. *)
Theorem C90_more_words_refuted : forall a eps id s wss n, machine_eps eps -> plain id -> proper_skin s ->
  Forall2 (fun j ws => words_of (fst j) ws) (joints s) wss -> (Z.of_nat (List.length (List.concat wss)) < 2147483600)%Z ->
  List.length (joints s) < List.length (List.concat wss) -> WriteSkinController eps id s n -> LoadSkinController a n = None.
Proof.
  intros a eps id s wss n He Hid Hs Hw Hl Hlt HW. destruct (written_holds eps id s wss n He Hid Hs Hw Hl HW) as (d & Hd & D1 & D2 & _).
  apply (load_few_poses a n d true Hd). rewrite D1, <- (Forall2_len _ _ _ D2), map_length. exact Hlt.
Qed.
Print Assumptions C90_more_words_refuted.
Theorem C90_fewer_words_refuted : forall a eps id s wss n, machine_eps eps -> plain id -> proper_skin s ->
  Forall2 (fun j ws => words_of (fst j) ws) (joints s) wss -> List.length (List.concat wss) < List.length (joints s) ->
  WriteSkinController eps id s n -> exists s' b, LoadSkinController a n = Some (LoadedSkin true s' b) /\ map fst (joints s') = List.concat wss /\
    List.length (joints s') < List.length (joints s) /\ Forall2 (matrix_remains eps) (firstn (List.length (joints s')) (map snd (joints s))) (map snd (joints s')).
Proof.
  intros a eps id s wss n He Hid Hs Hw Hlt HW. destruct (p_small s Hs) as (B & _).
  destruct (written_holds eps id s wss n He Hid Hs Hw) as (d & Hd & D1 & D2 & _); [lia|exact HW|].
  pose proof (Forall2_len _ _ _ D2) as L. rewrite map_length in L.
  destruct (load_described a n d true) as (s' & b & E & (K1 & K2 & _)); [split; [exact Hd|rewrite D1; lia]|]. exists s', b. split; [exact E|]. split; [congruence|].
  assert (Ls : List.length (joints s') = List.length (d_names d)) by (rewrite <- K1, map_length; reflexivity).
  split; [rewrite Ls, D1; exact Hlt|]. rewrite Ls. apply (matrices_kept eps _ (firstn (List.length (d_names d)) (d_poses d))); auto. now apply Forall2_firstn.
Qed.
Print Assumptions C90_fewer_words_refuted.
Example C90_words_demo : Forall2 (fun j ws => words_of (fst j) ws) [(tx "left hip", unit_matrix); (tx "knee", unit_matrix)] [[tx "left"; tx "hip"]; [tx "knee"]] /\
  Forall2 (fun j ws => words_of (fst j) ws) [([], unit_matrix); (tx "knee", unit_matrix)] [[]; [tx "knee"]].
Proof.
  assert (K : words_of (tx "knee") [tx "knee"]) by (apply word_words, word_check; [reflexivity|discriminate]).
  split; repeat (apply Forall2_cons; [|]); try apply Forall2_nil; auto; cbn [fst].
  - change (words_of (tx "left" ++ 32%Z :: tx "hip") ([tx "left"] ++ [tx "hip"])). apply words_join; apply word_words, word_check; try reflexivity; discriminate.
  - apply W_nil. constructor.
Qed.

(** *** C91 *)
(** C91 (full statement, refuted below): reading a <skin> element gives the joints, poses and influences the element describes.  What holds:
    for an element with two inputs in <joints> and two in <vertex_weights>, the joint and weight numbers in either order,
    whole source arrays and a pose for every joint. *)
Theorem C91_import_partial : forall a n d jfirst, describes n d jfirst -> exists s b, LoadSkinController a n = Some (LoadedSkin true s b) /\ skin_of d s.
Proof. intros a n d jf. apply load_described. Qed.
Print Assumptions C91_import_partial.

(** A <skin> as another tool could write it. *)
Definition foreign (inputs : list xml) (offset v : list Z) : xml :=
  Elem (tx "skin") [(tx "source", tx "#body")]
    [Text (tx " "); Elem (tx "source") [(tx "id", tx "J")] [Elem (tx "IDREF_array") [(tx "count", tx "2")] [Text (tx " hip  knee ")]];
     Elem (tx "source") [(tx "id", tx "B")] [Elem (tx "float_array") [] [Text (unit_text ++ 10%Z :: unit_text)]];
     Elem (tx "source") [(tx "id", tx "W")] [Elem (tx "float_array") [] [Text (tx "0.5 1 0.25 7.5e-1")];
       Elem (tx "technique_common") [] [Elem (tx "accessor") [(tx "source", tx "#W-array"); (tx "count", tx "3"); (tx "offset", offset)] []]];
     Elem (tx "joints") [] [Elem (tx "input") [(tx "semantic", tx "INV_BIND_MATRIX"); (tx "source", tx "#B")] [];
       Text (tx " "); Elem (tx "input") [(tx "semantic", tx "JOINT"); (tx "source", tx "#J")] []];
     Elem (tx "vertex_weights") [(tx "count", tx "2")]
       (inputs ++ [Elem (tx "vcount") [] [Text (tx "2 1")]; Text (tx " "); Elem (tx "v") [] [Text v]])].
Definition foreign_inputs : list xml :=
  [Elem (tx "input") [(tx "semantic", tx "WEIGHT"); (tx "source", tx "#W"); (tx "offset", tx "0")] [];
   Elem (tx "input") [(tx "semantic", tx "JOINT"); (tx "source", tx "#J"); (tx "offset", tx "1")] []].
(** 0.5, 0.25 and 7.5e-1 as their notations give them. *)
Definition half : Q := inject_Z 5 / inject_Z 10 * Qpower 10 0.
Definition quarter : Q := inject_Z 25 / inject_Z 100 * Qpower 10 0.
Definition three_quarters : Q := inject_Z 75 / inject_Z 10 * Qpower 10 (-1).
Definition foreign_data : skin_data :=
  SkinData [tx "hip"; tx "knee"] [unit_matrix; unit_matrix] [half; 1; quarter; three_quarters]%Q unit_matrix [[(0, 2); (1, 3)]; [(1, 1)]]%Z.
Lemma one_more {A} (one : list Z -> A -> Prop) (t rest : list Z) v vs : one t v -> begins_not blank_or_cr rest -> numbers_of one rest vs -> numbers_of one (t ++ 32%Z :: rest) (v :: vs).
Proof.
  intros H1 H2 H3. apply (N_cons one [] t v [32%Z] rest vs); auto. split; [repeat constructor|]. split; [discriminate|exact H2].
Qed.
Lemma one_last {A} (one : list Z -> A -> Prop) t v : one t v -> numbers_of one t [v].
Proof. intro H. rewrite <- (app_nil_r t). apply (N_cons one [] t v [] [] []); auto; [|constructor]. split; [constructor|]. split; [auto|exact I]. Qed.
Definition plain_number (ds : list Z) : Q := inject_Z (number ds) * Qpower 10 0.
Lemma text_digits ds : forallb (fun c => (48 <=? c) && (c <=? 57))%Z ds = true -> ds <> [] -> float_text ds (plain_number ds).
Proof.
  intros H Hn. rewrite <- (app_nil_r ds) at 1. apply F_positive; [|constructor]. apply M_integer; auto. rewrite forallb_forall in H. apply Forall_forall. intros c Hc.
  specialize (H c Hc). apply andb_true_iff in H as (A & B). apply Z.leb_le in A. apply Z.leb_le in B. split; lia.
Qed.
Lemma zero_text : float_text [48%Z] 0. Proof. apply (text_digits [48%Z]); [reflexivity|discriminate]. Qed.
Lemma one_text : float_text [49%Z] 1. Proof. apply (text_digits [49%Z]); [reflexivity|discriminate]. Qed.
Ltac no_blank := cbn; unfold blank_or_cr, blank; intuition lia.
Ltac zeros_ones := repeat first
  [apply (one_more float_text [48%Z] _ 0%Q _ zero_text); [no_blank|] | apply (one_more float_text [49%Z] _ 1%Q _ one_text); [no_blank|] |
   apply (one_last float_text [49%Z] 1%Q one_text) | apply (one_last float_text [48%Z] 0%Q zero_text)].
Lemma unit_numbers : numbers_of float_text unit_text (components unit_matrix).
Proof. unfold unit_text, components, unit_matrix. cbn [tx]. vm_compute. zeros_ones. Qed.
Lemma all_digits ds : forallb (fun c => (48 <=? c) && (c <=? 57))%Z ds = true -> Forall is_digit ds.
Proof.
  intro H. rewrite forallb_forall in H. apply Forall_forall. intros c Hc. specialize (H c Hc). apply andb_true_iff in H as (A & B). apply Z.leb_le in A. apply Z.leb_le in B. split; lia.
Qed.
Lemma foreign_weights : numbers_of float_text (tx "0.5 1 0.25 7.5e-1") [half; 1; quarter; three_quarters]%Q.
Proof.
  change (tx "0.5 1 0.25 7.5e-1") with ([48; 46; 53] ++ 32 :: ([49] ++ 32 :: ([48; 46; 50; 53] ++ 32 :: ([55; 46; 53] ++ [101; 45; 49]))))%Z.
  apply one_more; [|no_blank|apply one_more; [exact one_text|no_blank|apply one_more; [|no_blank|apply one_last]]].
  - apply (F_positive [48; 46; 53] (inject_Z 5 / inject_Z 10) [] 0)%Z; [|constructor]. apply (M_decimal [48] [53])%Z; apply all_digits; reflexivity.
  - apply (F_positive [48; 46; 50; 53] (inject_Z 25 / inject_Z 100) [] 0)%Z; [|constructor]. apply (M_decimal [48] [50; 53])%Z; apply all_digits; reflexivity.
  - apply (F_positive [55; 46; 53] (inject_Z 75 / inject_Z 10) [101; 45; 49] (-1))%Z.
    + apply (M_decimal [55] [53])%Z; apply all_digits; reflexivity.
    + apply (X_negative 101 [49])%Z; [auto|apply all_digits; reflexivity|discriminate|vm_compute; discriminate].
Qed.
Lemma foreign_poses : numbers_of float_text (unit_text ++ 10%Z :: unit_text) (flat_map components [unit_matrix; unit_matrix]).
Proof.
  assert (Nl : forall t rest v vs, float_text t v -> begins_not blank_or_cr rest -> numbers_of float_text rest vs -> numbers_of float_text (t ++ 10%Z :: rest) (v :: vs)).
  { intros t rest v vs H1 H2 H3. apply (N_cons float_text [] t v [10%Z] rest vs); [constructor|exact H1| |exact H3].
    split; [constructor; [right; right; reflexivity|constructor]|]. split; [discriminate|exact H2]. }
  unfold unit_text, components, unit_matrix. vm_compute. zeros_ones. apply (Nl [49%Z] _ 1%Q _ one_text); [no_blank|]. zeros_ones.
Qed.
Lemma dec1 d : (0 <= d < 10)%Z -> decimal d [(48 + d)%Z]. Proof. intro H. now constructor. Qed.
Lemma int1 d : (0 <= d < 10)%Z -> integer [(48 + d)%Z] d. Proof. intro H. left. split; [lia|]. now apply dec1. Qed.
Ltac attr k := eexists _, _, k, _; split; [reflexivity|]; repeat (apply Forall_cons; [discriminate|]); apply Forall_nil.
Ltac elem := do 2 eexists; reflexivity.
Ltac other := first [apply not_elem; discriminate | intros (? & ? & X); discriminate X].
Lemma text_no_id t id : ~ with_id id (Text t). Proof. intros (? & ? & ? & ? & X & _). discriminate X. Qed.
Lemma id_other name v r ch id : v <> id -> ~ with_id id (Elem name ((tx "id", v) :: r) ch).
Proof.
  intros Hn (nm & ch' & pre & post & E & Hp). injection E as _ E _. destruct pre as [|x pre]; cbn in E; [injection E as E _; congruence|].
  injection E as <- E. inversion Hp as [|? ? H _]; subst. apply H. reflexivity.
Qed.
Ltac no_id := first [apply text_no_id | apply id_other; discriminate | apply no_id_other; cbn; intuition discriminate].
Lemma proper_letter c : (65 <= c <= 90)%Z -> proper_id [c].
Proof. intro H. split; [|discriminate]. split; [constructor; [lia|constructor]|]. intros [E|[]]. lia. Qed.
Lemma attr_in nm attrs ch k v : has_attr (Elem nm attrs ch) k v -> In (tx k, v) attrs.
Proof. intros (? & ? & pre & post & E & _). injection E as _ -> _. apply in_app_iff. right. left. reflexivity. Qed.
Example C91_demo : describes (foreign foreign_inputs (tx "0") (tx "2 0 3 1 1 1")) foreign_data false /\
  exists s, LoadSkinController Strict (foreign foreign_inputs (tx "0") (tx "2 0 3 1 1 1")) = Some (LoadedSkin true s false) /\
    map fst (joints s) = [tx "hip"; tx "knee"] /\ map (map (fun p => (joint p, Qred (weight p)))) (influences s) = [[(0%Z, (1 # 4)%Q); (1%Z, (3 # 4)%Q)]; [(1%Z, 1%Q)]].
Proof.
  split; [|eexists; split; [vm_compute; reflexivity|]; split; reflexivity].
  split; [|cbn; lia]. constructor.
  - do 2 eexists. exists (tx "J"), (tx "B"), (tx "W"). do 2 eexists. split; [reflexivity|].
    split; [apply (proper_letter 74); lia|]. split; [apply (proper_letter 66); lia|]. split; [apply (proper_letter 87); lia|].
    split; [|split; [|split; [|split; [|split; [|split; [|split; [|split]]]]]]].
    + intros c v Hc Hv. assert (D : v = tx "J" \/ v = tx "B" \/ v = tx "W").
      { cbn [foreign In] in Hc. repeat (destruct Hc as [<- | Hc]); try contradiction; try (destruct Hv as (? & ? & ? & ? & X & _); discriminate X);
          apply attr_in in Hv; cbn [In] in Hv; repeat (destruct Hv as [Hv|Hv]); try discriminate Hv; try contradiction; injection Hv as <-; auto. }
      destruct D as [-> | [-> | ->]]; [apply (proper_letter 74)|apply (proper_letter 66)|apply (proper_letter 87)]; lia.
    + right. split; [repeat (apply Forall_cons; [other|]); apply Forall_nil|]. intros i j _ _. reflexivity.
    + eexists. split; [apply first_skip; [no_id|]; apply first_here; attr (@nil (list Z * list Z))|].
      do 3 eexists. exists (Elem (tx "IDREF_array") [(tx "count", tx "2")] [Text (tx " hip  knee ")]), (tx " hip  knee "). split; [reflexivity|].
      split; [do 3 eexists; split; [reflexivity|]; right; eexists; reflexivity|]. split.
      * change (words_of ([32%Z] ++ (tx "hip" ++ 32%Z :: ([32%Z] ++ (tx "knee" ++ 32%Z :: [])))) ([tx "hip"] ++ ([tx "knee"] ++ []))).
        apply words_skip; [repeat constructor; apply blank_32|]. apply words_join; [apply word_words, word_check; [reflexivity|discriminate]|].
        apply words_skip; [repeat constructor; apply blank_32|]. apply words_join; [apply word_words, word_check; [reflexivity|discriminate]|]. apply W_nil. constructor.
      * right. split; [apply Forall_cons; [other|apply Forall_nil]|]. apply first_here. elem.
    + eexists. split; [do 2 (apply first_skip; [no_id|]); apply first_here; attr (@nil (list Z * list Z))|].
      do 3 eexists. exists (Elem (tx "float_array") [] [Text (unit_text ++ 10%Z :: unit_text)]), (unit_text ++ 10%Z :: unit_text). split; [reflexivity|].
      split; [do 3 eexists; split; [reflexivity|]; right; eexists; reflexivity|]. split; [apply foreign_poses|]. apply first_here. elem.
    + eexists. split; [do 3 (apply first_skip; [no_id|]); apply first_here; attr (@nil (list Z * list Z))|].
      do 3 eexists. exists (Elem (tx "float_array") [] [Text (tx "0.5 1 0.25 7.5e-1")]), (tx "0.5 1 0.25 7.5e-1"). split; [reflexivity|].
      split; [do 3 eexists; split; [reflexivity|]; right; eexists; reflexivity|]. split; [apply foreign_weights|]. apply first_here. elem.
    + do 4 (apply first_skip; [other|]). apply first_here. elem.
    + do 4 eexists. split; [reflexivity|]. split.
      * apply I_keep; [elem|]. apply I_skip; [other|]. apply I_keep; [elem|]. apply I_nil.
      * split; [apply perm_swap|]. split.
        -- split; [attr (@nil (list Z * list Z))|]. split; [attr [(tx "semantic", tx "JOINT")]|]. intros nm at' ch X. injection X as _ <- _. repeat (apply Forall_cons; [discriminate|]). apply Forall_nil.
        -- split; [attr (@nil (list Z * list Z))|]. split; [attr [(tx "semantic", tx "INV_BIND_MATRIX")]|]. intros nm at' ch X. injection X as _ <- _. repeat (apply Forall_cons; [discriminate|]). apply Forall_nil.
    + do 5 (apply first_skip; [other|]). apply first_here. elem.
    + exists foreign_inputs, (Elem (tx "vcount") [] [Text (tx "2 1")]), [Text (tx " ")], (Elem (tx "v") [] [Text (tx "2 0 3 1 1 1")]), []. do 3 eexists.
      exists (tx "2"), (tx "2 1"), (tx "2 0 3 1 1 1"). split; [reflexivity|].
      split; [repeat (apply Forall_cons; [split; other|]); apply Forall_nil|]. split; [apply I_keep; [elem|]; apply I_keep; [elem|]; apply I_nil|].
      split; [apply perm_swap|]. split.
      { split; [attr (@nil (list Z * list Z))|]. split; [attr [(tx "semantic", tx "JOINT")]|]. exists (tx "1"). split; [attr [(tx "semantic", tx "JOINT"); (tx "source", tx "#J")]|]. apply (int1 1). lia. }
      split.
      { split; [attr (@nil (list Z * list Z))|]. split; [attr [(tx "semantic", tx "WEIGHT")]|]. exists (tx "0"). split; [attr [(tx "semantic", tx "WEIGHT"); (tx "source", tx "#W")]|]. apply (int1 0). lia. }
      split; [elem|]. split; [apply Forall_cons; [eexists; reflexivity|apply Forall_nil]|]. split; [elem|]. split; [attr (@nil (list Z * list Z))|].
      split; [apply (dec1 2); lia|]. split; [do 3 eexists; split; [reflexivity|]; right; eexists; reflexivity|].
      split; [apply (one_more unsigned [50%Z] [49%Z] 2%Z [1%Z]); [apply (dec1 2); lia|no_blank|apply one_last; apply (dec1 1); lia]|].
      split; [do 3 eexists; split; [reflexivity|]; right; eexists; reflexivity|].
      change (numbers_of integer ([50] ++ 32 :: ([48] ++ 32 :: ([51] ++ 32 :: ([49] ++ 32 :: ([49] ++ 32 :: [49])))))%Z [2; 0; 3; 1; 1; 1]%Z).
      repeat (apply one_more; [first [apply (int1 0); lia|apply (int1 1); lia|apply (int1 2); lia|apply (int1 3); lia]|no_blank|]). apply one_last. apply (int1 1). lia.
  - discriminate.
  - cbn. repeat split; try lia; repeat (apply Forall_cons; [cbn; lia|]); apply Forall_nil.
Qed.
(** C91 (full statement, refuted): the offset of an accessor is not used: weights read from the second number on are read from
    the first. *)
Theorem C91_accessor_refuted : exists s, LoadSkinController Strict (foreign foreign_inputs (tx "1") (tx "1 0 2 1 0 1")) = Some (LoadedSkin true s false) /\
  (* meant: 0.25 and 0.75, then 1 *)
  map (map (fun p => Qred (weight p))) (influences s) = [[4 # 5; 1 # 5]; [1]]%Q.
Proof. eexists. split; [vm_compute; reflexivity|]. reflexivity. Qed.
Print Assumptions C91_accessor_refuted.
(** C91 (full statement, refuted): a third input with offset 2: the numbers are still read two by two. *)
Definition third_inputs : list xml :=
  [Elem (tx "input") [(tx "semantic", tx "JOINT"); (tx "source", tx "#J"); (tx "offset", tx "0")] [];
   Elem (tx "input") [(tx "semantic", tx "WEIGHT"); (tx "source", tx "#W"); (tx "offset", tx "1")] [];
   Elem (tx "input") [(tx "semantic", tx "NOTE"); (tx "source", tx "#W"); (tx "offset", tx "2")] []].
Theorem C91_third_input_refuted : exists s, LoadSkinController Strict (foreign third_inputs (tx "0") (tx "0 2 0 1 3 1 1 1 0")) = Some (LoadedSkin true s false) /\
  (* meant: (0, 0.25) and (1, 0.75), then (1, 1) *)
  map (map (fun p => (joint p, Qred (weight p)))) (influences s) = [[(0%Z, (1 # 5)%Q); (0%Z, (4 # 5)%Q)]; [((-1)%Z, 1%Q)]].
Proof. eexists. split; [vm_compute; reflexivity|]. reflexivity. Qed.
Print Assumptions C91_third_input_refuted.
