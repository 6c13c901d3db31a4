(** Reading what was written: the faces, then the inputs. *)
From Coq Require Import String List ZArith Bool Lia Arith.
From Verif Require Import TextModel TextProofs InterleaveProofs StringModel StringProofs XmlModel XmlProofs EnumModel
  PolyModel PolySpec PolyProofs TriModel DaeModel DaeSpec DaeProofs.
Import ListNotations.
Local Open Scope nat_scope.
Local Open Scope list_scope.

Lemma push_lists_spec : forall R all (ins : list (input Z)) (C : nat -> list Z) o0, single ins -> length all = length R ->
  (forall k i, nth_error R k = Some (Some i) -> (exists x, nth_error ins i = Some x /\ offset x = o0 + k) /\ nth_error all k = Some (Some (C (o0 + k)))) ->
  exists ins', push_lists ins R all = Some ins' /\ single ins' /\ frame ins' = frame ins /\
    (forall o L, o < o0 -> sees ins o L -> sees ins' o L) /\
    (forall k i L, nth_error R k = Some (Some i) -> sees ins (o0 + k) L -> sees ins' (o0 + k) (L ++ C (o0 + k))).
Proof.
  induction R as [|r R IH]; intros [|a all] ins C o0 Hs Hl H; try discriminate.
  - exists ins. cbn. repeat split; auto. intros [|k]; discriminate.
  - destruct r as [i|].
    + destruct (H 0 i eq_refl) as ((x & Hx & Hxo) & Ha). rewrite Nat.add_0_r in Hxo, Ha. cbn in Ha. injection Ha as ->. cbn [push_lists].
      destruct (add_indices_spec ins i x (C o0) Hs Hx) as (S1 & S2 & S3).
      fold (add_indices ins i (C o0)) in S1, S2, S3.
      destruct (IH all (add_indices ins i (C o0)) C (S o0) S1 ltac:(cbn in Hl; lia)) as (ins' & E & P1 & P2 & P3 & P4).
      { intros k j Hk. destruct (H (S k) j Hk) as ((y & Hy & Hyo) & Hc). replace (S o0 + k) with (o0 + S k) by lia. split; [|exact Hc].
        destruct (frame_nth _ _ j y (eq_sym S2) Hy) as (y' & ? & ? & _). exists y'. split; congruence. }
      exists ins'. split; [exact E|]. split; [exact P1|]. split; [congruence|]. split.
      * intros o L Ho HL. apply P3; [lia|]. apply S3 in HL. destruct (Nat.eqb_spec o (offset x)); [lia|exact HL].
      * intros [|k] j L Hk HL.
        -- rewrite Nat.add_0_r in *. apply P3; [lia|]. apply S3 in HL. destruct (Nat.eqb_spec o0 (offset x)); [exact HL|lia].
        -- replace (o0 + S k) with (S o0 + k) in * by lia. eapply P4; eauto. apply S3 in HL. destruct (Nat.eqb_spec (S o0 + k) (offset x)); [lia|exact HL].
    + cbn [push_lists]. destruct (IH all ins C (S o0) Hs ltac:(cbn in Hl; lia)) as (ins' & E & P1 & P2 & P3 & P4).
      { intros k j Hk. destruct (H (S k) j Hk) as (Hy & Hc). replace (S o0 + k) with (o0 + S k) by lia. auto. }
      exists ins'. split; [exact E|]. split; [exact P1|]. split; [exact P2|]. split; [intros; apply P3; auto|].
      intros [|k] j L Hk HL; [discriminate|]. replace (o0 + S k) with (S o0 + k) in * by lia. eapply P4; eauto.
Qed.
Lemma column_app o a b : column o (a ++ b) = column o a ++ column o b. Proof. apply map_app. Qed.
Lemma insert_last x l : (forall y, In y l -> y < x) -> insert_hole x l = l ++ [x].
Proof. intro H. rewrite <- (app_nil_r l) at 1. rewrite insert_low; [reflexivity|]. intros y Hy. apply H in Hy. lia. Qed.

Lemma read_holes_cons w a b c r p all : read_holes w (Elem a b c :: r) p all =
  match ToInterleavedUInt32List (ReadNodeContentDirect (Elem a b c)) all with
  | None => None
  | Some all1 =>
      match push_lists (pinputs p) w all1, master all1 with
      | Some ins, Some ms =>
          let p1 := add_hole (with_inputs p ins) (length (pcounts p)) in
          read_holes w r (with_counts p1 (pcounts p1 ++ [length ms])) all1
      | _, _ => None
      end
  end.
Proof. reflexivity. Qed.
Section Read.
Variable ins : list (input Z).
Variable w R : list (option nat).
Variable fr : list (nat * nat).
Variable T : nat.
Hypothesis HL : length R = length w.
Hypothesis HR : forall o i, nth_error R o = Some (Some i) -> exists s, nth_error fr i = Some (o, s).
Hypothesis H0 : exists i, nth_error R 0 = Some (Some i).
Hypothesis Hfit : forall fv, fv < T -> fits (row ins w fv).

Notation rows := (rows_of ins w).
Record st (off : nat) (p : pset Z) (all : list (option (list Z))) : Prop := {
  st_frame : frame (pinputs p) = fr;
  st_single : single (pinputs p);
  st_sees : forall o i, nth_error R o = Some (Some i) -> sees (pinputs p) o (column o (rows (seq 0 off)));
  st_len : length all = length R;
  st_none : forall o, nth_error R o = Some None -> nth_error all o = Some None;
  st_some : exists n, forall o i, nth_error R o = Some (Some i) -> exists l, nth_error all o = Some (Some l) /\ length l = n
}.
Lemma rows_fit off c : off + c <= T -> fits (concat (rows (seq off c))).
Proof.
  intro H. apply Forall_forall. intros v Hv. apply in_concat in Hv. destruct Hv as (r & Hr & Hv). apply in_map_iff in Hr.
  destruct Hr as (fv & <- & Hf). apply in_seq in Hf. pose proof (Hfit fv ltac:(lia)) as Hx. unfold fits in Hx. rewrite Forall_forall in Hx. apply Hx. exact Hv.
Qed.
Lemma rows_length fvs : Forall (fun r => length r = length R) (rows fvs).
Proof. apply Forall_forall. intros r Hr. apply in_map_iff in Hr. destruct Hr as (fv & <- & _). unfold row. rewrite map_length. auto. Qed.
(** One list of corners. *)
Lemma read_chunk off c p all : st off p all -> off + c <= T ->
  exists all1 ins1 ms, ToInterleavedUInt32List (trim (txt ins w (seq off c))) all = Some all1 /\
    push_lists (pinputs p) R all1 = Some ins1 /\ master all1 = Some ms /\ length ms = c /\
    (forall cs hs, st (off + c) (PSet (ptype p) cs hs ins1) all1).
Proof.
  intros S HT. destruct S as [S1 S2 S3 S4 S5 (n & S6)].
  assert (Hin : forall o l, nth_error all o = Some (Some l) -> exists i, nth_error R o = Some (Some i)).
  { intros o l Ho. assert (Lo : o < length R) by (rewrite <- S4; apply nth_error_Some; congruence).
    destruct (nth_error R o) as [[i|]|] eqn:E; [eauto|rewrite (S5 _ E) in Ho; discriminate|apply nth_error_None in E; lia]. }
  destruct (interleave_rows (trim (txt ins w (seq off c))) (rows (seq off c)) all n) as (all1 & E & Q1 & Q2 & Q3).
  { apply trim_parses. apply rows_fit. exact HT. }
  { rewrite S4. apply rows_length. }
  { destruct H0 as (i & Hi). destruct (S6 _ _ Hi) as (l & Hl & _). eauto. }
  { intros l Hl. apply In_nth_error in Hl. destruct Hl as (o & Ho). destruct (Hin _ _ Ho) as (i & Hi). destruct (S6 _ _ Hi) as (l' & Hl' & Hn). congruence. }
  assert (Hall1 : forall o i, nth_error R o = Some (Some i) -> nth_error all1 o = Some (Some (column o (rows (seq off c))))).
  { intros o i Ho. destruct (S6 _ _ Ho) as (l & Hl & _). apply (Q3 _ _ Hl). }
  destruct (push_lists_spec R all1 (pinputs p) (fun o => column o (rows (seq off c))) 0 S2 ltac:(congruence)) as (ins1 & E1 & P1 & P2 & _ & P4).
  { intros k i Hk. split; [|apply (Hall1 _ _ Hk)]. destruct (HR _ _ Hk) as (s & Hs). rewrite <- S1 in Hs. unfold frame in Hs.
    destruct (nth_error (pinputs p) i) as [x|] eqn:Ex.
    - rewrite (map_nth_error _ _ _ Ex) in Hs. exists x. split; [reflexivity|]. cbn. congruence.
    - apply nth_error_None in Ex. assert (nth_error (map (fun x => (offset x, source x)) (pinputs p)) i = None) by (apply nth_error_None; rewrite map_length; lia). congruence. }
  exists all1, ins1, (column 0 (rows (seq off c))). split; [exact E|]. split; [exact E1|]. split; [|split].
  - destruct H0 as (i & Hi). pose proof (Hall1 _ _ Hi) as Hm. destruct all1 as [|a r]; [discriminate|]. cbn in Hm. injection Hm as ->. reflexivity.
  - unfold column, rows_of. rewrite !map_length, seq_length. reflexivity.
  - intros cs hs. constructor; cbn [pinputs].
    + congruence.
    + exact P1.
    + intros o i Ho. rewrite seq_app. unfold rows_of. rewrite map_app. fold (rows_of ins w). rewrite column_app. apply (P4 o i); auto. cbn [plus]. eapply S3; eauto.
    + congruence.
    + intros o Ho. apply Q2, S5, Ho.
    + exists c. intros o i Ho. eexists. split; [apply (Hall1 _ _ Ho)|]. unfold column, rows_of. rewrite !map_length, seq_length. reflexivity.
Qed.
(** The holes behind a face. *)
Definition p_elem (name : string) (fvs : list nat) : xml := Elem (tx name) [] (content (trim (txt ins w fvs))).
Lemma read_holes_spec : forall cs off p all, st off p all -> off + sum cs <= T -> (forall h, In h (pholes p) -> h < length (pcounts p)) ->
  exists p1 all1, read_holes R (map (p_elem "h") (chunks off cs)) p all = Some (p1, all1) /\ st (off + sum cs) p1 all1 /\
    ptype p1 = ptype p /\ pcounts p1 = pcounts p ++ cs /\ pholes p1 = pholes p ++ seq (length (pcounts p)) (length cs).
Proof.
  induction cs as [|c cs IH]; intros off p all HS HT Hh.
  - exists p, all. cbn. rewrite Nat.add_0_r, !app_nil_r. auto.
  - cbn [sum fold_right] in HT. fold (sum cs) in HT.
    destruct (read_chunk off c p all HS ltac:(lia)) as (all1 & ins1 & ms & E1 & E2 & E3 & E4 & E5).
    cbn [chunks map]. unfold p_elem at 1. rewrite read_holes_cons, content_direct, E1, E2, E3. cbv zeta.
    set (p2 := with_counts _ _).
    assert (Ep2 : p2 = PSet (ptype p) (pcounts p ++ [c]) (pholes p ++ [length (pcounts p)]) ins1).
    { unfold p2, with_counts, add_hole, with_inputs, AddHole, is_hole. cbn [holes counts pcounts pholes ptype pinputs].
      assert (Ex : existsb (Nat.eqb (length (pcounts p))) (pholes p) = false).
      { destruct (existsb _ _) eqn:Ex; auto. apply existsb_exists in Ex. destruct Ex as (h & Hin & He). apply Nat.eqb_eq in He. apply Hh in Hin. lia. }
      rewrite Ex. cbn [holes]. rewrite insert_last by exact Hh. rewrite E4. reflexivity. }
    destruct (IH (off + c) p2 all1) as (p3 & all3 & F1 & F2 & F3 & F4 & F5).
    { rewrite Ep2. apply E5. }
    { lia. }
    { rewrite Ep2. cbn [pholes pcounts]. intros h Hin. rewrite app_length. cbn. apply in_app_iff in Hin. destruct Hin as [Hin|[<-|[]]]; [apply Hh in Hin|]; lia. }
    exists p3, all3. split; [exact F1|]. split; [cbn [sum fold_right]; fold (sum cs); rewrite Nat.add_assoc; exact F2|].
    split; [rewrite F3, Ep2; reflexivity|]. split; [rewrite F4, Ep2; cbn [pcounts]; rewrite <- app_assoc; reflexivity|].
    rewrite F5, Ep2. cbn [pholes pcounts length seq]. rewrite <- app_assoc. cbn [app]. rewrite app_length. cbn [length]. rewrite Nat.add_1_r. reflexivity.
Qed.
(** One face with its holes. *)
Lemma read_face_spec f off p all : st off p all -> off + sum (corners f) <= T -> (forall h, In h (pholes p) -> h < length (pcounts p)) ->
  exists n p1 all1, face_element (map (txt ins w) (chunks off (corners f))) = [n] /\ (named n "p" || named n "ph") = true /\
    read_face IsPolygons R n p all = Some (p1, all1) /\ st (off + sum (corners f)) p1 all1 /\
    ptype p1 = ptype p /\ pcounts p1 = pcounts p ++ corners f /\ pholes p1 = pholes p ++ seq (length (pcounts p) + 1) (length (snd f)).
Proof.
  intros HS HT Hh. destruct f as [c cs]. unfold corners in *. cbn [fst snd sum fold_right] in *. fold (sum cs) in *.
  destruct (read_chunk off c p all HS ltac:(lia)) as (all1 & ins1 & ms & E1 & E2 & E3 & E4 & E5).
  set (p2 := PSet (ptype p) (pcounts p ++ [c]) (pholes p) ins1).
  destruct (read_holes_spec cs (off + c) p2 all1) as (p3 & all3 & F1 & F2 & F3 & F4 & F5).
  { apply E5. }
  { lia. }
  { cbn. intros h Hin. rewrite app_length. cbn. apply Hh in Hin. lia. }
  assert (Hmain : forall n hs, (if named n "ph" then scan_ph [] (children_of n) else (ReadNodeContentDirect n, [])) = (trim (txt ins w (seq off c)), hs) ->
     read_holes R hs p2 all1 = Some (p3, all3) -> read_face IsPolygons R n p all = Some (p3, all3)).
  { intros n hs En Eh. unfold read_face. rewrite En, E1, E2, E3, E4. exact Eh. }
  assert (Hrest : st (off + (c + sum cs)) p3 all3 /\ ptype p3 = ptype p /\ pcounts p3 = pcounts p ++ c :: cs /\ pholes p3 = pholes p ++ seq (length (pcounts p) + 1) (length cs)).
  { rewrite Nat.add_assoc. split; [exact F2|]. split; [exact F3|]. split; [rewrite F4; unfold p2; cbn [pcounts]; rewrite <- app_assoc; reflexivity|].
    rewrite F5. unfold p2. cbn [pholes pcounts]. rewrite app_length. reflexivity. }
  destruct cs as [|c1 cs].
  - eexists _, p3, all3. split; [reflexivity|]. split; [reflexivity|]. split; [|exact Hrest].
    eapply Hmain; [|exact F1]. cbn [named]. change (text_eq (tx "p") (tx "ph")) with false. cbv iota. rewrite content_direct. reflexivity.
  - eexists _, p3, all3. split; [reflexivity|]. split; [reflexivity|]. split; [|exact Hrest].
    eapply Hmain; [|].
    + cbn [named]. change (text_eq (tx "ph") (tx "ph")) with true. cbv iota. cbn [children_of]. cbn [scan_ph].
      cbn [named]. change (text_eq (tx "p") (tx "p")) with true. cbv iota. rewrite content_direct. cbn [chunks map scan_ph].
      cbn [named]. change (text_eq (tx "h") (tx "p")) with false. change (text_eq (tx "h") (tx "h")) with true. cbv iota. reflexivity.
    + rewrite <- F1. f_equal. transitivity (map (fun h => Elem (tx "h") [] (content (trim h))) (map (txt ins w) (chunks (off + c) (c1 :: cs)))); [reflexivity|rewrite map_map; reflexivity].
Qed.
Lemma read_faces_spec : forall F off p all, st off p all -> off + size F <= T -> (forall h, In h (pholes p) -> h < length (pcounts p)) ->
  exists p1 all1, read_faces IsPolygons R (flat_map face_element (map (map (txt ins w)) (face_chunks off F))) p all = Some p1 /\
    st (off + size F) p1 all1 /\ ptype p1 = ptype p /\ pcounts p1 = pcounts p ++ entries F /\ pholes p1 = pholes p ++ hole_positions (length (pcounts p)) F.
Proof.
  induction F as [|f F IH]; intros off p all HS HT Hh.
  - exists p, all. cbn. unfold size. cbn. rewrite Nat.add_0_r, !app_nil_r. auto.
  - assert (Hsz : size (f :: F) = sum (corners f) + size F) by (unfold size; rewrite entries_cons, sum_app; reflexivity).
    destruct (read_face_spec f off p all HS ltac:(lia) Hh) as (n & p1 & all1 & E1 & E2 & E3 & E4 & E5 & E6 & E7).
    cbn [face_chunks map flat_map]. rewrite E1. cbn [app read_faces]. rewrite E2, E3.
    destruct (IH (off + sum (corners f)) p1 all1 E4 ltac:(lia)) as (p2 & all2 & G1 & G2 & G3 & G4 & G5).
    { rewrite E6, E7. intros h Hin. rewrite app_length. unfold corners. cbn [length]. apply in_app_iff in Hin. destruct Hin as [Hin|Hin]; [apply Hh in Hin; lia|apply in_seq in Hin; lia]. }
    exists p2, all2. split; [exact G1|]. split; [rewrite Hsz, Nat.add_assoc; exact G2|]. split; [congruence|].
    split; [rewrite G4, E6, <- app_assoc, entries_cons; reflexivity|]. rewrite G5, E7, E6, <- app_assoc. cbn [hole_positions]. do 2 f_equal.
    rewrite app_length. unfold corners. cbn [length]. f_equal. lia.
Qed.
End Read.
