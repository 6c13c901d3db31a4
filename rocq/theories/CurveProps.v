(** Animation curves: C27 (keys stay sorted), C28 (evaluation), C29 (clips), C30 (merging), C67 (multi-dimensional
    evaluation). *)
From Coq Require Import List QArith Qabs Lqa Lia Arith Sorted.
From Verif Require Import CurveModel CurveSpec CurveProofs CurveMoreProofs.
Import ListNotations.
Local Open Scope Q_scope.

Definition plain (id : nat) (i o : Q) (m : interpolation) : key := Key id i o m (i, o) (i, o) 0 0 0.

(** *** C27 *)
Theorem C27_add_key : forall ks k ks' i, ordered ks -> AddKey ks k = (ks', i) ->
  ordered ks' /\ nth_error ks' i = Some k /\
  exists pre post, ks = pre ++ post /\ ks' = pre ++ k :: post /\
    Forall (fun x => input x <= input k) pre /\ Forall (fun x => input k < input x) post.
Proof.
  intros ks k ks' i S H. destruct (AddKey_insert ks k ks' i S H) as (A & pre & post & E1 & E2 & E3 & F1 & F2).
  split; auto. split; [|exists pre, post; auto]. subst. rewrite nth_error_app2 by lia. now rewrite Nat.sub_diag.
Qed.
Theorem C27_delete_key : forall ks id ks' b, DeleteKey ks id = (ks', b) ->
  (b = true /\ exists pre k post, ks = pre ++ k :: post /\ ks' = pre ++ post /\ kid k = id /\ Forall (fun x => kid x <> id) pre) \/
  (b = false /\ ks' = ks /\ Forall (fun x => kid x <> id) ks).
Proof. intros; now apply DeleteKey_shape. Qed.
(** Any history of insertions and removals. *)
Inductive key_op := Add (k : key) | Delete (id : nat).
Definition key_step (ks : list key) (o : key_op) : list key :=
  match o with Add k => fst (AddKey ks k) | Delete id => fst (DeleteKey ks id) end.
Theorem C27_always_sorted : forall ops, ordered (fold_left key_step ops []).
Proof.
  intro ops. assert (G : forall ks, ordered ks -> ordered (fold_left key_step ops ks)).
  { induction ops as [|o ops IH]; intros ks S; cbn [fold_left]; auto. apply IH. destruct o as [k|id]; cbn [key_step].
    - destruct (AddKey ks k) as [ks' i] eqn:E. apply AddKey_insert in E; tauto.
    - destruct (DeleteKey ks id) as [ks' b] eqn:E. apply DeleteKey_shape in E.
      destruct E as [(_ & pre & k & post & -> & -> & _)|(_ & -> & _)]; auto. eapply sorted_remove; eauto. }
  apply G. constructor.
Qed.
Example C27_demo :
  let k id t := plain id t 0 LINEAR in
  let ks := fold_left key_step [Add (k 1%nat 2); Add (k 2%nat 1); Add (k 3%nat 2); Add (k 4%nat 0); Delete 2] [] in
  map kid ks = [4; 1; 3]%nat /\ snd (AddKey ks (k 5%nat 2)) = 3%nat.
Proof. split; reflexivity. Qed.

(** *** C28 *)
(** Inside the range every time gets the value of its segment; outside, the infinity mode decides.  Missing from the
    full claim: LINEAR before the first key ([C28_linear_before_refuted]), keys with equal times
    ([C28_safe_refuted]) and the value at a key's own time except after a straight segment
    ([C28_hits_keys_refuted]); segments with TCB keys only have a value. *)
Theorem C28_evaluate_partial : forall c a l z x, keys c = a :: l ++ [z] -> increasing (keys c) ->
  (input a <= x < input z -> exists v, Evaluate c x = Value v /\ value_at (keys c) x v) /\
  (x < input a -> preInfinity c <> LINEAR_INFINITY ->
     exists v, Evaluate c x = Value v /\ before_first (keys c) (preInfinity c) a (hd z l) z x v) /\
  (input z <= x -> exists v, Evaluate c x = Value v /\ after_last (keys c) (postInfinity c) a (last (a :: l) a) z x v).
Proof.
  intros c a l z x E S. split; [|split].
  - intro Hx. eapply inside_ok; eauto.
  - intros Hx Hm. assert (L : last (keys c) a = z) by (rewrite E; change (a :: l ++ [z]) with ((a :: l) ++ [z]); apply last_last).
    assert (Hk : exists r, keys c = a :: hd z l :: r) by (rewrite E; destruct l; cbn; eauto).
    destruct Hk as [r Hk]. destruct (before_ok c a (hd z l) r x Hk S Hx Hm) as (v & Hv & B). rewrite L in B. eauto.
  - intros Hx. destruct (exists_last (l := a :: l) ltac:(discriminate)) as (l' & w & El).
    assert (Hk : keys c = l' ++ [w; z]).
    { rewrite E. change (a :: l ++ [z]) with ((a :: l) ++ [z]). rewrite El, <- app_assoc. reflexivity. }
    rewrite El, last_last. assert (Hh : hd w l' = a) by (destruct l'; cbn in El |- *; congruence).
    rewrite <- Hh. eapply after_ok; eauto.
Qed.
(** Memory safety: with keys in order and a range that is not a single time, nothing behind the keys is read. *)
Theorem C28_safe_partial : forall c x a l z, keys c = a :: l ++ [z] -> ordered (keys c) -> input a < input z ->
  Evaluate c x <> OutOfBounds.
Proof.
  intros c x a l z E S H. assert (L : last (keys c) a = z) by (rewrite E; change (a :: l ++ [z]) with ((a :: l) ++ [z]); apply last_last).
  assert (Hk : exists k1 r, keys c = a :: k1 :: r) by (rewrite E; destruct l; cbn; eauto).
  destruct Hk as (k1 & r & Hk). eapply Evaluate_safe; eauto. now rewrite L.
Qed.
(** Two keys at the same time with CYCLE: the key behind the last is read. *)
Theorem C28_safe_refuted : exists c x, ordered (keys c) /\ keys c <> [] /\ Evaluate c x = OutOfBounds.
Proof.
  exists (Curve [plain 1 0 5 LINEAR; plain 2 0 6 LINEAR] CYCLE CYCLE), 1. split; [|split; [discriminate | vm_compute; reflexivity]].
  repeat constructor; cbn; discriminate.
Qed.
(** The key's own value is returned at a key's time when the segment before it is straight. *)
Theorem C28_hits_keys_partial : forall c a l z k, keys c = a :: l ++ [z] -> increasing (keys c) ->
  In k (a :: l) ->
  (forall p s r, keys c = p ++ s :: k :: r -> interp s = LINEAR \/ (interp k = LINEAR /\ (interp s = BEZIER \/ interp s = TCB))) ->
  exists v, Evaluate c (input k) = Value v /\ v == output k.
Proof.
  intros c a l z k E S Hk Lin.
  assert (S' := S). rewrite E in S'. change (a :: l ++ [z]) with ((a :: l) ++ [z]) in S'.
  apply sorted_app in S'. destruct S' as [S1 [_ S3]].
  assert (Hz : input k < input z) by (apply S3; [auto | left; auto]).
  assert (Ha : input a <= input k).
  { destruct Hk as [<-|Hk]; [lra|]. inversion S1 as [|? ? ? F]; subst. rewrite Forall_forall in F. specialize (F k Hk). cbn in F. lra. }
  destruct (inside_ok c a l z (input k) E S) as (v & Hv & At); [lra|].
  exists v. split; auto. apply (value_at_key (keys c) (input k) v k S At); [|reflexivity | exact Lin].
  rewrite E. change (a :: l ++ [z]) with ((a :: l) ++ [z]). apply in_or_app; auto.
Qed.
(** After a STEP key the previous output is still returned at the key's own time. *)
Theorem C28_hits_keys_refuted : exists c k v, increasing (keys c) /\ In k (keys c) /\
  Evaluate c (input k) = Value v /\ ~ v == output k.
Proof.
  exists (Curve [plain 1 0 5 STEP; plain 2 1 7 STEP; plain 3 2 9 STEP] CONSTANT CONSTANT), (plain 2 1 7 STEP), (0 + 5).
  split; [repeat constructor|]. split; [cbn; auto|]. split; [vm_compute; reflexivity | vm_compute; discriminate].
Qed.
(** Linear keys: the value lies between the outputs of the surrounding keys. *)
Theorem C28_linear_between : forall c a l z x, keys c = a :: l ++ [z] -> increasing (keys c) ->
  Forall (fun k => interp k = LINEAR) (keys c) -> input a <= x < input z ->
  exists v p s e r, Evaluate c x = Value v /\ keys c = p ++ s :: e :: r /\ input s <= x <= input e /\
    ((output s <= v <= output e) \/ (output e <= v <= output s)).
Proof.
  intros c a l z x E S Lin Hx. destruct (inside_ok c a l z x E S Hx) as (v & Hv & At). exists v.
  destruct At as [(k0 & r & E2 & Ex & Ev)|(p & s & e & r & E2 & Hse & On)].
  - assert (Hk : exists k1 r, keys c = a :: k1 :: r) by (rewrite E; destruct l; cbn; eauto).
    destruct Hk as (k1 & r' & Hk). exists [], a, k1, r'. split; auto. split; auto.
    assert (k0 = a) by congruence. subst k0. rewrite Hk in S. inversion S as [|? ? ? F]; subst. inversion F; subst.
    split; [lra|]. destruct (Qlt_le_dec (output a) (output k1)); [left | right]; lra.
  - exists p, s, e, r. split; auto. split; auto. split; [lra|].
    assert (Is : interp s = LINEAR).
    { rewrite Forall_forall in Lin. apply Lin. rewrite E2. apply in_or_app. right. left. auto. }
    unfold on_segment in On. rewrite Is in On. eapply on_line_between; eauto; lra.
Qed.
(** LINEAR before the first key runs in the wrong direction: unless the first segment is flat, no value before the
    first key lies on the line through the first two keys. *)
Theorem C28_linear_before_refuted : forall c a b r x, keys c = a :: b :: r -> increasing (keys c) ->
  preInfinity c = LINEAR_INFINITY -> x < input a -> ~ output a == output b ->
  exists v, Evaluate c x = Value v /\ ~ on_line a b x v /\ on_line a b (input a + (input a - x)) v.
Proof.
  intros c a b r x E S M Hx Ho. unfold Evaluate. rewrite E in *. rewrite M.
  destruct (flt x (input a)) eqn:F; [|apply flt_false in F; lra].
  assert (Hab : input a < input b) by (inversion S as [|? ? ? G]; subst; inversion G; subst; auto).
  rewrite fdiv_some by lra. eexists. split; [reflexivity|].
  set (w := (input a - x) * (output b - output a) / (input b - input a)).
  assert (W : w * (input b - input a) == (input a - x) * (output b - output a)) by (unfold w; field; lra).
  split.
  - unfold on_line. intro H.
    assert (Z : (input a - x) * (output b - output a) == 0) by lra.
    apply Qmult_integral in Z. destruct Z; lra.
  - unfold on_line. setoid_replace (output a + w - output a) with w by ring. rewrite W. ring.
Qed.
Definition demo_curve : curve :=
  Curve [plain 1 0 0 LINEAR; plain 2 1 10 STEP; plain 3 2 4 BEZIER; plain 4 3 6 BEZIER; plain 5 4 6 LINEAR] CYCLE OSCILLATE.
Example C28_demo : increasing (keys demo_curve) /\
  (exists v, Evaluate demo_curve (1 # 2) = Value v /\ v == 5) /\
  (exists v, Evaluate demo_curve (3 # 2) = Value v /\ v == 10) /\
  (exists v, Evaluate demo_curve (- (7 # 2)) = Value v /\ v == 5) /\
  (exists v, Evaluate demo_curve (15 # 2) = Value v /\ v == 5) /\
  Evaluate demo_curve (5 # 2) <> OutOfBounds.
Proof.
  split; [repeat constructor|].
  repeat split; try (eexists; split; [vm_compute; reflexivity | vm_compute; reflexivity]).
  vm_compute. discriminate.
Qed.

(** *** C29 *)
Inductive clip_op := Register (clip : nat) (start : Q) | Select (clip : option nat) | SetOffset (offset : Q) (clip : nat).
Definition clip_step (s : option clipped) (o : clip_op) : option clipped :=
  match s with
  | None => None
  | Some c => match o with
              | Register clip start => Some (RegisterAnimationClip c clip start)
              | Select clip => SetCurrentAnimationClip c clip
              | SetOffset off clip => SetClipOffset c off clip
              end
  end.
(** What the user sees: each registered clip has an offset, one clip may be selected, and the keys are moved by the
    offset of the known clip that was selected last. *)
Record ideal := Ideal { offset_of : nat -> option Q; selected : option nat; moved_by : Q }.
Definition ideal_step (s : ideal) (o : clip_op) : ideal :=
  match o with
  | Register clip start =>
      Ideal (fun x => match offset_of s x with Some q => Some q | None => if (x =? clip)%nat then Some (- start) else None end)
            (selected s) (moved_by s)
  | Select None => Ideal (offset_of s) None (moved_by s)
  | Select (Some clip) =>
      match offset_of s clip with
      | Some q => Ideal (offset_of s) (Some clip) q
      | None => Ideal (offset_of s) None (moved_by s)
      end
  | SetOffset off clip =>
      Ideal (fun x => if (x =? clip)%nat then option_map (fun _ => off) (offset_of s x) else offset_of s x) (selected s) (moved_by s)
  end.
Definition ideal_start : ideal := Ideal (fun _ => None) None 0.
(** No SetClipOffset for the clip that is selected at that moment. *)
Fixpoint offsets_set_early (s : ideal) (ops : list clip_op) : Prop :=
  match ops with
  | [] => True
  | o :: r => match o with SetOffset _ clip => selected s <> Some clip | _ => True end /\ offsets_set_early (ideal_step s o) r
  end.
Definition clip_inv (ins : list Q) (c : clipped) (s : ideal) : Prop :=
  length (clips c) = length (clipOffsets c) /\
  (forall x, offset_of s x = match clip_index (clips c) x with Some i => nth_error (clipOffsets c) i | None => None end) /\
  currentClip c = selected s /\ currentOffset c = moved_by s /\
  (forall x, selected s = Some x -> offset_of s x = Some (moved_by s)) /\
  Forall2 (fun orig now => now == orig + moved_by s) ins (inputs c).
Lemma clip_step_inv ins c s o : clip_inv ins c s ->
  match o with SetOffset _ clip => selected s <> Some clip | _ => True end ->
  exists c', clip_step (Some c) o = Some c' /\ clip_inv ins c' (ideal_step s o).
Proof.
  intros (I1 & I2 & I3 & I4 & I5 & I6) Ok. destruct o as [clip start|[clip|]|off clip]; cbn [clip_step].
  - eexists. split; [reflexivity|]. unfold clip_inv, RegisterAnimationClip, ideal_step. cbn.
    split; [rewrite !app_length; cbn; lia|]. split; [|split; [|split; [|split]]]; auto.
    + intro x. rewrite I2, clip_index_app. destruct (clip_index (clips c) x) as [i|] eqn:E.
      * pose proof (clip_index_lt _ _ _ E) as N. assert (i < length (clips c))%nat by (apply nth_error_Some; congruence).
        rewrite nth_error_app1 by lia. destruct (nth_error (clipOffsets c) i) eqn:E2; auto.
        apply nth_error_None in E2. lia.
      * rewrite (Nat.eqb_sym clip x). destruct (x =? clip)%nat; auto.
        rewrite I1, nth_error_app2, Nat.sub_diag by lia. reflexivity.
    + intros x Hx. now rewrite (I5 x Hx).
  - unfold SetCurrentAnimationClip. cbn [ideal_step]. rewrite I3.
    destruct (same_clip (selected s) (Some clip)) eqn:E.
    + destruct (selected s) as [x|] eqn:Es; cbn in E; [|discriminate]. apply Nat.eqb_eq in E. subst x.
      rewrite (I5 clip eq_refl). eexists. split; [reflexivity|]. unfold clip_inv. cbn. rewrite I3.
      split; [auto|]. split; [auto|]. split; [auto|]. split; [auto|]. split; [|auto].
      intros x Hx. inversion Hx; subst. apply I5. auto.
    + rewrite I2. destruct (clip_index (clips c) clip) as [i|] eqn:Ei.
      * pose proof (clip_index_lt _ _ _ Ei) as N. assert (i < length (clips c))%nat by (apply nth_error_Some; congruence).
        destruct (nth_error (clipOffsets c) i) as [q|] eqn:E2; [|apply nth_error_None in E2; lia].
        eexists. split; [reflexivity|]. unfold clip_inv. cbn.
        split; [auto|]. split; [auto|]. split; [auto|]. split; [auto|]. split.
        -- intros x Hx. inversion Hx; subst. rewrite I2, Ei. auto.
        -- rewrite I4. clear - I6. induction I6; cbn; constructor; auto. rewrite H. ring.
      * eexists. split; [reflexivity|]. unfold clip_inv. cbn.
        split; [auto|]. split; [auto|]. split; [auto|]. split; [auto|]. split; [discriminate | auto].
  - unfold SetCurrentAnimationClip. cbn [ideal_step]. destruct (same_clip (currentClip c) None) eqn:E.
    + destruct (currentClip c) eqn:Ec; [discriminate|]. eexists. split; [reflexivity|]. unfold clip_inv. cbn.
      rewrite Ec. split; [auto|]. split; [auto|]. split; [auto|]. split; [auto|]. split; [discriminate | auto].
    + eexists. split; [reflexivity|]. unfold clip_inv. cbn.
      split; [auto|]. split; [auto|]. split; [auto|]. split; [auto|]. split; [discriminate | auto].
  - unfold SetClipOffset. cbn [ideal_step]. destruct (clip_index (clips c) clip) as [i|] eqn:Ei.
    + pose proof (clip_index_lt _ _ _ Ei) as N. assert (L : (i < length (clips c))%nat) by (apply nth_error_Some; congruence).
      destruct (Nat.ltb_spec i (length (clipOffsets c))); [|lia].
      eexists. split; [reflexivity|]. unfold clip_inv. cbn. rewrite set_nth_length.
      split; [auto|]. split; [|split; [auto|]; split; [auto|]; split; [|auto]].
      * intro x. destruct (Nat.eqb_spec x clip) as [->|Nx].
        -- rewrite I2, Ei, set_nth_same by auto. destruct (nth_error (clipOffsets c) i) eqn:E2; auto. apply nth_error_None in E2. lia.
        -- rewrite I2. destruct (clip_index (clips c) x) as [j|] eqn:Ej; auto.
           rewrite set_nth_other; auto. eapply clip_index_first; eauto.
      * intros x Hx. destruct (Nat.eqb_spec x clip) as [->|]; [congruence|auto].
    + eexists. split; [reflexivity|]. unfold clip_inv. cbn.
      split; [auto|]. split; [|split; [auto|]; split; [auto|]; split; [|auto]].
      * intro x. destruct (Nat.eqb_spec x clip) as [->|]; auto. rewrite I2, Ei. reflexivity.
      * intros x Hx. destruct (Nat.eqb_spec x clip) as [->|]; [congruence|auto].
Qed.
(** Missing from the full claim: clips attached with AddClip and a new offset for the selected clip
    ([C29_clips_refuted]).  Selecting NULL or an unknown clip leaves the keys where they are. *)
Theorem C29_clips_partial : forall ins ops, offsets_set_early ideal_start ops ->
  exists c, fold_left clip_step ops (Some (new_clipped ins)) = Some c /\
    Forall2 (fun orig now => now == orig + moved_by (fold_left ideal_step ops ideal_start)) ins (inputs c).
Proof.
  intros ins ops H.
  assert (G : forall c s, clip_inv ins c s -> offsets_set_early s ops ->
    exists c', fold_left clip_step ops (Some c) = Some c' /\ clip_inv ins c' (fold_left ideal_step ops s)).
  { clear H. induction ops as [|o ops IH]; intros c s I H; cbn [fold_left]; eauto.
    destruct H as [H1 H2]. destruct (clip_step_inv ins c s o I H1) as (c' & E & I'). rewrite E. apply IH; auto. }
  destruct (G (new_clipped ins) ideal_start) as (c & E & _ & _ & _ & _ & _ & F); auto.
  - split; [auto|]. cbn. split; [auto|]. split; [auto|]. split; [auto|]. split; [discriminate|].
    clear. induction ins; constructor; auto. ring.
  - exists c. auto.
Qed.
Theorem C29_clips_refuted :
  (exists c clip, SetCurrentAnimationClip (AddClip c clip) (Some clip) = None) /\
  (exists ins ops c, fold_left clip_step ops (Some (new_clipped ins)) = Some c /\ currentClip c = Some 1%nat /\
     offset_of (fold_left ideal_step ops ideal_start) 1%nat = Some 5 /\
     ~ Forall2 (fun orig now => now == orig + 5) ins (inputs c)).
Proof.
  split.
  - exists (new_clipped [0; 1]), 7%nat. reflexivity.
  - exists [0; 1], [Register 1 2; Select (Some 1%nat); SetOffset 5 1; Select (Some 1%nat)].
    eexists. split; [reflexivity|]. split; [reflexivity|]. split; [reflexivity|].
    intro F. cbn in F. inversion F; subst. vm_compute in H2. discriminate.
Qed.
Example C29_demo :
  let ops := [Register 1 2; Register 2 (-3); Select (Some 1%nat); Select (Some 2%nat); SetOffset 7 1; Select None; Select (Some 9%nat); Select (Some 1%nat)] in
  offsets_set_early ideal_start ops /\ moved_by (fold_left ideal_step ops ideal_start) = 7.
Proof. cbn. repeat split; discriminate. Qed.

(** *** C30 *)
(** Every key of every curve keeps its value at a merged time within the tolerance, every merged time is the time of a
    key, and every other merged value is a sample of the curve (or the default for a missing or empty curve). *)
Theorem C30_merge_complete : forall curves c d, In (Some c) curves ->
  let times := map fst (merge_all curves) in
  let values := merged_values times (Some c) d in
  length values = length times /\
  (forall k, In k (keys c) -> exists j t, nth_error times j = Some t /\ Qabs (t - input k) < 1 # 10000 /\
     nth_error values j = Some (Value (output k))) /\
  (forall j t o, nth_error times j = Some t -> nth_error values j = Some o ->
     o = (match keys c with [] => Value d | _ => Evaluate c t end) \/
     exists k, In k (keys c) /\ Qabs (t - input k) < 1 # 10000 /\ o = Value (output k)) /\
  (forall t, In t times -> exists c' k, In (Some c') curves /\ In k (keys c') /\ input k = t).
Proof.
  intros curves c d Hc times values.
  assert (Emb : embeds (keys c) times) by (apply embeds_all; auto).
  assert (From : forall t, In t times -> exists c' k, In (Some c') curves /\ In k (keys c') /\ input k = t).
  { intros t Ht. unfold times, merge_all in Ht. apply merge_all_from in Ht. destruct Ht as [[]|Ht]; auto. }
  unfold values, merged_values. destruct (keys c) as [|k0 ks] eqn:Ek.
  - split; [apply map_length|]. split; [intros k []|]. split; auto.
    intros j t o A B. left. rewrite nth_error_map in B. destruct (nth_error times j); inversion B. auto.
  - destruct (sample_each c times (k0 :: ks)) as [L I]; [rewrite Ek; auto|].
    split; auto. split; [|split; auto].
    + intros k Hk. apply sample_match; auto.
    + intros j t o A B. destruct (I j t o A B) as [Hl|Hr]; auto. right. rewrite <- Ek. exact Hr.
Qed.
Theorem C30_merge_interpolation : forall curves i,
  (forall c, In (Some c) curves -> Forall (fun k => interp k = i) (keys c)) ->
  Forall (fun p => snd p = i) (merge_all curves).
Proof. intros. apply merge_all_interp; auto. Qed.
(** The merged times are strictly increasing when the keys of each single curve are at least the tolerance apart. *)
Theorem C30_merge_sorted_partial : forall curves,
  (forall c, In (Some c) curves -> StronglySorted (fun a b => (1 # 10000) <= input b - input a) (keys c)) ->
  StronglySorted Qlt (map fst (merge_all curves)).
Proof. intros curves H. apply merge_all_increasing; [constructor | exact H]. Qed.
(** Without that, the merged keys of strictly increasing curves may be out of order. *)
Theorem C30_merge_sorted_refuted : exists curves, (forall c, In (Some c) curves -> increasing (keys c)) /\
  ~ StronglySorted Qle (map fst (merge_all curves)).
Proof.
  exists [Some (Curve [plain 1 1 0 LINEAR; plain 2 2 0 LINEAR] CONSTANT CONSTANT);
          Some (Curve [plain 3 (99992 # 100000) 0 LINEAR; plain 4 (99996 # 100000) 0 LINEAR] CONSTANT CONSTANT)].
  split.
  - intros c [H|[H|[]]]; inversion H; subst; repeat constructor.
  - intro S. vm_compute in S. inversion S as [|? ? _ F]; subst. inversion F as [|? ? G _]; subst. vm_compute in G. congruence.
Qed.
Example C30_demo :
  let a := Curve [plain 1 0 5 LINEAR; plain 2 2 7 LINEAR] CONSTANT CONSTANT in
  let b := Curve [plain 3 1 1 LINEAR; plain 4 2 3 STEP; plain 5 3 4 LINEAR] CONSTANT CONSTANT in
  merge_all [Some a; None; Some b] = [(0, LINEAR); (1, LINEAR); (2, BEZIER); (3, LINEAR)] /\
  nth_error (merged_values (map fst (merge_all [Some a; None; Some b])) (Some b) 0) 2 = Some (Value 3) /\
  apart (keys a) /\ apart (keys b).
Proof. repeat split; try (vm_compute; reflexivity); repeat constructor; vm_compute; discriminate. Qed.

(** *** C67 *)
(** Memory safety for any keys in any order. *)
Theorem C67_multi_safe : forall ks x, EvaluateMulti ks x <> OutOfBounds.
Proof. exact multi_safe. Qed.
(** For keys that are all LINEAR the multi-dimensional curve has at every time the value that the same keys have in a
    one-dimensional curve with constant ends.  Missing from the full claim: BEZIER and TCB keys and the other
    infinity modes ([C67_multi_agrees_refuted]). *)
Theorem C67_multi_agrees_partial : forall ks a l z x, ks = a :: l ++ [z] -> increasing ks ->
  Forall (fun k => interp k = LINEAR) ks ->
  exists v w, EvaluateMulti ks x = Value v /\ Evaluate (Curve ks CONSTANT CONSTANT) x = Value w /\ v == w.
Proof.
  intros ks a l z x E S Lin.
  assert (L : last ks a = z) by (rewrite E; change (a :: l ++ [z]) with ((a :: l) ++ [z]); apply last_last).
  destruct (C28_evaluate_partial (Curve ks CONSTANT CONSTANT) a l z x E S) as (In1 & In2 & In3). cbn [keys preInfinity postInfinity] in *.
  destruct (multi_shape ks x a S) as [[Hx Ev]|[[Hx Ev]|(p & s & e & r & Ek & Hx & Ev)]].
  - rewrite E. reflexivity.
  - rewrite E. cbn. rewrite app_length. cbn. lia.
  - destruct (In2 Hx) as (w & Hw & B); [discriminate|]. cbn in B. exists (output a), w. split; auto. split; auto. now rewrite B.
  - rewrite L in *. destruct (In3 Hx) as (w & Hw & B). cbn in B. exists (output z), w. split; auto. split; auto. now rewrite B.
  - assert (Is : interp s = LINEAR). { rewrite Forall_forall in Lin. apply Lin. rewrite Ek. apply in_or_app. right. left. auto. }
    assert (Hse : input s < input e) by lra.
    destruct (straight_ok s e x Hse) as (v & Hv & On). unfold interpolate_m in Ev. rewrite Is, Hv in Ev.
    destruct (nth_split_pair p s e r) as [N1 N2]. rewrite <- Ek in N1, N2.
    assert (Hr : input a <= x < input z).
    { split.
      - assert (input a <= input s); [|lra]. assert (N0 : nth_error ks 0 = Some a) by (rewrite E; reflexivity).
        destruct (length p) eqn:Lp; [rewrite N0 in N1; inversion N1; lra|].
        pose proof (sorted_nth _ _ S 0%nat (Datatypes.S n) a s ltac:(lia) N0 N1) as G. cbn in G. lra.
      - assert (input e <= input z); [|lra]. pose proof (last_nth ks a ltac:(rewrite E; discriminate)) as Nl. rewrite L in Nl.
        assert (Le : (Datatypes.S (length p) < length ks)%nat) by (apply nth_error_Some; congruence).
        destruct (Nat.eq_dec (Datatypes.S (length p)) (length ks - 1)) as [Q|Q]; [rewrite <- Q in Nl; rewrite N2 in Nl; inversion Nl; lra|].
        pose proof (sorted_nth _ _ S (Datatypes.S (length p)) (length ks - 1)%nat e z ltac:(lia) N2 Nl) as G. cbn in G. lra. }
    destruct (In1 Hr) as (w & Hw & At). exists v, w. split; auto. split; auto.
    destruct (Qlt_le_dec (input s) x) as [Lt|Ge].
    + destruct At as [(k0 & rest & E0 & Ex & Ew)|(p' & s' & e' & r' & Ek' & Hx' & On')].
      * assert (k0 = a) by congruence. subst k0. exfalso.
        assert (N0 : nth_error ks 0 = Some a) by (rewrite E; reflexivity).
        destruct (length p) eqn:Lp; [rewrite N0 in N1; inversion N1; subst; lra|].
        pose proof (sorted_nth _ _ S 0%nat (Datatypes.S n) a s ltac:(lia) N0 N1) as G. cbn in G. lra.
      * destruct (nth_split_pair p' s' e' r') as [M1 M2]. rewrite <- Ek' in M1, M2.
        assert (length p < Datatypes.S (length p'))%nat by (eapply increasing_nth; eauto; lra).
        assert (length p' < Datatypes.S (length p))%nat by (eapply increasing_nth; eauto; lra).
        assert (length p = length p') by lia. rewrite H1 in *.
        assert (s' = s) by congruence. assert (e' = e) by congruence. subst s' e'.
        unfold on_segment in On'. rewrite Is in On'. unfold on_line in On, On'.
        assert (Z : (v - w) * (input e - input s) == 0) by lra.
        apply Qmult_integral in Z. destruct Z; lra.
    + assert (Ex : x == input s) by lra.
      assert (Vs : v == output s).
      { unfold on_line in On. rewrite Ex in On. assert (Z : (v - output s) * (input e - input s) == 0) by lra.
        apply Qmult_integral in Z. destruct Z; lra. }
      rewrite Vs. symmetry. eapply value_at_key; eauto.
      * eapply nth_error_In; eauto.
      * intros p0 s0 r0 E0. left. rewrite Forall_forall in Lin. apply Lin. rewrite E0. apply in_or_app. right. left. auto.
Qed.
(** BEZIER keys whose tangents are not a third of the way, and TCB keys, get a different value. *)
Theorem C67_multi_agrees_refuted :
  (exists ks x v w, increasing ks /\ Forall (fun k => interp k = BEZIER) ks /\
     EvaluateMulti ks x = Value v /\ Evaluate (Curve ks CONSTANT CONSTANT) x = Value w /\ 1 <= Qabs (w - v)) /\
  (exists ks x v w, increasing ks /\ Forall (fun k => interp k = TCB) ks /\
     EvaluateMulti ks x = Value v /\ Evaluate (Curve ks CONSTANT CONSTANT) x = Value w /\ 1 <= Qabs (w - v)).
Proof.
  split.
  - exists [Key 1 0 8 BEZIER (0, 8) (1 # 2, 8) 0 0 0; Key 2 1 8 BEZIER (1 # 2, 8) (1, 8) 0 0 0], (1 # 2).
    do 2 eexists. split; [repeat constructor|]. split; [repeat constructor|].
    split; [vm_compute; reflexivity|]. split; [vm_compute; reflexivity|]. vm_compute. discriminate.
  - exists [Key 1 0 0 TCB (0, 0) (0, 0) 0 0 0; Key 2 1 8 TCB (0, 0) (0, 0) 0 0 0], (1 # 2).
    do 2 eexists. split; [repeat constructor|]. split; [repeat constructor|].
    split; [vm_compute; reflexivity|]. split; [vm_compute; reflexivity|]. vm_compute. discriminate.
Qed.
Example C67_demo : let ks := [plain 1 0 0 LINEAR; plain 2 1 10 LINEAR; plain 3 2 4 LINEAR; plain 4 3 6 LINEAR; plain 5 4 6 LINEAR] in
  increasing ks /\ (exists v, EvaluateMulti ks (3 # 2) = Value v /\ v == 7) /\ (exists v, EvaluateMulti ks 1 = Value v /\ v == 10).
Proof.
  split; [repeat constructor|]. split; eexists; (split; [vm_compute; reflexivity | vm_compute; reflexivity]).
Qed.

Print Assumptions C27_add_key.
Print Assumptions C27_delete_key.
Print Assumptions C27_always_sorted.
Print Assumptions C28_evaluate_partial.
Print Assumptions C28_safe_partial.
Print Assumptions C28_safe_refuted.
Print Assumptions C28_hits_keys_partial.
Print Assumptions C28_hits_keys_refuted.
Print Assumptions C28_linear_between.
Print Assumptions C28_linear_before_refuted.
Print Assumptions C29_clips_partial.
Print Assumptions C29_clips_refuted.
Print Assumptions C30_merge_complete.
Print Assumptions C30_merge_interpolation.
Print Assumptions C30_merge_sorted_partial.
Print Assumptions C30_merge_sorted_refuted.
Print Assumptions C67_multi_safe.
Print Assumptions C67_multi_agrees_partial.
Print Assumptions C67_multi_agrees_refuted.
