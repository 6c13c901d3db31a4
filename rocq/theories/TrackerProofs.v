(** Proofs about tracked pointers and lists. *)
From Coq Require Import List Arith Lia Bool.
From Verif Require Import OwnerModel OwnerSpec OwnerProofs TrackerModel TrackerSpec.
Import ListNotations.

Definition tsame (m : mem) (s : view) : Prop :=
  (forall x, obj_alive m x = live s x) /\ (forall p, ptrs m p = ref_to s p) /\ (forall l, lists m l = members s l) /\
  next_obj m = fresh s.
Definition holds (m : mem) (t : tracker) (o : nat) : Prop :=
  match t with Ptr p => ptrs m p = Some (Some o) | Lst l => exists xs, lists m l = Some xs /\ In o xs end.
Definition tinv (m : mem) : Prop :=
  (forall o, obj_alive m o = true -> o < next_obj m) /\
  (forall t o, holds m t o -> obj_alive m o = true) /\
  (forall t o, obj_alive m o = true -> (holds m t o <-> In t (trackers m o))) /\
  (forall o, obj_alive m o = true -> NoDup (trackers m o)) /\
  (forall l xs, lists m l = Some xs -> NoDup xs).

Lemma tracker_eqb_spec a b : reflect (a = b) (tracker_eqb a b).
Proof. destruct a as [x|x], b as [y|y]; cbn; try (constructor; congruence); destruct (Nat.eqb_spec x y); constructor; congruence. Qed.
Lemma tracker_eq_dec (a b : tracker) : {a = b} + {a <> b}.
Proof. destruct (tracker_eqb_spec a b); auto. Qed.
Lemma remove_tracker_In l t x : NoDup l -> (In x (remove_tracker l t) <-> In x l /\ x <> t).
Proof.
  induction 1 as [|a l H N IH]; cbn; [tauto|]. destruct (tracker_eqb_spec a t); cbn.
  - subst. split; [intro H1; split; auto; congruence | intros [[|] ?]; [congruence | auto]].
  - rewrite IH. intuition congruence.
Qed.
Lemma remove_tracker_NoDup l t : NoDup l -> NoDup (remove_tracker l t).
Proof.
  induction 1 as [|a l H N IH]; cbn; [constructor|]. destruct (tracker_eqb_spec a t); auto. constructor; auto.
  rewrite remove_tracker_In; tauto.
Qed.
Lemma NoDup_snoc (l : list tracker) t : NoDup l -> ~ In t l -> NoDup (l ++ [t]).
Proof.
  intros N H. induction N as [|a l Ha N IH]; cbn; [repeat constructor; auto|]. constructor.
  - rewrite in_app_iff. cbn in *. intuition congruence.
  - apply IH. cbn in H. tauto.
Qed.

(** Changes of the tracker lists only. *)
Definition same_but (m m' : mem) : Prop :=
  obj_alive m' = obj_alive m /\ ptrs m' = ptrs m /\ lists m' = lists m /\ next_obj m' = next_obj m.
Definition tracked_nodup (m : mem) := forall o, obj_alive m o = true -> NoDup (trackers m o).
Lemma track_ok m t o : tracked_nodup m -> obj_alive m o = true -> exists m', TrackObject m t o = Some m' /\ same_but m m' /\
  tracked_nodup m' /\ forall t' o', In t' (trackers m' o') <-> In t' (trackers m o') \/ (t' = t /\ o' = o).
Proof.
  intros N A. unfold TrackObject. rewrite A. destruct (existsb (tracker_eqb t) (trackers m o)) eqn:E.
  - exists m. split; auto. split; [repeat split|]. split; auto. intros t' o'. split; [auto|]. intros [|[-> ->]]; auto.
    apply existsb_exists in E as (x & Hx & E). destruct (tracker_eqb_spec t x); [now subst | discriminate].
  - assert (Ni : ~ In t (trackers m o)).
    { intro H. assert (T : existsb (tracker_eqb t) (trackers m o) = true); [|congruence].
      apply existsb_exists. exists t. split; auto. destruct (tracker_eqb_spec t t); congruence. }
    eexists. split; [reflexivity|]. split; [repeat split|]. cbn. unfold upd. split.
    + intros x Ax. cbn in *. unfold upd. destruct (Nat.eqb_spec x o); [subst; apply NoDup_snoc; auto | auto].
    + intros t' o'. destruct (Nat.eqb_spec o' o); [subst; rewrite in_app_iff; cbn; intuition congruence | intuition congruence].
Qed.
Lemma untrack_ok m t o : tracked_nodup m -> obj_alive m o = true -> exists m', UntrackObject m t o = Some m' /\ same_but m m' /\
  tracked_nodup m' /\ forall t' o', In t' (trackers m' o') <-> In t' (trackers m o') /\ ~ (t' = t /\ o' = o).
Proof.
  intros N A. unfold UntrackObject. rewrite A. eexists. split; [reflexivity|]. split; [repeat split|]. cbn. unfold upd. split.
  - intros x Ax. cbn in *. unfold upd. destruct (Nat.eqb_spec x o); [subst; apply remove_tracker_NoDup; auto | auto].
  - intros t' o'. destruct (Nat.eqb_spec o' o); [subst; rewrite remove_tracker_In by auto; intuition congruence | intuition congruence].
Qed.
Lemma track_all_ok t os : forall m, tracked_nodup m -> (forall o, In o os -> obj_alive m o = true) ->
  exists m', track_all m t os = Some m' /\ same_but m m' /\ tracked_nodup m' /\
    forall t' o', In t' (trackers m' o') <-> In t' (trackers m o') \/ (t' = t /\ In o' os).
Proof.
  induction os as [|o os IH]; intros m N A.
  - exists m. repeat split; auto. intros [|[_ []]]; auto.
  - destruct (track_ok m t o N (A o (or_introl eq_refl))) as (m1 & E & (B1 & B2 & B3 & B4) & N1 & T).
    destruct (IH m1 N1) as (m2 & E2 & (C1 & C2 & C3 & C4) & N2 & T2).
    { intros x Hx. rewrite B1. apply A. now right. }
    exists m2. cbn. rewrite E. split; auto. split; [repeat split; congruence|]. split; auto.
    intros t' o'. rewrite T2, T. cbn. intuition congruence.
Qed.
Lemma untrack_all_ok t os : forall m, tracked_nodup m -> (forall o, In o os -> obj_alive m o = true) ->
  exists m', untrack_all m t os = Some m' /\ same_but m m' /\ tracked_nodup m' /\
    forall t' o', In t' (trackers m' o') <-> In t' (trackers m o') /\ ~ (t' = t /\ In o' os).
Proof.
  induction os as [|o os IH]; intros m N A.
  - exists m. split; auto. repeat split; auto; cbn; tauto.
  - destruct (untrack_ok m t o N (A o (or_introl eq_refl))) as (m1 & E & (B1 & B2 & B3 & B4) & N1 & T).
    destruct (IH m1 N1) as (m2 & E2 & (C1 & C2 & C3 & C4) & N2 & T2).
    { intros x Hx. rewrite B1. apply A. now right. }
    exists m2. cbn. rewrite E. split; auto. split; [repeat split; congruence|]. split; auto.
    intros t' o'. rewrite T2, T. cbn. intuition congruence.
Qed.

(** One tracker changes its contents. *)
Lemma change_one m m' t : tinv m -> obj_alive m' = obj_alive m -> next_obj m' = next_obj m ->
  (forall t' o, t' <> t -> (holds m' t' o <-> holds m t' o)) ->
  (forall o, holds m' t o -> obj_alive m o = true) ->
  tracked_nodup m' ->
  (forall t' o, obj_alive m o = true -> t' <> t -> (In t' (trackers m' o) <-> In t' (trackers m o))) ->
  (forall o, obj_alive m o = true -> (In t (trackers m' o) <-> holds m' t o)) ->
  (forall l xs, lists m' l = Some xs -> NoDup xs) -> tinv m'.
Proof.
  intros (I1 & I2 & I3 & I4 & I5) A N Ho Ht Nd To Tt Nl. split; [|split; [|split; [|split]]]; auto.
  - intros o. rewrite A, N. auto.
  - intros t' o H. rewrite A. destruct (tracker_eq_dec t' t) as [->|D]; auto. apply Ho in H; auto. eapply I2; eauto.
  - intros t' o Ao. rewrite A in Ao. destruct (tracker_eq_dec t' t) as [->|D].
    + symmetry. auto.
    + rewrite Ho, To by auto. auto.
Qed.
Lemma holds_ptr m p o : holds m (Ptr p) o <-> ptrs m p = Some (Some o).
Proof. reflexivity. Qed.
Lemma change_ptr m s p v m1 : tinv m -> tsame m s ->
  (forall o, v = Some (Some o) -> obj_alive m o = true) ->
  same_but (set_ptr m p v) m1 -> tracked_nodup m1 ->
  (forall t' o, obj_alive m o = true -> (In t' (trackers m1 o) <-> (t' <> Ptr p /\ In t' (trackers m o)) \/ (t' = Ptr p /\ v = Some (Some o)))) ->
  tinv m1 /\ tsame m1 (put_ref s p v).
Proof.
  intros I (S1 & S2 & S3 & S4) Hv (B1 & B2 & B3 & B4) N T. cbn in *. split.
  - apply (change_one m m1 (Ptr p)); auto.
    + intros [q|l] o D; cbn; rewrite ?B2, ?B3; unfold upd; [|tauto]. destruct (Nat.eqb_spec q p); [congruence | tauto].
    + intros o. cbn. rewrite B2. unfold upd. rewrite Nat.eqb_refl. auto.
    + intros t' o Ao D. rewrite T by auto. intuition congruence.
    + intros o Ao. rewrite T by auto. cbn. rewrite B2. unfold upd. rewrite Nat.eqb_refl. intuition congruence.
    + intros l xs. rewrite B3. apply I.
  - split; [|split; [|split]]; cbn.
    + intro x. rewrite B1. auto.
    + intro q. rewrite B2. unfold upd. destruct (q =? p); auto.
    + intro l. rewrite B3. auto.
    + congruence.
Qed.
Lemma change_list m s l v m1 : tinv m -> tsame m s ->
  (forall xs, v = Some xs -> NoDup xs /\ forall o, In o xs -> obj_alive m o = true) ->
  same_but (set_list m l v) m1 -> tracked_nodup m1 ->
  (forall t' o, obj_alive m o = true ->
     (In t' (trackers m1 o) <-> (t' <> Lst l /\ In t' (trackers m o)) \/ (t' = Lst l /\ exists xs, v = Some xs /\ In o xs))) ->
  tinv m1 /\ tsame m1 (put_members s l v).
Proof.
  intros I (S1 & S2 & S3 & S4) Hv (B1 & B2 & B3 & B4) N T. cbn in *. split.
  - apply (change_one m m1 (Lst l)); auto.
    + intros [q|k] o D; cbn; rewrite ?B2, ?B3; unfold upd; [tauto|]. destruct (Nat.eqb_spec k l); [congruence | tauto].
    + intros o. cbn. rewrite B3. unfold upd. rewrite Nat.eqb_refl. intros (xs & E & H). now apply (Hv xs).
    + intros t' o Ao D. rewrite T by auto. intuition congruence.
    + intros o Ao. rewrite T by auto. cbn. rewrite B3. unfold upd. rewrite Nat.eqb_refl. intuition congruence.
    + intros k xs. rewrite B3. unfold upd. destruct (Nat.eqb_spec k l); [intro E; now apply Hv | apply I].
  - split; [|split; [|split]]; cbn.
    + intro x. rewrite B1. auto.
    + intro q. rewrite B2. auto.
    + intro k. rewrite B3. unfold upd. destruct (k =? l); auto.
    + congruence.
Qed.
Lemma inv_nodup m : tinv m -> tracked_nodup m.
Proof. intros I o. apply I. Qed.

Lemma ptr_new_ok m s p v : tinv m -> tsame m s -> ref_to s p = None -> live_or_null s v ->
  exists m', ptr_new m p v = Some m' /\ tinv m' /\ tsame m' (put_ref s p (Some v)).
Proof.
  intros I Sm R L. pose proof I as (I1 & I2 & I3 & I4 & I5). pose proof Sm as (S1 & S2 & S3 & S4). rewrite <- S2 in R. unfold ptr_new.
  assert (NoP : forall o, obj_alive m o = true -> ~ In (Ptr p) (trackers m o)).
  { intros o Ao H. apply I3 in H; auto. cbn in H. congruence. }
  destruct v as [o|].
  - cbn in L. rewrite <- S1 in L.
    destruct (track_ok (set_ptr m p (Some (Some o))) (Ptr p) o) as (m1 & E & B & N & T); [exact (inv_nodup m I) | exact L |].
    exists m1. split; auto. apply (change_ptr m s p _ m1); auto.
    + intros o' [= <-]. auto.
    + intros t' o' Ao. rewrite T. cbn. pose proof (NoP o' Ao). destruct (tracker_eq_dec t' (Ptr p)) as [->|]; intuition congruence.
  - eexists. split; [reflexivity|]. apply (change_ptr m s p); auto; try discriminate.
    + repeat split.
    + intros t' o' Ao. cbn. pose proof (NoP o' Ao). destruct (tracker_eq_dec t' (Ptr p)) as [->|]; intuition congruence.
Qed.
Lemma unset_ptr m p old : tinv m -> ptrs m p = Some old ->
  exists m1, match old with None => Some m | Some o => UntrackObject m (Ptr p) o end = Some m1 /\ same_but m m1 /\ tracked_nodup m1 /\
    forall t' o, obj_alive m o = true -> (In t' (trackers m1 o) <-> t' <> Ptr p /\ In t' (trackers m o)).
Proof.
  intros I R. pose proof I as (I1 & I2 & I3 & I4 & I5). destruct old as [o|].
  - destruct (untrack_ok m (Ptr p) o) as (m1 & E & B & N & T); [exact (inv_nodup m I) | apply (I2 (Ptr p)); auto |].
    exists m1. split; auto. split; auto. split; auto. intros t' o' Ao. rewrite T. split; [intros [H1 H2]; split; auto; intros ->|intuition].
    apply H2. split; auto. apply I3 in H1; auto. cbn in H1. congruence.
  - exists m. split; auto. split; [repeat split|]. split; [exact (inv_nodup m I)|]. intros t' o' Ao. split; [|tauto]. intro H. split; auto. intros ->.
    apply I3 in H; auto. cbn in H. congruence.
Qed.
Lemma ptr_assign_ok m s p v : tinv m -> tsame m s -> ref_to s p <> None -> live_or_null s v ->
  exists m', ptr_assign m p v = Some m' /\ tinv m' /\ tsame m' (put_ref s p (Some v)).
Proof.
  intros I Sm R L. pose proof Sm as (S1 & S2 & S3 & S4). rewrite <- S2 in R. unfold ptr_assign.
  destruct (ptrs m p) as [old|] eqn:P; [|congruence].
  destruct (unset_ptr m p old I P) as (m1 & E & (B1 & B2 & B3 & B4) & N & T). rewrite E. destruct v as [o|].
  - cbn in L. rewrite <- S1 in L.
    destruct (track_ok (set_ptr m1 p (Some (Some o))) (Ptr p) o) as (m2 & E2 & (C1 & C2 & C3 & C4) & N2 & T2); [exact N | cbn; now rewrite B1 |].
    exists m2. split; auto. apply (change_ptr m s p _ m2); auto.
    + intros o' [= <-]. auto.
    + cbn in *. repeat split; cbn; try congruence.
    + intros t' o' Ao. rewrite T2. cbn. rewrite T by auto. intuition congruence.
  - eexists. split; [reflexivity|]. apply (change_ptr m s p); auto; try discriminate.
    + repeat split; cbn; congruence.
    + intros t' o' Ao. cbn. rewrite T by auto. intuition congruence.
Qed.
Lemma ptr_delete_ok m s p : tinv m -> tsame m s -> ref_to s p <> None ->
  exists m', ptr_delete m p = Some m' /\ tinv m' /\ tsame m' (put_ref s p None).
Proof.
  intros I Sm R. pose proof Sm as (S1 & S2 & S3 & S4). rewrite <- S2 in R. unfold ptr_delete.
  destruct (ptrs m p) as [old|] eqn:P; [|congruence].
  destruct (unset_ptr m p old I P) as (m1 & E & (B1 & B2 & B3 & B4) & N & T).
  assert (E' : match old with Some o => match UntrackObject m (Ptr p) o with None => None | Some m1 => Some (set_ptr m1 p None) end
               | None => Some (set_ptr m p None) end = Some (set_ptr m1 p None)).
  { destruct old; [now rewrite E | congruence]. }
  rewrite E'. eexists. split; [reflexivity|]. apply (change_ptr m s p); auto; try discriminate.
  - repeat split; cbn; congruence.
  - intros t' o' Ao. cbn. rewrite T by auto. intuition congruence.
Qed.

Lemma list_insert_range_ok m s l xs i os : tinv m -> tsame m s -> lists m l = Some xs -> i <= length xs -> NoDup os ->
  (forall o, In o os -> obj_alive m o = true /\ ~ In o xs) ->
  exists m', list_insert_range m l i os = Some m' /\ tinv m' /\ tsame m' (put_members s l (Some (firstn i xs ++ os ++ skipn i xs))).
Proof.
  intros I Sm L Hi N F. pose proof I as (I1 & I2 & I3 & I4 & I5). unfold list_insert_range. rewrite L.
  destruct (Nat.leb_spec i (length xs)); [|lia].
  destruct (track_all_ok (Lst l) os m) as (m1 & E & (B1 & B2 & B3 & B4) & N1 & T); [exact (inv_nodup m I) | intros; now apply F |].
  rewrite E. eexists. split; [reflexivity|].
  assert (Im : forall x, In x (firstn i xs ++ os ++ skipn i xs) <-> In x os \/ In x xs).
  { intro x. rewrite !in_app_iff. rewrite <- (firstn_skipn i xs) at 3. rewrite in_app_iff. intuition. }
  apply (change_list m s l); auto.
  - intros ys [= <-]. split.
    + assert (Nx : NoDup (firstn i xs ++ skipn i xs)) by (rewrite firstn_skipn; eauto).
      assert (D : forall x, In x (firstn i xs ++ skipn i xs) -> ~ In x os).
      { intros x Hx Ho. rewrite firstn_skipn in Hx. now apply (F x Ho). }
      revert Nx D. generalize (firstn i xs) (skipn i xs). clear - N. intros a b Nx D.
      induction a as [|y a IH]; cbn in *.
      * induction os as [|o os IHo]; cbn in *; auto. inversion N; subst. constructor; [|apply IHo; auto].
        -- rewrite in_app_iff. intros [|Hb]; [auto|]. apply (D o Hb). auto.
        -- intros x Hx Ho. apply (D x Hx). auto.
      * inversion Nx as [|? ? N1 N2]; subst. constructor; [|apply IH; auto].
        rewrite !in_app_iff in *. specialize (D y (or_introl eq_refl)). tauto.
    + intros o Ho. apply Im in Ho as [Ho|Ho]; [now apply F|]. apply (I2 (Lst l)). exists xs. auto.
  - repeat split; cbn; congruence.
  - intros t' o Ao. cbn. rewrite T. destruct (tracker_eq_dec t' (Lst l)) as [->|D].
    + rewrite <- (I3 (Lst l) o Ao). cbn. split.
      * intros H1. right. split; auto. eexists. split; [reflexivity|]. apply Im.
        destruct H1 as [(ys & Ey & Hy)|[_ Ho]]; [right; congruence | now left].
      * intros [[? _]|[_ (ys & [= <-] & Hy)]]; [congruence|]. apply Im in Hy as [Hy|Hy]; [auto|]. left. eauto.
    + intuition congruence.
Qed.
Lemma list_insert_ok m s l xs i o : tinv m -> tsame m s -> lists m l = Some xs -> i <= length xs ->
  obj_alive m o = true -> ~ In o xs ->
  exists m', list_insert m l i o = Some m' /\ tinv m' /\ tsame m' (put_members s l (Some (firstn i xs ++ o :: skipn i xs))).
Proof.
  intros I Sm L Hi A F.
  destruct (list_insert_range_ok m s l xs i [o]) as (m' & E & H); auto.
  { constructor; [intros [] | constructor]. }
  { intros x [<-|[]]; auto. }
  exists m'. split; auto. unfold list_insert. unfold list_insert_range in E. rewrite L in *. cbn [track_all] in E.
  destruct (i <=? length xs); [|discriminate]. destruct (TrackObject m (Lst l) o); [|discriminate]. exact E.
Qed.
Lemma untrack_part m s l xs ys v : tinv m -> tsame m s -> lists m l = Some xs -> (forall o, In o ys -> In o xs) ->
  (forall zs, v = Some zs -> NoDup zs /\ forall o, In o zs <-> In o xs /\ ~ In o ys) -> (v = None -> forall o, In o xs -> In o ys) ->
  exists m1, untrack_all m (Lst l) ys = Some m1 /\ tinv (set_list m1 l v) /\ tsame (set_list m1 l v) (put_members s l v).
Proof.
  intros I Sm L Sub V V0. pose proof I as (I1 & I2 & I3 & I4 & I5).
  destruct (untrack_all_ok (Lst l) ys m) as (m1 & E & (B1 & B2 & B3 & B4) & N1 & T); [exact (inv_nodup m I) | |].
  { intros o Ho. apply (I2 (Lst l)). exists xs. auto. }
  exists m1. split; auto. apply (change_list m s l); auto.
  - intros zs Hz. destruct (V zs Hz) as [Nz Iz]. split; auto. intros o Ho. apply (I2 (Lst l)). exists xs. split; auto. now apply Iz.
  - repeat split; cbn; congruence.
  - intros t' o Ao. cbn. rewrite T. destruct (tracker_eq_dec t' (Lst l)) as [->|D].
    + rewrite <- (I3 (Lst l) o Ao). cbn. split.
      * intros [(ws & Ew & Hw) Hn]. rewrite L in Ew. injection Ew as <-. right. split; auto. destruct v as [zs|].
        -- exists zs. split; auto. apply (V zs eq_refl). tauto.
        -- exfalso. apply Hn. split; auto.
      * intros [[? _]|[_ (zs & Ez & Hz)]]; [congruence|]. apply (V zs Ez) in Hz. split; [exists xs; tauto | tauto].
    + intuition congruence.
Qed.
Lemma range_split (xs : list nat) i n : i + n <= length xs -> xs = firstn i xs ++ firstn n (skipn i xs) ++ skipn (i + n) xs.
Proof.
  intro L. rewrite <- (firstn_skipn i xs) at 1. f_equal. rewrite <- (firstn_skipn n (skipn i xs)) at 1. f_equal.
  clear. revert xs. induction i; intros l; cbn; auto. destruct l; cbn; [now rewrite skipn_nil | apply IHi].
Qed.
Lemma erase_range_ok m s l xs i n : tinv m -> tsame m s -> lists m l = Some xs -> i + n <= length xs ->
  exists m', list_erase_range m l i n = Some m' /\ tinv m' /\ tsame m' (put_members s l (Some (firstn i xs ++ skipn (i + n) xs))).
Proof.
  intros I Sm L Hi. unfold list_erase_range. rewrite L. destruct (Nat.leb_spec (i + n) (length xs)); [|lia].
  assert (N : NoDup xs) by (apply I with (l := l); auto).
  rewrite <- (filter_range xs i n N Hi).
  destruct (untrack_part m s l xs (firstn n (skipn i xs)) (Some (filter (fun x => negb (among (firstn n (skipn i xs)) x)) xs)) I Sm L) as (m1 & E & H1).
  - intros o Ho. eapply skipn_In_nat, firstn_In_nat; eauto.
  - intros zs [= <-]. split; [now apply NoDup_filter|]. intro o. rewrite filter_In, negb_true_iff, among_notin. tauto.
  - discriminate.
  - rewrite E. eexists. split; [reflexivity | exact H1].
Qed.
Lemma removelast_last (xs : list nat) : xs <> [] -> firstn (length xs - 1) xs ++ skipn (length xs - 1 + 1) xs = removelast xs.
Proof.
  intro H. destruct (exists_last H) as (a & o & ->). rewrite removelast_last, app_length. cbn [length].
  replace (length a + 1 - 1) with (length a) by lia. rewrite firstn_app, Nat.sub_diag, firstn_all. cbn.
  rewrite skipn_all2 by (rewrite app_length; cbn; lia). now rewrite !app_nil_r.
Qed.
Lemma index_of_spec xs o : match index_of xs o with
  | Some i => nth_error xs i = Some o /\ (NoDup xs -> firstn i xs ++ skipn (i + 1) xs = without o xs)
  | None => ~ In o xs end.
Proof.
  induction xs as [|x xs IH]; cbn; auto. destruct (Nat.eqb_spec x o) as [->|D]; cbn.
  - split; auto. intro N. inversion N; subst. symmetry. unfold without. rewrite (filter_ext _ (fun x => negb (among [o] x))); [|intro; now rewrite among1].
    apply filter_none. intros y Hy [<-|[]]. auto.
  - destruct (index_of xs o) as [i|]; cbn.
    + destruct IH as [H1 H2]. split; auto. intro N. inversion N; subst. rewrite H2 by auto. reflexivity.
    + intuition.
Qed.
Lemma without_none o xs : ~ In o xs -> without o xs = xs.
Proof.
  intro H. unfold without. rewrite (filter_ext _ (fun x => negb (among [o] x))); [|intro; now rewrite among1].
  apply filter_none. intros y Hy [<-|[]]. auto.
Qed.
Lemma same_members m s l xs : tsame m s -> lists m l = Some xs -> tsame m (put_members s l (Some xs)).
Proof.
  intros (S1 & S2 & S3 & S4) L. repeat split; cbn; auto. intro k. destruct (Nat.eqb_spec k l); [now subst | auto].
Qed.
Lemma erase_value_ok m s l xs o : tinv m -> tsame m s -> lists m l = Some xs ->
  exists m' b, list_erase_value m l o = Some (m', b) /\ b = among xs o /\ tinv m' /\ tsame m' (put_members s l (Some (without o xs))).
Proof.
  intros I Sm L. unfold list_erase_value. rewrite L. pose proof (index_of_spec xs o) as X. destruct (index_of xs o) as [i|].
  - destruct X as [X1 X2]. assert (Nd : NoDup xs) by (apply I with (l := l); auto).
    assert (i < length xs) by (apply nth_error_Some; congruence).
    destruct (erase_range_ok m s l xs i 1) as (m' & E & I' & S'); auto; [lia|]. unfold list_erase. rewrite E. rewrite X2 in S' by auto.
    exists m', true. split; auto. split; auto. symmetry. apply among_In. eapply nth_error_In; eauto.
  - exists m, false. split; auto. split; [symmetry; now apply among_notin|]. split; auto. rewrite without_none by auto. now apply same_members.
Qed.

(** Releasing an object. *)
Lemma holds_fun m m' t o : (match t with Ptr p => ptrs m' p = ptrs m p | Lst l => lists m' l = lists m l end) -> (holds m' t o <-> holds m t o).
Proof. destruct t; cbn; intros ->; tauto. Qed.
Definition cleared (m : mem) (o : nat) (ts : list tracker) (m' : mem) : Prop :=
  obj_alive m' = obj_alive m /\ trackers m' = trackers m /\ next_obj m' = next_obj m /\
  (forall p, In (Ptr p) ts -> ptrs m' p = Some None) /\ (forall p, ~ In (Ptr p) ts -> ptrs m' p = ptrs m p) /\
  (forall l, In (Lst l) ts -> lists m' l = option_map (without o) (lists m l)) /\ (forall l, ~ In (Lst l) ts -> lists m' l = lists m l).
Lemma notify_ok o ts : forall m, NoDup ts -> (forall t, In t ts -> holds m t o) -> (forall l xs, lists m l = Some xs -> NoDup xs) ->
  exists m', notify m ts o = Some m' /\ cleared m o ts m'.
Proof.
  induction ts as [|t ts IH]; intros m N H Nl.
  - exists m. split; auto. repeat split; auto; cbn; tauto.
  - inversion N as [|? ? N1 N2]; subst. pose proof (H t (or_introl eq_refl)) as Ht. cbn [notify]. destruct t as [p|l]; cbn in Ht.
    + cbn [OnObjectReleased]. rewrite Ht, Nat.eqb_refl.
      destruct (IH (set_ptr m p (Some None))) as (m' & E & (C1 & C2 & C3 & C4 & C5 & C6 & C7)); auto.
      { intros t' Ht'. eapply holds_fun; [|apply H; now right]. destruct t' as [q|k]; cbn; auto. unfold upd.
        destruct (Nat.eqb_spec q p); auto. now subst. }
      exists m'. split; auto. cbn in *. split; [|split; [|split; [|split; [|split; [|split]]]]]; auto.
      * intros q [[= ->]|Hq]; auto. rewrite C5 by auto. unfold upd. now rewrite Nat.eqb_refl.
      * intros q Hq. rewrite C5 by (intro; apply Hq; now right). unfold upd. destruct (Nat.eqb_spec q p); auto. subst. exfalso. apply Hq. now left.
      * intros k [Hk|Hk]; [discriminate | auto].
      * intros k Hk. apply C7. intro. apply Hk. now right.
    + destruct Ht as (xs & Lx & Ho). cbn [OnObjectReleased]. rewrite Lx. destruct (contains xs o) eqn:C; [|apply contains_In in Ho; congruence].
      assert (Rf : remove_first xs o = without o xs).
      { rewrite remove_first_filter by eauto. unfold without. apply filter_ext. intro x. now rewrite among1. }
      rewrite Rf.
      destruct (IH (set_list m l (Some (without o xs)))) as (m' & E & (C1 & C2 & C3 & C4 & C5 & C6 & C7)); auto.
      { intros t' Ht'. eapply holds_fun; [|apply H; now right]. destruct t' as [q|k]; cbn; auto. unfold upd.
        destruct (Nat.eqb_spec k l); auto. now subst. }
      { intros k ys. cbn. unfold upd. destruct (Nat.eqb_spec k l); [intros [= <-]; apply NoDup_filter; eauto | apply Nl]. }
      exists m'. split; auto. cbn in *. split; [|split; [|split; [|split; [|split; [|split]]]]]; auto.
      * intros q [Hq|Hq]; [discriminate | auto].
      * intros q Hq. apply C5. intro. apply Hq. now right.
      * intros k [[= ->]|Hk]; [|auto].
        -- rewrite C7 by auto. unfold upd. rewrite Nat.eqb_refl, Lx. reflexivity.
        -- rewrite C6 by auto. unfold upd. destruct (Nat.eqb_spec k l); [subst; contradiction | auto].
      * intros k Hk. rewrite C7 by (intro; apply Hk; now right). unfold upd. destruct (Nat.eqb_spec k l); auto. subst. exfalso. apply Hk. now left.
Qed.
Lemma release_ok m s o : tinv m -> tsame m s -> obj_alive m o = true ->
  exists m', ReleaseTrackable m o = Some m' /\ tinv m' /\ tsame m' (kill [o] s).
Proof.
  intros I Sm A. pose proof I as (I1 & I2 & I3 & I4 & I5). pose proof Sm as (S1 & S2 & S3 & S4).
  unfold ReleaseTrackable. rewrite A.
  destruct (notify_ok o (trackers m o) m) as (m1 & E & (C1 & C2 & C3 & C4 & C5 & C6 & C7)); auto.
  { intros t Ht. now apply I3. }
  rewrite E. eexists. split; [reflexivity|].
  assert (P : forall p, ptrs m1 p = match ptrs m p with Some (Some q) => if q =? o then Some None else Some (Some q) | v => v end).
  { intro p. destruct (in_dec tracker_eq_dec (Ptr p) (trackers m o)) as [Hp|Hp].
    - rewrite C4 by auto. apply I3 in Hp; auto. cbn in Hp. now rewrite Hp, Nat.eqb_refl.
    - rewrite C5 by auto. destruct (ptrs m p) as [[q|]|] eqn:Q; auto. destruct (Nat.eqb_spec q o); auto. subst.
      exfalso. apply Hp. apply I3; auto. }
  assert (Ls : forall l, lists m1 l = option_map (without o) (lists m l)).
  { intro l. destruct (in_dec tracker_eq_dec (Lst l) (trackers m o)) as [Hl|Hl]; [auto|].
    rewrite C7 by auto. destruct (lists m l) as [xs|] eqn:L; auto. cbn. rewrite without_none; auto. intro Ho. apply Hl. apply I3; auto. exists xs. auto. }
  assert (Hd : forall t x, holds m1 t x <-> holds m t x /\ x <> o).
  { intros [p|l] x; cbn.
    - rewrite P. destruct (ptrs m p) as [[q|]|]; try (split; [discriminate | intros [? _]; discriminate]).
      destruct (Nat.eqb_spec q o); split; try discriminate; intuition congruence.
    - rewrite Ls. split.
      + intros (xs & E1 & Hx). destruct (lists m l) as [ys|]; [|discriminate]. injection E1 as <-. apply filter_In in Hx as [Hx Hn].
        split; [eauto|]. apply negb_true_iff, Nat.eqb_neq in Hn. auto.
      + intros [(xs & E1 & Hx) Hn]. rewrite E1. eexists. split; [reflexivity|]. apply filter_In. split; auto. apply negb_true_iff, Nat.eqb_neq. auto. }
  split.
  - split; [|split; [|split; [|split]]].
    + intros x. cbn. unfold upd. rewrite C1, C3. destruct (x =? o); [discriminate | auto].
    + intros t x H. cbn. unfold upd. rewrite C1. assert (H' : holds m1 t x) by (destruct t; exact H). apply Hd in H' as [H1 H2].
      apply Nat.eqb_neq in H2. rewrite H2. eapply I2; eauto.
    + intros t x. cbn. unfold upd. rewrite C1, C2. destruct (Nat.eqb_spec x o); [discriminate|]. intro Ax.
      transitivity (holds m1 t x); [destruct t; reflexivity|]. rewrite Hd. rewrite <- I3 by auto. tauto.
    + intros x. cbn. unfold upd. rewrite C1, C2. destruct (Nat.eqb_spec x o); [discriminate | auto].
    + intros l xs. cbn. rewrite Ls. destruct (lists m l) eqn:L; [|discriminate]. intros [= <-]. apply NoDup_filter. eauto.
  - split; [|split; [|split]]; cbn [obj_alive ptrs lists next_obj kill live ref_to members fresh].
    + intro x. unfold upd. rewrite C1, <- S1, among1. destruct (x =? o); cbn [negb]; [now rewrite andb_false_r | now rewrite andb_true_r].
    + intro p. rewrite P, <- S2. destruct (ptrs m p) as [[q|]|]; auto. now rewrite among1.
    + intro l. rewrite Ls, <- S3. destruct (lists m l); auto. cbn [option_map]. f_equal. apply filter_ext. intro x. now rewrite among1.
    + congruence.
Qed.

Lemma tstep_ok m s x : tinv m -> tsame m s -> tallowed s x -> exists m', run_top m x = Some m' /\ tinv m' /\ tsame m' (texpected s x).
Proof.
  intros I Sm Al. pose proof I as (I1 & I2 & I3 & I4 & I5). pose proof Sm as (S1 & S2 & S3 & S4).
  assert (CO : forall l, members s l <> None -> exists xs, lists m l = Some xs /\ elements s l = xs /\ size s l = length xs).
  { intros l H. unfold elements, size. rewrite S3. destruct (members s l) as [xs|]; [|congruence]. exists xs. auto. }
  assert (ER : forall l xs i n ys, lists m l = Some xs -> i + n <= length xs -> firstn i xs ++ skipn (i + n) xs = ys ->
    exists m', list_erase_range m l i n = Some m' /\ tinv m' /\ tsame m' (put_members s l (Some ys))).
  { intros l xs i n ys H1 H2 <-. now apply erase_range_ok. }
  destruct x as [|p v|p v|p q|p|l|l i o|l o|l i os|l i|l i n|l o|l|l|l|l|l o|o]; cbn [run_top texpected tallowed] in *.
  - eexists. split; [reflexivity|]. unfold new_trackable. split.
    + assert (Hl : forall t, ~ holds m t (next_obj m)).
      { intros t H. apply I2 in H. apply I1 in H. lia. }
      split; [|split; [|split; [|split]]]; cbn; unfold upd; auto.
      * intros o. destruct (Nat.eqb_spec o (next_obj m)); [lia|]. intro A. specialize (I1 o A). lia.
      * intros t o H. assert (H' : holds m t o) by (destruct t; exact H). destruct (o =? next_obj m); auto. eapply I2; eauto.
      * intros t o. destruct (Nat.eqb_spec o (next_obj m)).
        -- subst. intros _. split; [|intros []]. intro H. assert (H' : holds m t (next_obj m)) by (destruct t; exact H). now apply Hl in H'.
        -- intro A. rewrite <- I3 by auto. destruct t; reflexivity.
      * intros o. destruct (Nat.eqb_spec o (next_obj m)); [constructor | auto].
    + split; [|split; [|split]]; cbn; auto. intro o. unfold upd. rewrite <- S4. destruct (o =? next_obj m); auto.
  - destruct Al. now apply ptr_new_ok.
  - destruct Al. now apply ptr_assign_ok.
  - destruct Al as [A1 A2]. unfold ptr_assign_ptr. rewrite <- S2 in A2. rewrite <- S2. destruct (ptrs m q) as [v|] eqn:Q; [|congruence].
    apply ptr_assign_ok; auto. destruct v as [o|]; cbn; auto. rewrite <- S1. apply (I2 (Ptr q)). exact Q.
  - now apply ptr_delete_ok.
  - eexists. split; [reflexivity|]. rewrite <- S3 in Al. apply (change_list m s l); auto.
    + intros xs [= <-]. split; [constructor | intros ? []].
    + repeat split.
    + intros t o Ao. cbn. rewrite <- I3 by auto. destruct (tracker_eq_dec t (Lst l)) as [->|]; [|intuition congruence].
      cbn. rewrite Al. split; [intros (xs & ? & _); discriminate | intros [[? _]|[_ (xs & [= <-] & [])]]; congruence].
  - destruct Al as (M & L & A & F). destruct (CO l M) as (xs & C & E & Z). rewrite E in *. apply list_insert_ok; auto; [lia | now rewrite S1].
  - destruct Al as (M & A & F). destruct (CO l M) as (xs & C & E & Z). rewrite E in *. unfold list_push_back. rewrite C.
    destruct (list_insert_ok m s l xs (length xs) o) as (m' & H); auto; [now rewrite S1|]. rewrite firstn_all, skipn_all in H. exists m'. exact H.
  - destruct Al as (M & L & N & F). destruct (CO l M) as (xs & C & E & Z). rewrite E in *. apply list_insert_range_ok; auto; [lia|].
    intros o Ho. rewrite S1. auto.
  - destruct Al as (M & L). destruct (CO l M) as (xs & C & E & Z). rewrite E, Z in *. unfold list_erase. eapply ER; eauto; [lia | now rewrite Nat.add_1_r].
  - destruct Al as (M & L). destruct (CO l M) as (xs & C & E & Z). rewrite E, Z in *. now apply erase_range_ok.
  - destruct (CO l Al) as (xs & C & E & Z). rewrite E. destruct (erase_value_ok m s l xs o I Sm C) as (m' & b & E' & _ & H). rewrite E'. cbn. eauto.
  - destruct (CO l Al) as (xs & C & E & Z). rewrite E. unfold list_pop_back. rewrite C. destruct xs as [|x0 xs].
    + exists m. split; auto. split; auto. now apply same_members.
    + unfold list_erase. eapply ER; eauto; [cbn; lia|]. apply removelast_last. discriminate.
  - destruct (CO l Al) as (xs & C & E & Z). rewrite E. unfold list_pop_front. rewrite C. destruct xs as [|x0 xs].
    + exists m. split; auto. split; auto. now apply same_members.
    + unfold list_erase. apply (ER l (x0 :: xs) 0 1); [exact C | cbn; lia | reflexivity].
  - destruct (CO l Al) as (xs & C & E & Z). unfold list_clear. rewrite C.
    destruct (untrack_part m s l xs xs (Some []) I Sm C) as (m1 & E1 & H); auto; try discriminate.
    { intros zs [= <-]. split; [constructor|]. cbn. tauto. }
    rewrite E1. eauto.
  - destruct (CO l Al) as (xs & C & E & Z). unfold list_delete, list_clear. rewrite C.
    destruct (untrack_part m s l xs xs None I Sm C) as (m1 & E1 & H1 & H2); auto; try discriminate.
    rewrite E1. eexists. split; [reflexivity|].
    assert (X : forall k, lists (set_list (set_list m1 l (Some [])) l None) k = lists (set_list m1 l None) k).
    { intro k. cbn. unfold upd. destruct (k =? l); auto. }
    split.
    + destruct H1 as (J1 & J2 & J3 & J4 & J5). split; [|split; [|split; [|split]]]; auto.
      * intros t o H. apply (J2 t). destruct t; auto. cbn in *. now rewrite <- X.
      * intros t o A. rewrite <- (J3 t o A). destruct t; [reflexivity|]. cbn in *. now rewrite <- X.
      * intros k ys. rewrite X. apply J5.
    + destruct H2 as (T1 & T2 & T3 & T4). split; [|split; [|split]]; auto. intro k. rewrite X. apply T3.
  - destruct (CO l Al) as (xs & C & E & Z). rewrite E. unfold list_release.
    destruct (erase_value_ok m s l xs o I Sm C) as (m' & b & E' & B & I' & S'). rewrite E'. subst b. destruct (among xs o) eqn:Am.
    + apply among_In in Am. assert (Ao : obj_alive m o = true) by (apply (I2 (Lst l)); exists xs; auto).
      destruct (release_ok m' (put_members s l (Some (without o xs))) o I' S') as (m2 & E2 & I2' & S2').
      { destruct S' as (T1 & _). rewrite T1. cbn. now rewrite <- S1. }
      rewrite E2. exists m2. split; auto. split; auto. destruct S2' as (T1 & T2 & T3 & T4). split; [|split; [|split]]; auto.
      intro k. rewrite T3. cbn. destruct (Nat.eqb_spec k l) as [->|]; auto. rewrite <- S3, C. cbn. f_equal. unfold without. rewrite filter_filter.
      apply filter_ext. intro x. now destruct (x =? o).
    + exists m'. split; auto. split; auto. apply among_notin in Am. rewrite without_none in S' by auto.
      destruct S' as (T1 & T2 & T3 & T4). split; [|split; [|split]]; auto. intro k. rewrite T3. cbn. destruct (Nat.eqb_spec k l) as [->|]; auto. now rewrite <- S3.
  - apply release_ok; auto. now rewrite S1.
Qed.
