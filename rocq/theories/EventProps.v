(** C24 (events) and C54 (error reports). *)
From Coq Require Import List Arith Lia Bool.
From Verif Require Import EventModel.
Import ListNotations.

(** *** Specification *)
(** The entries of other objects / of this object. *)
Definition others (o : nat) (h : list handler) : list handler := filter (fun x => negb (fst x =? o)) h.
Definition of_object (o : nat) (h : list handler) : list handler := filter (fun x => fst x =? o) h.
(** A usual history: handlers are added, and an object that has exactly one handler releases it. *)
Inductive eop := Add (o f : nat) | Remove (o : nat).
Fixpoint erun (h : list handler) (ops : list eop) : option (list handler) :=
  match ops with
  | [] => Some h
  | Add o f :: r => erun (InsertHandler h o f) r
  | Remove o :: r => match ReleaseHandler h o with None => None | Some h1 => erun h1 r end
  end.
(** The registered (object, function) pairs, oldest first. *)
Fixpoint registered (s : list (nat * nat)) (ops : list eop) : list (nat * nat) :=
  match ops with
  | [] => s
  | Add o f :: r => registered (s ++ [(o, f)]) r
  | Remove o :: r => registered (filter (fun x => negb (fst x =? o)) s) r
  end.
Definition single (o : nat) (s : list (nat * nat)) : Prop := length (filter (fun x => fst x =? o) s) = 1.
Fixpoint usual (s : list (nat * nat)) (ops : list eop) : Prop :=
  match ops with
  | [] => True
  | Add o f :: r => usual (s ++ [(o, f)]) r
  | Remove o :: r => single o s /\ usual (filter (fun x => negb (fst x =? o)) s) r
  end.
Definition entry (x : nat * nat) : handler := (fst x, Some (snd x)).
Definition quiet (body : nat -> list action) (h : list handler) : Prop := forall o f, In (o, Some f) h -> body f = [].

(** *** Proofs *)
Lemma remove_if_done o todo : forall done gap, fst (remove_if o done gap todo) = done ++ others o todo.
Proof.
  induction todo as [|x todo IH]; intros done gap; cbn; [now rewrite app_nil_r|].
  destruct (fst x =? o) eqn:E; cbn; [apply IH|]. destruct gap; rewrite IH, <- app_assoc; reflexivity.
Qed.
Lemma remove_if_gap o todo : forall done gap, length (snd (remove_if o done gap todo)) = length gap + length (of_object o todo).
Proof.
  unfold of_object. induction todo as [|x todo IH]; intros done gap; cbn; [lia|].
  destruct (fst x =? o) eqn:E; cbn; [rewrite IH, app_length; cbn; lia|]. destruct gap; rewrite IH; cbn; [lia | rewrite app_length; cbn; lia].
Qed.
Lemma release_shape h o :
  match ReleaseHandler h o with
  | None => of_object o h = []
  | Some h' => exists extra, h' = others o h ++ extra /\ S (length extra) = length (of_object o h)
  end.
Proof.
  unfold ReleaseHandler. pose proof (remove_if_done o h [] []) as D. pose proof (remove_if_gap o h [] []) as G.
  destruct (remove_if o [] [] h) as [done gap]. cbn in *. subst done. destruct gap as [|g gap]; cbn in G.
  - destruct (of_object o h); [auto | discriminate].
  - exists gap. split; auto.
Qed.
Lemma release_one h o : length (of_object o h) = 1 -> ReleaseHandler h o = Some (others o h).
Proof.
  intro L. pose proof (release_shape h o) as S. destruct (ReleaseHandler h o) as [h'|].
  - destruct S as (extra & -> & E). destruct extra; [now rewrite app_nil_r | cbn in E; lia].
  - rewrite S in L. discriminate.
Qed.
Lemma others_entry o s : others o (map entry s) = map entry (filter (fun x => negb (fst x =? o)) s).
Proof. unfold others. induction s as [|x s IH]; cbn; auto. destruct (fst x =? o); cbn; [auto | now rewrite IH]. Qed.
Lemma of_entry o s : of_object o (map entry s) = map entry (filter (fun x => fst x =? o) s).
Proof. unfold of_object. induction s as [|x s IH]; cbn; auto. destruct (fst x =? o); cbn; [now rewrite IH | auto]. Qed.
Lemma erun_ok ops : forall s, usual s ops -> erun (map entry s) ops = Some (map entry (registered s ops)).
Proof.
  induction ops as [|[o f|o] ops IH]; cbn [erun usual registered]; intros s U; auto.
  - unfold InsertHandler. rewrite <- (IH _ U). now rewrite map_app.
  - destruct U as [U1 U2]. rewrite release_one; [rewrite others_entry; auto | rewrite of_entry, map_length; exact U1].
Qed.
Lemma nth_error_snoc {A} (l : list A) x : nth_error (l ++ [x]) (length l) = Some x.
Proof. rewrite nth_error_app2, Nat.sub_diag by lia. reflexivity. Qed.
Lemma raise_quiet body s : forall rest calls, (forall o f, In (o, f) s -> body f = []) ->
  raise_loop body (length s) (map entry s ++ rest) calls = Raised (calls ++ rev (map snd s)) (map entry s ++ rest).
Proof.
  induction s as [|x s IH] using rev_ind; intros rest calls Q; cbn; [now rewrite app_nil_r|].
  rewrite app_length. cbn [length]. rewrite Nat.add_1_r. cbn [raise_loop]. rewrite map_app. cbn [map]. rewrite <- app_assoc. cbn [app].
  rewrite nth_error_app2 by (rewrite map_length; lia). rewrite map_length, Nat.sub_diag. cbn [nth_error entry].
  change (entry x) with (fst x, Some (snd x)). cbn iota beta. rewrite (Q (fst x) (snd x)) by (apply in_or_app; right; left; now destruct x).
  cbn [act]. rewrite IH by (intros o f H; apply (Q o); apply in_or_app; auto).
  rewrite map_app, rev_app_distr. cbn. now rewrite <- app_assoc.
Qed.
(** Every function only releases its own object, or does nothing. *)
Lemma raise_self body s : forall rest calls,
  NoDup (map fst (s ++ rest)) -> (forall o f, In (o, f) s -> body f = [] \/ body f = [ARelease o]) ->
  exists kept, raise_loop body (length s) (map entry (s ++ rest)) calls = Raised (calls ++ rev (map snd s)) (map entry (kept ++ rest)) /\
    kept = filter (fun x => match body (snd x) with [] => true | _ => false end) s.
Proof.
  induction s as [|x s IH] using rev_ind; intros rest calls N Q.
  - cbn. exists []. now rewrite app_nil_r.
  - rewrite app_length. cbn [length]. rewrite Nat.add_1_r. cbn [raise_loop].
    rewrite <- app_assoc in *. cbn [app] in *.
    assert (Ne : nth_error (map entry (s ++ x :: rest)) (length s) = Some (fst x, Some (snd x))).
    { rewrite map_app, nth_error_app2 by (rewrite map_length; lia). rewrite map_length, Nat.sub_diag. reflexivity. }
    rewrite Ne.
    assert (Q' : forall o f, In (o, f) s -> body f = [] \/ body f = [ARelease o]) by (intros o f H; apply Q; apply in_or_app; auto).
    destruct (Q (fst x) (snd x)) as [E|E]; [apply in_or_app; right; left; now destruct x | |]; rewrite E; cbn [act].
    + destruct (IH (x :: rest) (calls ++ [snd x]) N Q') as (kept & R & K). exists (kept ++ [x]). split.
      * rewrite R. rewrite (map_app snd), rev_app_distr. cbn. rewrite <- app_assoc. cbn. rewrite <- app_assoc. reflexivity.
      * rewrite filter_app. cbn. rewrite E, K. reflexivity.
    + assert (F1 : filter (fun y => fst y =? fst x) (s ++ x :: rest) = [x]).
      { clear - N. rewrite map_app in N. cbn in N. apply NoDup_remove_2 in N. rewrite filter_app. cbn. rewrite Nat.eqb_refl.
        assert (G : forall l : list (nat * nat), ~ In (fst x) (map fst l) -> filter (fun y => fst y =? fst x) l = []).
        { induction l as [|y l IHl]; cbn; auto. intro H. destruct (Nat.eqb_spec (fst y) (fst x)); [exfalso; auto | auto]. }
        rewrite !G; auto; intro; apply N; apply in_or_app; auto. }
      assert (F2 : filter (fun y => negb (fst y =? fst x)) (s ++ x :: rest) = s ++ rest).
      { clear - N. rewrite map_app in N. cbn in N. apply NoDup_remove_2 in N. rewrite filter_app. cbn. rewrite Nat.eqb_refl. cbn.
        assert (G : forall l : list (nat * nat), ~ In (fst x) (map fst l) -> filter (fun y => negb (fst y =? fst x)) l = l).
        { induction l as [|y l IHl]; cbn; auto. intro H. destruct (Nat.eqb_spec (fst y) (fst x)); [exfalso; auto | cbn; f_equal; auto]. }
        rewrite !G; auto; intro; apply N; apply in_or_app; auto. }
      rewrite release_one by (rewrite of_entry, F1; reflexivity). rewrite others_entry, F2.
      assert (N' : NoDup (map fst (s ++ rest))).
      { rewrite map_app in *. cbn in N. now apply NoDup_remove_1 in N. }
      destruct (IH rest (calls ++ [snd x]) N' Q') as (kept & R & K). exists kept. split.
      * rewrite R. rewrite (map_app snd), rev_app_distr. cbn. rewrite <- app_assoc. reflexivity.
      * rewrite filter_app. cbn. rewrite E, app_nil_r. exact K.
Qed.

(** *** C24 *)
(** Missing from the full statement: releasing an object that has no handler or more than one (refuted below).  For every
    other history the registered handlers are the expected ones, and raising the event calls each exactly once, the newest
    first. *)
Theorem C24_handlers_partial : forall ops body, usual [] ops ->
  exists h, erun [] ops = Some h /\ h = map entry (registered [] ops) /\
    (quiet body h -> Raise body h = Raised (rev (map snd (registered [] ops))) h).
Proof.
  intros ops body U. exists (map entry (registered [] ops)). split; [apply (erun_ok ops [] U)|]. split; auto.
  intro Q. unfold Raise. rewrite map_length. rewrite <- (app_nil_r (map entry _)). rewrite raise_quiet; auto.
  intros o f H. apply (Q o f). apply (in_map entry) in H. exact H.
Qed.
Print Assumptions C24_handlers_partial.
Example C24_demo : let ops := [Add 1 10; Add 2 20; Add 3 30; Remove 2; Add 3 31; Add 2 21; Remove 1] in
  usual [] ops /\ registered [] ops = [(3, 30); (3, 31); (2, 21)] /\
  Raise (fun _ => []) (map entry (registered [] ops)) = Raised [21; 31; 30] (map entry (registered [] ops)).
Proof. repeat split. Qed.

(** Handlers of different objects may also release themselves while they are called. *)
Theorem C24_self_release : forall body s, NoDup (map fst s) ->
  (forall o f, In (o, f) s -> body f = [] \/ body f = [ARelease o]) ->
  Raise body (map entry s) = Raised (rev (map snd s)) (map entry (filter (fun x => match body (snd x) with [] => true | _ => false end) s)).
Proof.
  intros body s N Q. unfold Raise. rewrite map_length. destruct (raise_self body s [] []) as (kept & R & K).
  - now rewrite app_nil_r.
  - exact Q.
  - rewrite !app_nil_r in R. rewrite R, K. reflexivity.
Qed.
Print Assumptions C24_self_release.
Example C24_self_release_demo : let body := fun f => if f =? 20 then [ARelease 2] else if f =? 10 then [ARelease 1] else [] in
  Raise body (map entry [(1, 10); (2, 20); (3, 30)]) = Raised [30; 20; 10] (map entry [(3, 30)]).
Proof. reflexivity. Qed.

(** Refutation 1: releasing an object without handlers always erases the end of the vector. *)
Theorem C24_release_none_refuted : forall h o, (forall f, ~ In (o, f) h) -> ReleaseHandler h o = None.
Proof.
  intros h o H. pose proof (release_shape h o) as S. destruct (ReleaseHandler h o) as [h'|]; auto. exfalso.
  destruct S as (extra & _ & E). destruct (of_object o h) as [|[o' f] l] eqn:Z; [discriminate|].
  assert (I : In (o', f) (of_object o h)) by (rewrite Z; now left). apply filter_In in I as [I1 I2]. cbn in I2. apply Nat.eqb_eq in I2. subst.
  eapply H; eauto.
Qed.
Print Assumptions C24_release_none_refuted.
Example C24_release_none_demo : ReleaseHandler [(1, Some 10)] 2 = None.
Proof. reflexivity. Qed.
(** Refutation 2: releasing an object with two or more handlers always leaves too many entries behind the handlers of the
    other objects ... *)
Theorem C24_release_many_refuted : forall h o, 2 <= length (of_object o h) ->
  exists x l, ReleaseHandler h o = Some (others o h ++ x :: l) /\ length h = length (others o h ++ x :: l) + 1.
Proof.
  intros h o L. pose proof (release_shape h o) as S. destruct (ReleaseHandler h o) as [h'|].
  - destruct S as (extra & -> & E). destruct extra as [|x l]; [cbn in E; lia|]. exists x, l. split; auto.
    assert (Z : length h = length (others o h) + length (of_object o h)).
    { clear. unfold others, of_object. induction h as [|y h IH]; cbn; auto. destruct (fst y =? o); cbn; lia. }
    rewrite app_length. cbn in *. lia.
  - rewrite S in L. cbn in L. lia.
Qed.
Print Assumptions C24_release_many_refuted.
(** ... either handlers of the released object, which are still called, or empty functions whose call throws before the
    other handlers are reached. *)
Theorem C24_release_many_effect :
  (exists h h', erun [] [Add 1 10; Add 1 11; Remove 1] = Some h /\ Raise (fun _ => []) h = Raised [11] h') /\
  (exists h, erun [] [Add 1 10; Add 1 11; Add 2 20; Remove 1] = Some h /\ h = [(2, Some 20); (2, None)] /\
     Raise (fun _ => []) h = BadCall []).
Proof. split; [do 2 eexists; split; reflexivity | eexists; split; [reflexivity|]; split; reflexivity]. Qed.
Print Assumptions C24_release_many_effect.
(** Refutation 3: a handler that releases other objects' handlers makes the loop read behind the vector. *)
Theorem C24_release_others_refuted : exists body s, NoDup (map fst s) /\ Raise body (map entry s) = Undefined.
Proof. exists (fun f => if f =? 30 then [ARelease 1; ARelease 2] else []), [(1, 10); (2, 20); (3, 30)]. split; [repeat constructor; cbn; lia | reflexivity]. Qed.
Print Assumptions C24_release_others_refuted.

(** *** C54 *)
(** A callback that asks anything of FUError. *)
Definition asks (does : nat -> list request) (f : nat) : Prop := does f <> [].
Lemma with_lock_locked s k : locked s = true -> with_lock s k = Deadlock.
Proof. intro L. unfold with_lock. now rewrite L. Qed.
Lemma ask_locked m does s qs : locked s = true -> qs <> [] -> ask_all (Error (S m) does) s qs = Deadlock.
Proof.
  intros L Q. destruct qs as [|q qs]; [congruence|]. cbn [ask_all].
  destruct q; cbn [Error]; unfold AddErrorCallback, RemoveErrorCallback; rewrite with_lock_locked; auto.
Qed.
Lemma report_quiet m does l s fs : forall calls, (forall o f, In (o, f) fs -> does f = []) ->
  (exists rest, event_of s l = map entry fs ++ rest) ->
  report_loop m does l (length fs) s calls = Done s (calls ++ rev (map snd fs)).
Proof.
  induction fs as [|x fs IH] using rev_ind; intros calls Q (rest & E); cbn; [now rewrite app_nil_r|].
  rewrite app_length. cbn [length]. rewrite Nat.add_1_r. cbn [report_loop]. rewrite E. rewrite map_app. cbn [map]. rewrite <- app_assoc. cbn [app].
  rewrite nth_error_app2 by (rewrite map_length; lia). rewrite map_length, Nat.sub_diag. cbn [nth_error]. change (entry x) with (fst x, Some (snd x)). cbn iota beta.
  rewrite (Q (fst x) (snd x)) by (apply in_or_app; right; left; now destruct x). cbn [ask_all].
  rewrite IH.
  - rewrite map_app, rev_app_distr. cbn. now rewrite <- app_assoc.
  - intros o f H. apply (Q o). apply in_or_app. auto.
  - rewrite map_app in E. cbn in E. rewrite <- app_assoc in E. eauto.
Qed.
Lemma report_asks m does l s fs : forall calls, locked s = true -> (exists o f, In (o, f) fs /\ asks does f) ->
  (exists rest, event_of s l = map entry fs ++ rest) ->
  report_loop (Error (S m) does) does l (length fs) s calls = Deadlock.
Proof.
  induction fs as [|x fs IH] using rev_ind; intros calls L (o & f & I & A) (rest & E); [destruct I|].
  rewrite app_length. cbn [length]. rewrite Nat.add_1_r. cbn [report_loop]. rewrite E. rewrite map_app. cbn [map]. rewrite <- app_assoc. cbn [app].
  rewrite nth_error_app2 by (rewrite map_length; lia). rewrite map_length, Nat.sub_diag. cbn [nth_error]. change (entry x) with (fst x, Some (snd x)). cbn iota beta.
  destruct (does (snd x)) as [|q qs] eqn:D.
  - cbn [ask_all]. apply IH; auto.
    + exists o, f. split; auto. apply in_app_iff in I as [I|[I|[]]]; auto. subst. cbn in D. contradiction.
    + rewrite map_app in E. cbn in E. rewrite <- app_assoc in E. eauto.
  - rewrite ask_locked; auto. discriminate.
Qed.
Lemma set_lock_events s b l : event_of (set_lock s b) l = event_of s l.
Proof. destruct l; reflexivity. Qed.

(** Missing from the full statement: callbacks that use FUError themselves (refuted below).  With other callbacks a report
    calls each callback of its level once, the newest first, returns with the mutex free and nothing changed, and its
    result is whether the level reaches the fatal one. *)
Theorem C54_report_partial : forall m does s l fs, locked s = false -> event_of s l = map entry fs ->
  (forall o f, In (o, f) fs -> ~ asks does f) ->
  Error (S m) does s l = Done s (rev (map snd fs)) /\
  (is_fatal s l = true <-> level_number (fatal s) <= level_number l).
Proof.
  intros m does s l fs L E Q. split.
  - cbn [Error]. unfold with_lock. rewrite L. rewrite set_lock_events, E, map_length.
    rewrite (report_quiet (Error m does) does l (set_lock s true) fs []).
    + f_equal. destruct s; cbn in *. unfold set_lock. cbn. now rewrite <- L.
    + intros o f I. destruct (does f) eqn:D; auto. exfalso. apply (Q o f I). unfold asks. congruence.
    + exists []. now rewrite set_lock_events, app_nil_r.
  - unfold is_fatal. apply Nat.leb_le.
Qed.
Print Assumptions C54_report_partial.
Example C54_demo : let s := Errors false [(1, Some 10); (2, Some 20)] [] [] ERROR_LEVEL in
  Error 1 (fun _ => []) s ERROR_LEVEL = Done s [20; 10] /\ is_fatal s ERROR_LEVEL = true /\ is_fatal s WARNING_LEVEL = false.
Proof. repeat split. Qed.

(** Refutation: whenever one of the callbacks of the level reports an error or adds or removes a callback, of any level, the
    report never returns. *)
Theorem C54_report_refuted : forall m does s l fs, locked s = false -> event_of s l = map entry fs ->
  (exists o f, In (o, f) fs /\ asks does f) -> Error (S (S m)) does s l = Deadlock.
Proof.
  intros m does s l fs L E A. cbn [Error]. unfold with_lock at 1. rewrite L. rewrite set_lock_events, E, map_length.
  change (fun (s0 : errors) (l0 : level) => with_lock s0 _) with (Error (S m) does).
  rewrite (report_asks m does l (set_lock s true) fs []); auto. exists []. now rewrite set_lock_events, app_nil_r.
Qed.
Print Assumptions C54_report_refuted.
Example C54_refuted_demo : let s := Errors false [(1, Some 10); (2, Some 20)] [] [] ERROR_LEVEL in
  Error 2 (fun f => if f =? 10 then [RError DEBUG_LEVEL] else []) s ERROR_LEVEL = Deadlock.
Proof. reflexivity. Qed.
(** Adding and removing callbacks from outside takes effect and frees the mutex. *)
Theorem C54_callbacks : forall s l o f fs, locked s = false -> event_of s l = map entry fs ->
  (exists s1, AddErrorCallback s l o f = Done s1 [] /\ locked s1 = false /\ fatal s1 = fatal s /\
     event_of s1 l = map entry (fs ++ [(o, f)]) /\ forall l', l' <> l -> event_of s1 l' = event_of s l') /\
  (single o fs -> exists s1, RemoveErrorCallback s l o = Done s1 [] /\ locked s1 = false /\ fatal s1 = fatal s /\
     event_of s1 l = map entry (filter (fun x => negb (fst x =? o)) fs) /\ forall l', l' <> l -> event_of s1 l' = event_of s l').
Proof.
  intros s l o f fs L E. split.
  - unfold AddErrorCallback, with_lock. rewrite L. eexists. split; [reflexivity|]. rewrite set_lock_events, E.
    split; [reflexivity|]. split; [destruct l; reflexivity|]. split.
    + unfold InsertHandler. rewrite map_app. destruct l; reflexivity.
    + intros l' D. destruct l, l'; cbn; congruence.
  - intro S1. unfold RemoveErrorCallback, with_lock. rewrite L, set_lock_events, E.
    rewrite release_one by (rewrite of_entry, map_length; exact S1). rewrite others_entry. eexists. split; [reflexivity|].
    split; [reflexivity|]. split; [destruct l; reflexivity|]. split; [destruct l; reflexivity|].
    intros l' D. destruct l, l'; cbn; congruence.
Qed.
Print Assumptions C54_callbacks.
Example C54_callbacks_demo : AddErrorCallback (Errors false [] [(1, Some 10)] [] ERROR_LEVEL) WARNING_LEVEL 2 20 =
  Done (Errors false [] [(1, Some 10); (2, Some 20)] [] ERROR_LEVEL) [] /\
  RemoveErrorCallback (Errors false [] [(1, Some 10); (2, Some 20)] [] ERROR_LEVEL) WARNING_LEVEL 1 =
  Done (Errors false [] [(2, Some 20)] [] ERROR_LEVEL) [].
Proof. split; reflexivity. Qed.
