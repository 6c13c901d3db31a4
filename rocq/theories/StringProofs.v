(** Proofs for C60: the string class against mathematical texts. *)
From Coq Require Import List ZArith Lia Bool.
From Verif Require Import StringSpec StringModel.
Import ListNotations.
Local Open Scope Z_scope.

(** The object's cells hold the text [s]: the characters and a terminator, or no cell at all. *)
Definition holds (b : buffer) (s : list Z) : Prop := b = s ++ [0] \/ (b = [] /\ s = []).
Definition terminated (b : buffer) (s : list Z) : Prop := b = s ++ [0].

Lemma text_app : forall s t, text (s ++ t) <-> text s /\ text t.
Proof. intros. apply Forall_app. Qed.

Lemma holds_length : forall b s, holds b s -> str_length b = length s.
Proof.
  intros b s [-> | (-> & ->)]; unfold str_length; [|reflexivity].
  rewrite app_length. cbn [length]. destruct (Nat.ltb_spec 1 (length s + 1)); lia.
Qed.

Lemma c_text_app : forall s r, text s -> c_text (s ++ 0 :: r) = s.
Proof.
  induction s as [|c s IH]; intros r H; [reflexivity|]. inversion H as [|x l (Hx & _) Hl]; subst.
  cbn [c_text app]. destruct (Z.eqb_spec c 0); [lia|]. now rewrite IH.
Qed.
Lemma holds_text : forall b s, text s -> holds b s -> c_text b = s.
Proof. intros b s H [-> | (-> & ->)]; [now apply c_text_app | reflexivity]. Qed.
Lemma terminated_holds : forall b s, terminated b s -> holds b s.
Proof. intros. now left. Qed.

Lemma firstn_pre : forall (s r : list Z) n, (n <= length s)%nat -> firstn n (s ++ r) = firstn n s.
Proof. intros. rewrite firstn_app. replace (n - length s)%nat with O by lia. now rewrite firstn_O, app_nil_r. Qed.
Lemma skipn_pre : forall (s r : list Z) n, (n <= length s)%nat -> skipn n (s ++ r) = skipn n s ++ r.
Proof. intros. rewrite skipn_app. replace (n - length s)%nat with O by lia. reflexivity. Qed.

Lemma skipn_skipn : forall n m (l : list Z), skipn n (skipn m l) = skipn (m + n) l.
Proof. intros n m. induction m as [|m IH]; intro l; [reflexivity|]. destruct l; [now rewrite !skipn_nil|]. apply IH. Qed.

(** resize: the common part is kept. *)
Lemma resize_keeps : forall junk b s n, holds b s -> (length s <= n)%nat ->
  exists extra, str_resize junk b n = s ++ extra ++ [0] /\ (length s + length extra = n)%nat.
Proof.
  intros junk b s n H Hn. unfold str_resize.
  set (x := firstn (S n) _).
  assert (L : length x = S n).
  { subst x. rewrite firstn_length, app_length, map_length, seq_length. lia. }
  assert (P : exists e, x = s ++ e).
  { subst x. exists (skipn (length s) (firstn (S n) (b ++ map junk (seq (length b) (S n - length b))))).
    rewrite <- (firstn_skipn (length s) (firstn _ _)) at 1. f_equal.
    rewrite firstn_firstn, Nat.min_l by lia.
    destruct H as [-> | (-> & ->)]; [|reflexivity].
    rewrite <- app_assoc, firstn_pre by lia. apply firstn_all. }
  destruct P as (e & P). rewrite P in L |- *. rewrite app_length in L.
  destruct e as [|z e]; [cbn in L; lia|].
  destruct (exists_last (l := z :: e)) as (e' & y & E); [discriminate|]. rewrite E in *.
  exists e'. rewrite app_assoc, removelast_last, <- app_assoc.
  rewrite app_length in L. cbn in L. split; [reflexivity | lia].
Qed.
Lemma resize_with_spec : forall b s n v, terminated b s ->
  str_resize_with b n v =
    firstn n (s ++ (if (length s <? n)%nat then 0 :: repeat v (n - length s - 1) else [])) ++ [0].
Proof.
  intros b s n v ->. unfold str_resize_with. f_equal. rewrite app_length. cbn [length].
  destruct (Nat.ltb_spec (length s) n).
  - rewrite <- app_assoc. cbn [app].
    assert (E : (s ++ 0 :: repeat v (S n - (length s + 1)))
               = (s ++ 0 :: repeat v (n - length s - 1)) ++ [v]).
    { rewrite <- app_assoc. cbn [app]. do 2 f_equal.
      replace (S n - (length s + 1))%nat with (n - length s - 1 + 1)%nat by lia.
      rewrite repeat_app. reflexivity. }
    rewrite E.
    assert (L : length (s ++ 0 :: repeat v (n - length s - 1)) = n)
      by (rewrite app_length; cbn [length]; rewrite repeat_length; lia).
    rewrite (firstn_all2 (n := S n)) by (rewrite app_length; cbn; lia).
    rewrite removelast_last. now rewrite firstn_all2 by lia.
  - rewrite app_nil_r. replace (S n - (length s + 1))%nat with O by lia. cbn [repeat].
    rewrite app_nil_r.
    assert (L : length (firstn (S n) (s ++ [0])) = S n)
      by (rewrite firstn_length, app_length; cbn [length]; lia).
    assert (E : firstn (S n) (s ++ [0]) <> []) by (intro E; rewrite E in L; discriminate).
    destruct (exists_last E) as (x & y & Ex). rewrite Ex, removelast_last.
    rewrite Ex, app_length in L. cbn in L.
    assert (firstn n (firstn (S n) (s ++ [0])) = x).
    { rewrite Ex. rewrite firstn_pre by lia. apply firstn_all2. lia. }
    rewrite <- H0, firstn_firstn, Nat.min_l by lia. apply firstn_pre. lia.
Qed.

Lemma blit_exact : forall (p x q : list Z) y, length y = length x -> blit (p ++ x ++ q) (length p) y = p ++ y ++ q.
Proof.
  intros. unfold blit. rewrite firstn_app, Nat.sub_diag, firstn_O, app_nil_r, firstn_all.
  rewrite skipn_app. rewrite (skipn_all2 p) by lia. replace (length p + length y - length p)%nat with (length y) by lia.
  rewrite H, skipn_app, skipn_all, Nat.sub_diag. reflexivity.
Qed.

(** The two memory moves shared by both inserts. *)
Lemma open_gap : forall junk b s off n, holds b s -> (off <= length s)%nat ->
  exists g, length g = n /\
  (let b1 := str_resize junk b (length s + n) in
   (if (off <? length s)%nat then blit b1 (off + n) (firstn (length s - off) (skipn off b1)) else b1)
   = firstn off s ++ g ++ skipn off s ++ [0]).
Proof.
  intros junk b s off n H Ho.
  destruct (resize_keeps junk b s (length s + n) H ltac:(lia)) as (e & E & L).
  assert (Le : length e = n) by lia.
  cbn zeta. rewrite E.
  destruct (Nat.ltb_spec off (length s)).
  - assert (S1 : firstn (length s - off) (skipn off (s ++ e ++ [0])) = skipn off s).
    { rewrite skipn_pre by lia. rewrite firstn_pre by (rewrite skipn_length; lia).
      apply firstn_all2. rewrite skipn_length. lia. }
    rewrite S1.
    (* the gap: the n cells from off *)
    assert (Lall : (length (s ++ e) = length s + n)%nat) by (rewrite app_length; lia).
    exists (firstn n (skipn off (s ++ e))). split.
    { rewrite firstn_length, skipn_length. lia. }
    assert (D : s ++ e ++ [0] = (firstn off s ++ firstn n (skipn off (s ++ e))) ++ skipn (off + n) (s ++ e) ++ [0]).
    { rewrite !app_assoc. f_equal. rewrite <- (firstn_skipn off (s ++ e)) at 1.
      rewrite <- app_assoc. f_equal; [now rewrite firstn_pre by lia|].
      rewrite <- (firstn_skipn n (skipn off (s ++ e))) at 1. f_equal.
      now rewrite skipn_skipn. }
    rewrite D.
    set (P := firstn off s ++ firstn n (skipn off (s ++ e))) in *.
    assert (LP : length P = (off + n)%nat) by (subst P; rewrite app_length, !firstn_length, skipn_length; lia).
    pose proof (blit_exact P (skipn (off + n) (s ++ e)) [0] (skipn off s)
                  ltac:(rewrite !skipn_length; lia)) as B.
    rewrite LP in B. rewrite B. subst P. now rewrite <- !app_assoc.
  - exists e. split; [exact Le|]. assert (off = length s) by lia. subst off.
    rewrite firstn_all, skipn_all. reflexivity.
Qed.

Lemma insert_spec : forall junk b s t tb off, holds b s -> holds tb t ->
  let o := Nat.min (npos_or off (length s)) (length s) in
  holds (str_insert junk b off tb) (firstn o s ++ t ++ skipn o s) /\
  (t <> [] -> terminated (str_insert junk b off tb) (firstn o s ++ t ++ skipn o s)).
Proof.
  intros junk b s t tb off H Ht o. unfold str_insert. rewrite (holds_length _ _ Ht), (holds_length _ _ H).
  fold o.
  destruct (Nat.ltb_spec 0 (length t)).
  - assert (E : terminated (blit (let b1 := str_resize junk b (length s + length t) in
        if (o <? length s)%nat then blit b1 (o + length t) (firstn (length s - o) (skipn o b1)) else b1)
        o (firstn (length t) tb)) (firstn o s ++ t ++ skipn o s)).
    2:{ split; [now left | intros _; exact E]. }
    destruct (open_gap junk b s o (length t) H ltac:(subst o; lia)) as (g & Lg & G). cbn zeta in G |- *.
    rewrite G.
    assert (T : firstn (length t) tb = t).
    { destruct Ht as [-> | (_ & ->)]; [|reflexivity]. rewrite firstn_pre by lia. apply firstn_all. }
    rewrite T. pose proof (blit_exact (firstn o s) g (skipn o s ++ [0]) t ltac:(lia)) as B.
    replace (length (firstn o s)) with o in B by (rewrite firstn_length; subst o; lia).
    rewrite B. unfold terminated. now rewrite <- !app_assoc.
  - destruct t; [|cbn in *; lia]. cbn [app]. rewrite firstn_skipn. split; [exact H | congruence].
Qed.

Lemma set_last_snoc : forall (s : list Z) x y, set_last (s ++ [x]) y = Some (s ++ [y]).
Proof. intros. unfold set_last. destruct (s ++ [x]) eqn:E; [now destruct s|]. rewrite <- E, removelast_last. reflexivity. Qed.

Lemma insert_c_spec : forall junk b s t off count, holds b s ->
  let o := Nat.min (npos_or off (length s)) (length s) in
  let n := npos_or count (length t) in
  exists r, str_insert_c junk b off t count = Some r /\
    holds r (firstn o s ++ firstn n t ++ skipn o s).
Proof.
  intros junk b s t off count H o n. unfold str_insert_c.
  destruct t as [|c t].
  - exists b. split; [reflexivity|]. rewrite firstn_nil. cbn [app]. now rewrite firstn_skipn.
  - set (tt := c :: t) in *. rewrite (holds_length _ _ H). fold o. fold n.
    set (m := Nat.min n (length tt)).
    destruct (open_gap junk b s o m H ltac:(subst o; lia)) as (g & Lg & G). cbn zeta in G |- *.
    rewrite G.
    pose proof (blit_exact (firstn o s) g (skipn o s ++ [0]) (firstn m tt)
                  ltac:(rewrite firstn_length; subst m; lia)) as B.
    replace (length (firstn o s)) with o in B by (rewrite firstn_length; subst o; lia).
    rewrite B.
    exists (firstn o s ++ firstn n tt ++ skipn o s ++ [0]).
    assert (F : firstn m tt = firstn n tt).
    { subst m. destruct (Nat.le_ge_cases n (length tt)); [now rewrite Nat.min_l by lia|].
      rewrite Nat.min_r by lia. now rewrite firstn_all, firstn_all2 by lia. }
    rewrite F, !app_assoc, set_last_snoc. split; [reflexivity|]. left. reflexivity.
Qed.

Lemma firstn_text : forall n s, text s -> text (firstn n s).
Proof. intros n s H. rewrite <- (firstn_skipn n s), text_app in H. tauto. Qed.
Lemma skipn_text : forall n s, text s -> text (skipn n s).
Proof. intros n s H. rewrite <- (firstn_skipn n s), text_app in H. tauto. Qed.

Lemma of_n_spec : forall s n, holds (str_of_n s n) (firstn (npos_or n (length s)) s).
Proof.
  intros s [n|]; cbn [str_of_n npos_or]; [|left; now rewrite firstn_all].
  destruct n as [|n]; [right; split; reflexivity|]. left. f_equal.
  destruct (Nat.le_ge_cases (S n) (length s)); [now rewrite Nat.min_l by lia|].
  rewrite Nat.min_r by lia. now rewrite firstn_all, firstn_all2 by lia.
Qed.

Lemma substr_spec : forall b s start count, text s -> holds b s ->
  holds (str_substr b start count) (firstn (npos_or count (length s)) (skipn start s)).
Proof.
  intros b s start count T H. unfold str_substr. rewrite (holds_length _ _ H).
  destruct (Nat.leb_spec (length s) start).
  - rewrite skipn_all2 by lia. rewrite firstn_nil. left. reflexivity.
  - assert (C : c_text (skipn start b) = skipn start s).
    { destruct H as [-> | (_ & ->)]; [|cbn in *; lia]. rewrite skipn_pre by lia.
      apply c_text_app. now apply skipn_text. }
    rewrite C.
    match goal with |- holds (str_of_n _ (Some ?n)) _ => pose proof (of_n_spec (skipn start s) (Some n)) as P end.
    cbn [npos_or] in P. 
    match type of P with holds _ ?x => assert (x = firstn (npos_or count (length s)) (skipn start s)) as <- end;
      [|exact P].
    destruct count as [k|]; cbn [npos_or].
    + destruct (Nat.ltb_spec (length s) (k + start)); [|reflexivity].
      rewrite !firstn_all2; try reflexivity; rewrite skipn_length; lia.
    + rewrite !firstn_all2; try reflexivity; rewrite skipn_length; lia.
Qed.

Lemma erase_spec : forall b s start stop, holds b s ->
  (match stop with Some e => (start <= e)%nat | None => True end) ->
  holds (str_erase b start stop) (firstn start s ++ skipn (npos_or stop (length s)) s).
Proof.
  intros b s start stop H Hs. unfold str_erase. rewrite (holds_length _ _ H).
  destruct (Nat.ltb_spec start (length s)); cbn [andb].
  - destruct H as [-> | (_ & ->)]; [|cbn in *; lia].
    destruct (Nat.ltb_spec start (npos_or stop (S (length s)))).
    + left. rewrite firstn_pre by lia. rewrite <- app_assoc. f_equal.
      rewrite skipn_pre by lia. f_equal.
      destruct stop as [e|]; cbn [npos_or].
      * destruct (Nat.le_ge_cases e (length s)); [now rewrite Nat.min_l by lia|].
        rewrite Nat.min_r by lia. now rewrite !skipn_all2 by lia.
      * now rewrite Nat.min_id.
    + destruct stop as [e|]; cbn [npos_or] in *; [|lia]. assert (e = start) by lia. subst.
      rewrite firstn_skipn. now left.
  - rewrite (firstn_all2 s) by lia. rewrite skipn_all2, app_nil_r; [exact H|].
    destruct stop; cbn [npos_or]; lia.
Qed.

(** Searches. *)
Lemma scan_first_spec : forall hit n i,
  match scan_first hit i n with
  | Some j => (i <= j < i + n)%nat /\ hit j = true /\ forall k, (i <= k < j)%nat -> hit k = false
  | None => forall k, (i <= k < i + n)%nat -> hit k = false
  end.
Proof.
  induction n as [|n IH]; intro i; cbn [scan_first]; [intros; lia|].
  destruct (hit i) eqn:E; [repeat split; auto; intros; lia|].
  specialize (IH (S i)). destruct (scan_first hit (S i) n).
  - destruct IH as (A & B & C). split; [lia|]. split; [exact B|]. intros k Hk.
    destruct (Nat.eq_dec k i); [now subst | apply C; lia].
  - intros k Hk. destruct (Nat.eq_dec k i); [now subst | apply IH; lia].
Qed.
Lemma scan_last_spec : forall hit n i,
  match scan_last hit i n with
  | Some j => (i <= j < i + n)%nat /\ hit j = true /\ forall k, (j < k < i + n)%nat -> hit k = false
  | None => forall k, (i <= k < i + n)%nat -> hit k = false
  end.
Proof.
  induction n as [|n IH]; intro i; cbn [scan_last]; [intros; lia|].
  specialize (IH (S i)). destruct (scan_last hit (S i) n).
  - destruct IH as (A & B & C). split; [lia|]. split; [exact B|]. intros k Hk. apply C. lia.
  - destruct (hit i) eqn:E.
    + repeat split; auto; try lia. intros k Hk. apply IH. lia.
    + intros k Hk. destruct (Nat.eq_dec k i); [now subst | apply IH; lia].
Qed.

(** [hit] decides [P] on the scanned range and [P] fails beyond it. *)
Lemma scan_first_is : forall (P : nat -> Prop) hit from n,
  (forall i, (from <= i < from + n)%nat -> (hit i = true <-> P i)) ->
  (forall i, (from + n <= i)%nat -> ~ P i) -> is_first P from (scan_first hit from n).
Proof.
  intros P hit from n H O. pose proof (scan_first_spec hit n from) as S. unfold is_first.
  destruct (scan_first hit from n) as [j|].
  - destruct S as (A & B & C). split; [lia|]. split; [now apply H|].
    intros k Hk Pk. apply H in Pk; [|lia]. rewrite C in Pk by lia. discriminate.
  - intros k Hk Pk. destruct (Nat.lt_ge_cases k (from + n)); [|now apply (O k)].
    apply H in Pk; [|lia]. rewrite S in Pk by lia. discriminate.
Qed.
Lemma scan_last_is : forall (P : nat -> Prop) hit from n,
  (forall i, (from <= i < from + n)%nat -> (hit i = true <-> P i)) ->
  (forall i, (from + n <= i)%nat -> ~ P i) -> is_last P from (scan_last hit from n).
Proof.
  intros P hit from n H O. pose proof (scan_last_spec hit n from) as S. unfold is_last.
  destruct (scan_last hit from n) as [j|].
  - destruct S as (A & B & C). split; [lia|]. split; [now apply H|].
    intros k Hk Pk. destruct (Nat.lt_ge_cases k (from + n)); [|now apply (O k)].
    apply H in Pk; [|lia]. rewrite C in Pk by lia. discriminate.
  - intros k Hk Pk. destruct (Nat.lt_ge_cases k (from + n)); [|now apply (O k)].
    apply H in Pk; [|lia]. rewrite S in Pk by lia. discriminate.
Qed.

Lemma cell_holds : forall b s i c, holds b s -> c <> 0 -> (cell b i = c <-> nth_error s i = Some c).
Proof.
  intros b s i c H Hc. unfold cell. destruct H as [-> | (-> & ->)].
  - destruct (Nat.lt_ge_cases i (length s)).
    + rewrite app_nth1 by lia. rewrite (nth_error_nth' s 0) by lia. split; [now intros -> | now intros [= ->]].
    + rewrite app_nth2 by lia.
      assert (nth (i - length s) [0] 0 = 0) as -> by (destruct (i - length s)%nat as [|[|k]]; reflexivity).
      split; [intro; congruence|]. intro E. apply nth_error_None in H. congruence.
  - destruct i; cbn; split; congruence.
Qed.
Lemma holds_cells : forall b s, holds b s -> (length b <= S (length s))%nat /\ (length s <= length b)%nat.
Proof. intros b s [-> | (-> & ->)]; [rewrite app_length|]; cbn; lia. Qed.

Lemma find_char_spec : forall b s c from, holds b s -> 0 < c ->
  is_first (fun i => nth_error s i = Some c) from (str_find_char b c from).
Proof.
  intros b s c from H Hc. unfold str_find_char. destruct (Z.ltb_spec 0 c); [|lia].
  pose proof (holds_cells b s H).
  apply scan_first_is.
  - intros i _. rewrite Z.eqb_eq. apply cell_holds; [exact H | lia].
  - intros i Hi E. assert (nth_error s i <> None) by congruence. apply nth_error_Some in H2. lia.
Qed.
Lemma rfind_char_spec : forall b s c from, holds b s -> 0 < c ->
  is_last (fun i => nth_error s i = Some c) from (str_rfind_char b c from).
Proof.
  intros b s c from H Hc. unfold str_rfind_char. destruct (Z.ltb_spec 0 c); [|lia].
  pose proof (holds_cells b s H).
  apply scan_last_is.
  - intros i _. rewrite Z.eqb_eq. apply cell_holds; [exact H | lia].
  - intros i Hi E. assert (nth_error s i <> None) by congruence. apply nth_error_Some in H2. lia.
Qed.

Lemma agrees_spec : forall t b, agrees t b = true <-> exists v, b = t ++ v.
Proof.
  induction t as [|x t IH]; intro b; cbn [agrees].
  - split; [intros _; now exists b | reflexivity].
  - destruct b as [|y b]; [split; [discriminate | intros (v & E); discriminate]|].
    destruct (Z.eqb_spec x y).
    + subst. rewrite IH. split; intros (v & E); exists v; cbn in *; congruence.
    + split; [discriminate | intros (v & E); cbn in E; congruence].
Qed.
Lemma occurs_cells : forall b s t i, text t -> holds b s -> t <> [] ->
  (agrees t (skipn i b) = true <-> occurs_at t s i).
Proof.
  intros b s t i T H Ht. rewrite agrees_spec. unfold occurs_at. split.
  - intros (v & E).
    assert (Hb : b = firstn i b ++ t ++ v) by (rewrite <- E; now rewrite firstn_skipn).
    assert (Li : (i <= length b)%nat).
    { destruct (Nat.le_gt_cases i (length b)); [auto|]. rewrite skipn_all2 in E by lia.
      destruct t; [congruence|discriminate]. }
    destruct H as [Hs | (Hs & _)].
    + (* the final 0 belongs to v *)
      destruct v as [|w v].
      { exfalso. rewrite app_nil_r in Hb. destruct (exists_last Ht) as (t' & z & Ez). rewrite Ez, app_assoc in Hb.
        rewrite Hs in Hb. apply app_inj_tail in Hb. destruct Hb as (_ & Hz).
        rewrite Ez, text_app in T. destruct T as (_ & Tz). inversion Tz; subst. lia. }
      destruct (exists_last (l := w :: v)) as (v' & z & Ez); [discriminate|].
      rewrite Ez, Hs in Hb. rewrite !app_assoc in Hb. apply app_inj_tail in Hb.
      destruct Hb as (Hb & _). exists (firstn i b), v'. subst b. rewrite <- app_assoc in Hb. split; [exact Hb|].
      rewrite firstn_length. lia.
    + subst b. rewrite firstn_nil in Hb. destruct t; [congruence | discriminate].
  - intros (u & v & E & L). destruct H as [Hs | (_ & Hs)].
    + exists (v ++ [0]). rewrite Hs, E, <- !app_assoc. rewrite skipn_app, (skipn_all2 u) by lia.
      replace (i - length u)%nat with O by lia. reflexivity.
    + rewrite Hs in E. destruct u; [|discriminate]. destruct t; [congruence | discriminate].
Qed.
Lemma occurs_bound : forall t s i, occurs_at t s i -> (i + length t <= length s)%nat.
Proof. intros t s i (u & v & -> & <-). rewrite !app_length. lia. Qed.

Lemma find_c_spec : forall b s t from, holds b s -> text t -> t <> [] ->
  is_first (occurs_at t s) from (str_find_c b t from) /\ is_last (occurs_at t s) from (str_rfind_c b t from).
Proof.
  intros b s t from H T Ht. pose proof (holds_cells b s H). unfold str_find_c, str_rfind_c.
  destruct (Nat.ltb_spec 0 (length t)); [|destruct t; [congruence|cbn in *; lia]].
  destruct (Nat.leb_spec (length t) (length b)); cbn [andb].
  - split; [apply scan_first_is | apply scan_last_is]; try (intros i _; now apply occurs_cells);
      intros i Hi O; apply occurs_bound in O; lia.
  - split; intros j _ O; apply occurs_bound in O; lia.
Qed.
Lemma drop_zero_holds : forall tb t, text t -> holds tb t -> drop_last_zero tb = t.
Proof.
  intros tb t T [-> | (-> & ->)]; [|reflexivity]. unfold drop_last_zero.
  rewrite rev_unit, Z.eqb_refl. apply rev_involutive.
Qed.
Lemma find_spec : forall b s tb t from, holds b s -> text t -> holds tb t -> t <> [] ->
  is_first (occurs_at t s) from (str_find b tb from) /\ is_last (occurs_at t s) from (str_rfind b tb from).
Proof.
  intros b s tb t from H T HT Ht. pose proof (holds_cells b s H). unfold str_find, str_rfind.
  rewrite (holds_length _ _ H), (holds_length _ _ HT), (drop_zero_holds _ _ T HT).
  destruct (Nat.ltb_spec 0 (length t)); [|destruct t; [congruence|cbn in *; lia]].
  destruct (Nat.leb_spec (length t) (length s)); cbn [andb].
  - split; [apply scan_first_is | apply scan_last_is]; try (intros i _; now apply occurs_cells);
      intros i Hi O; apply occurs_bound in O; lia.
  - split; intros j _ O; apply occurs_bound in O; lia.
Qed.

Lemma among_spec : forall c x, among c x = true <-> In x c.
Proof.
  intros. unfold among. rewrite existsb_exists. split.
  - intros (d & Hd & E). apply Z.eqb_eq in E. now subst.
  - intro H. exists x. split; [exact H | apply Z.eqb_refl].
Qed.
Lemma among_cell : forall b s c i, holds b s -> text c ->
  (among c (cell b i) = true <-> exists x, nth_error s i = Some x /\ In x c).
Proof.
  intros b s c i H T. rewrite among_spec. split.
  - intro Hin. exists (cell b i). split; [|exact Hin]. apply cell_holds with b; auto.
    unfold text in T. rewrite Forall_forall in T. apply T in Hin. tauto.
  - intros (x & E & Hin). apply (cell_holds b s i x) in E; auto; [now rewrite E|].
    unfold text in T. rewrite Forall_forall in T. apply T in Hin. tauto.
Qed.
Lemma find_first_of_spec : forall b s c from, terminated b s -> text c -> (1 <= length c <= S (length s))%nat ->
  is_first (fun i => exists x, nth_error s i = Some x /\ In x c) from (str_find_first_of b c from).
Proof.
  intros b s c from H T Hc. pose proof (holds_cells b s (terminated_holds _ _ H)). unfold str_find_first_of.
  assert (Lb : length b = S (length s)) by (rewrite H, app_length; cbn; lia).
  destruct (Nat.ltb_spec 0 (length c)); [|lia]. destruct (Nat.leb_spec (length c) (length b)); [|lia]. cbn [andb].
  apply scan_first_is.
  - intros i _. apply among_cell; [now left | exact T].
  - intros i Hi (x & E & _). assert (N : nth_error s i <> None) by congruence. apply nth_error_Some in N. lia.
Qed.

Lemma last_of_loop_one : forall b c it ret,
  match last_of_loop b c it ret with
  | Some r => exists j, (j <= it)%nat /\ r = ret - Z.of_nat (it - j) /\ among c (cell b j) = true /\
              forall k, (j < k <= it)%nat -> among c (cell b k) = false
  | None => forall k, (k <= it)%nat -> among c (cell b k) = false
  end.
Proof.
  induction it as [|it IH]; intro ret; cbn [last_of_loop].
  - destruct (among c (cell b 0)) eqn:E.
    + exists O. repeat split; auto; try lia.
    + intros k Hk. replace k with O by lia. exact E.
  - destruct (among c (cell b (S it))) eqn:E.
    + exists (S it). repeat split; auto; try lia.
    + specialize (IH (ret - 1)). destruct (last_of_loop b c it (ret - 1)).
      * destruct IH as (j & A & B & C & D). exists j. repeat split; auto; try lia.
        intros k Hk. destruct (Nat.eq_dec k (S it)); [now subst | apply D; lia].
      * intros k Hk. destruct (Nat.eq_dec k (S it)); [now subst | apply IH; lia].
Qed.
(** With a set of one character the start is the terminator and the result is right. *)
Lemma find_last_of_spec : forall b s c, terminated b s -> c <> 0 -> -128 <= c <= 127 ->
  is_last (fun i => nth_error s i = Some c) 0 (option_map Z.to_nat (str_find_last_of b [c] 0)) /\
  (forall r, str_find_last_of b [c] 0 = Some r -> 0 <= r).
Proof.
  intros b s c H Hc Hr. unfold str_find_last_of. rewrite (holds_length _ _ (terminated_holds _ _ H)).
  assert (Lb : length b = S (length s)) by (rewrite H, app_length; cbn; lia).
  cbn [length Nat.ltb Nat.leb]. rewrite Lb. cbn [Nat.ltb Nat.leb andb Nat.add].
  rewrite Nat.sub_succ, Nat.sub_0_r, Z.sub_0_r.
  pose proof (last_of_loop_one b [c] (length s) (Z.of_nat (length s))) as L.
  assert (A : forall i, among [c] (cell b i) = true <-> nth_error s i = Some c).
  { intro i. rewrite among_spec. cbn [In]. rewrite <- (cell_holds b s i c) by (auto; now left). intuition. }
  destruct (last_of_loop b [c] (length s) (Z.of_nat (length s))) as [r|]; cbn [option_map].
  - destruct L as (j & L1 & L2 & L3 & L4). subst r.
    replace (Z.to_nat (Z.of_nat (length s) - Z.of_nat (length s - j))) with j by lia.
    split.
    + split; [lia|]. split; [now apply A|]. intros k Hk E.
      assert (N : nth_error s k <> None) by congruence. apply nth_error_Some in N.
      apply A in E. rewrite L4 in E by lia. discriminate.
    + intros r E. injection E as <-. lia.
  - split; [|discriminate]. intros k _ E.
    assert (N : nth_error s k <> None) by congruence. apply nth_error_Some in N.
    apply A in E. rewrite L in E by lia. discriminate.
Qed.

(** Comparisons. *)
Lemma text_eq_spec : forall a b, text_eq a b = true <-> a = b.
Proof.
  induction a as [|x a IH]; destruct b as [|y b]; cbn [text_eq]; try (split; congruence).
  destruct (Z.eqb_spec x y); [subst; rewrite IH; split; congruence | split; [discriminate|congruence]].
Qed.
Lemma text_lt_lex : forall a b, Forall (fun c => 0 < c) a -> Forall (fun c => 0 < c) b ->
  (text_lt a b = true <-> lex a b).
Proof.
  induction a as [|x a IH]; intros b Ha Hb; destruct b as [|y b]; cbn [text_lt].
  - split; [discriminate | intro H; inversion H].
  - inversion Hb; subst. split; [constructor|]. intros _. apply Z.ltb_lt. assumption.
  - inversion Ha; subst. rewrite Z.ltb_lt. split; [lia | intro H; inversion H].
  - inversion Ha; inversion Hb; subst. destruct (Z.eqb_spec x y).
    + subst. rewrite IH by auto. split; [now constructor|]. intro H; inversion H; subst; [lia | assumption].
    + rewrite Z.ltb_lt. split; [now constructor|]. intro H; inversion H; subst; [assumption | lia].
Qed.
Lemma text_lt_irrefl : forall a, text_lt a a = false.
Proof. induction a; cbn [text_lt]; auto. now rewrite Z.eqb_refl. Qed.
Lemma text_lt_trans : forall a b c, text a -> text b -> text c ->
  text_lt a b = true -> text_lt b c = true -> text_lt a c = true.
Proof.
  induction a as [|x a IH]; intros b c Ta Tb Tc; destruct b as [|y b], c as [|z c]; cbn [text_lt]; try congruence;
  repeat match goal with H : text (_ :: _) |- _ => inversion H; subst; clear H end;
  repeat match goal with |- context[Z.eqb ?u ?v] => destruct (Z.eqb_spec u v); subst end; rewrite ?Z.ltb_lt; try lia.
  intros L1 L2. eapply IH; [| | |exact L1|exact L2]; assumption.
Qed.
Lemma text_lt_total : forall a b, text a -> text b -> a <> b -> text_lt a b = true \/ text_lt b a = true.
Proof.
  induction a as [|x a IH]; intros b Ta Tb N; destruct b as [|y b]; cbn [text_lt]; try congruence;
  repeat match goal with H : text (_ :: _) |- _ => inversion H; subst; clear H end; rewrite ?Z.ltb_lt; try lia.
  rewrite (Z.eqb_sym y x). destruct (Z.eqb_spec x y); [subst; apply IH; auto; congruence | rewrite !Z.ltb_lt; lia].
Qed.
