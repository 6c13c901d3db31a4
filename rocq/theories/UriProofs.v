(** Proofs for C17, C59, C61. *)
From Coq Require Import String List ZArith Lia Bool.
From Verif Require Import TextModel TextProofs StringSpec StringModel StringProofs UriSpec UriModel.
Import ListNotations.
Local Open Scope Z_scope.
Local Notation length := List.length.

Lemma same_spec : forall a b, same a b = true <-> a = b.
Proof.
  induction a as [|x a IH]; destruct b as [|y b]; cbn [same]; try (split; congruence).
  rewrite andb_true_iff, Z.eqb_eq, IH. split; [intros (-> & ->); reflexivity | intros [= -> ->]; auto].
Qed.
Lemma same_refl : forall a, same a a = true. Proof. intro. now apply same_spec. Qed.
Lemma same_false : forall a b, a <> b -> same a b = false.
Proof. intros a b H. destruct (same a b) eqn:E; [apply same_spec in E; congruence | reflexivity]. Qed.

Lemma index_none : forall c s, ~ In c s -> index_from c s = None.
Proof.
  induction s as [|x s IH]; intro H; [reflexivity|]. cbn [index_from]. cbn [In] in H.
  destruct (Z.eqb_spec x c); [tauto|]. rewrite IH by tauto. reflexivity.
Qed.
Lemma index_first : forall c s r, ~ In c s -> index_from c (s ++ c :: r) = Some (length s).
Proof.
  induction s as [|x s IH]; intros r H; cbn [app index_from].
  - now rewrite Z.eqb_refl.
  - cbn [In] in H. destruct (Z.eqb_spec x c); [tauto|]. rewrite IH by tauto. reflexivity.
Qed.
Lemma find_none : forall c s, ~ In c s -> find_char c s 0 = None.
Proof. intros. unfold find_char. cbn [skipn]. now rewrite index_none. Qed.
Lemma replace_id : forall a b s, ~ In a s -> replace a b s = s.
Proof.
  induction s as [|x s IH]; intro H; [reflexivity|]. unfold replace in *. cbn [map]. cbn [In] in H.
  destruct (Z.eqb_spec x a); [tauto|]. now rewrite IH by tauto.
Qed.

(** Characters of names and paths. *)
Lemma plain_not_in : forall s c, Forall plain_char s -> In c [0; 47; 92; 58; 63; 35; 124] -> ~ In c s.
Proof. intros s c H Hc Hin. rewrite Forall_forall in H. now apply (H c). Qed.
Lemma path_chars : forall l c, Forall name l -> In c (path_of l) -> c = 47 \/ plain_char c.
Proof.
  induction l as [|n l IH]; intros c H Hc; [destruct Hc|].
  inversion H as [|x y (_ & Hn) Hl]; subst. unfold path_of in Hc. cbn [map concat] in Hc.
  apply in_app_or in Hc. destruct Hc as [[Hc|Hc] | Hc]; [auto | right | now apply IH].
  rewrite Forall_forall in Hn. now apply Hn.
Qed.
Lemma path_not_in : forall l c, Forall name l -> In c [0; 92; 58; 63; 35; 124] -> ~ In c (path_of l).
Proof.
  intros l c H Hc Hin. apply path_chars in Hin; [|exact H]. destruct Hin as [-> | Hin].
  - cbn in Hc. lia.
  - apply Hin. cbn in *. tauto.
Qed.
Lemma names_chars : forall s l c, names s l -> In c s -> c = 47 \/ plain_char c.
Proof.
  induction 1 as [|s l H IH|n (_ & Hn)|n s l (_ & Hn) H IH]; intro Hc.
  - destruct Hc.
  - destruct Hc; auto.
  - right. rewrite Forall_forall in Hn. now apply Hn.
  - apply in_app_or in Hc. destruct Hc as [Hc|[Hc|Hc]]; [|auto|auto].
    right. rewrite Forall_forall in Hn. now apply Hn.
Qed.
Lemma names_not_in : forall s l c, names s l -> In c [0; 92; 58; 63; 35; 124] -> ~ In c s.
Proof.
  intros s l c H Hc Hin. eapply names_chars in Hin; [|exact H]. destruct Hin as [-> | Hin].
  - cbn in Hc. lia.
  - apply Hin. cbn in *. tauto.
Qed.
Lemma names_names : forall s l, names s l -> Forall name l.
Proof. induction 1; auto. Qed.

(** ExtractPathStack computes the names. *)
Lemma extract_names : forall s l, names s l -> forall fuel, (length s <= fuel)%nat -> extract_loop fuel s true = Some l.
Proof.
  induction 1 as [|s l H IH|n (Hne & Hn)|n s l (Hne & Hn) H IH]; intros fuel L.
  - now destruct fuel.
  - destruct fuel as [|fuel]; cbn [length] in L; [lia|]. cbn. apply IH. lia.
  - destruct n as [|c n]; [congruence|]. destruct fuel as [|fuel]; cbn [length] in L; [lia|].
    cbn [extract_loop]. rewrite index_none; [reflexivity|]. apply plain_not_in; [exact Hn | cbn; auto].
  - destruct n as [|c n]; [congruence|]. rewrite app_length in L. cbn [length] in L.
    destruct fuel as [|fuel]; [lia|]. cbn [extract_loop app].
    change (c :: n ++ 47 :: s) with ((c :: n) ++ 47 :: s).
    rewrite index_first by (apply plain_not_in; [exact Hn | cbn; auto]).
    cbn [length]. rewrite firstn_app.
    replace (S (length n) - length (c :: n))%nat with O by (cbn [length]; lia).
    rewrite firstn_O, app_nil_r, firstn_all2 by (cbn [length]; lia).
    rewrite skipn_app, skipn_all2 by (cbn [length]; lia).
    replace (S (length n) + 1 - length (c :: n))%nat with 1%nat by (cbn [length]; lia).
    cbn [skipn app]. rewrite IH by lia. reflexivity.
Qed.
Lemma stack_names : forall s l, names s l -> ExtractPathStack s true = Some l.
Proof.
  intros s l H. unfold ExtractPathStack. rewrite replace_id by (eapply names_not_in; [exact H | cbn; auto]).
  now apply extract_names.
Qed.
Lemma names_slash_inv : forall s l, names (47 :: s) l -> names s l.
Proof.
  intros s l H. remember (47 :: s) as w eqn:E. destruct H as [|s' l' H|n (_ & Hn)|n s' l' (Hne & Hn) H].
  - discriminate.
  - injection E as ->. exact H.
  - subst n. inversion Hn as [|x y Hx _]; subst. exfalso. apply Hx. cbn. auto.
  - destruct n as [|c n]; [congruence|]. injection E as -> _. inversion Hn as [|x y Hx _]; subst.
    exfalso. apply Hx. cbn. auto.
Qed.
Lemma names_path : forall l, Forall name l -> names (path_of l) l.
Proof.
  induction 1 as [|n l H Hl IH]; [constructor|]. unfold path_of. cbn [map concat app]. apply N_slash.
  destruct l as [|m l]; [cbn [map concat]; rewrite app_nil_r; now constructor|].
  cbn [map concat app]. apply N_name; [exact H|]. now apply names_slash_inv.
Qed.
(** ... and the folders of a base. *)
Lemma extract_folders : forall l f, Forall name l -> Forall plain_char f ->
  forall fuel, (length (path_of l ++ 47%Z :: f) <= fuel)%nat -> extract_loop fuel (path_of l ++ 47 :: f) false = Some l.
Proof.
  assert (B : forall f fuel, Forall plain_char f -> (length f <= fuel)%nat -> extract_loop fuel f false = Some []).
  { intros f fuel Hf L. destruct f as [|c f]; [now destruct fuel|]. destruct fuel as [|fuel]; [cbn in L; lia|].
    cbn [extract_loop]. rewrite index_none; [reflexivity|]. apply plain_not_in; [exact Hf | cbn; auto]. }
  induction l as [|n l IH]; intros f H Hf fuel L.
  - cbn in *. destruct fuel as [|fuel]; [lia|]. cbn. apply B; [exact Hf | lia].
  - inversion H as [|x y (Hne & Hn) Hl]; subst. unfold path_of in *. cbn [map concat app] in *.
    cbn [length] in L. destruct fuel as [|fuel]; [lia|]. cbn [extract_loop index_from Z.eqb Pos.eqb skipn].
    destruct n as [|c n]; [congruence|].
    assert (E : exists r, concat (map (fun n => 47 :: n) l) ++ 47 :: f = 47 :: r /\
                forall k, (length r <= k)%nat -> extract_loop k r false = Some l).
    { destruct l as [|m l].
      - exists f. split; [reflexivity|]. intros k Hk. now apply B.
      - exists ((m ++ concat (map (fun n => 47 :: n) l)) ++ 47 :: f). split; [reflexivity|]. intros k Hk.
        specialize (IH f Hl Hf (S k)). cbn [map concat app length] in IH.
        specialize (IH ltac:(lia)). cbn [extract_loop index_from Z.eqb Pos.eqb skipn] in IH. exact IH. }
    destruct E as (r & E & R). rewrite <- app_assoc, E in *. rewrite app_length in L. cbn [length] in L.
    destruct fuel as [|fuel]; [lia|]. cbn [extract_loop app].
    change (c :: n ++ 47 :: r) with ((c :: n) ++ 47 :: r).
    rewrite index_first by (apply plain_not_in; [exact Hn | cbn; auto]).
    cbn [length]. rewrite firstn_app.
    replace (S (length n) - length (c :: n))%nat with O by (cbn [length]; lia).
    rewrite firstn_O, app_nil_r, firstn_all2 by (cbn [length]; lia).
    rewrite skipn_app, skipn_all2 by (cbn [length]; lia).
    replace (S (length n) + 1 - length (c :: n))%nat with 1%nat by (cbn [length]; lia).
    cbn [skipn app]. rewrite R by lia. reflexivity.
Qed.
Lemma base_not_in : forall l f c, Forall name l -> Forall plain_char f -> In c [0; 92; 58; 63; 35; 124] ->
  ~ In c (path_of l ++ 47 :: f).
Proof.
  intros l f c Hl Hf Hc Hin. apply in_app_or in Hin. destruct Hin as [Hin|[Hin|Hin]].
  - revert Hin. now apply path_not_in.
  - cbn in Hc. lia.
  - revert Hin. apply plain_not_in; [exact Hf | cbn in *; tauto].
Qed.
Lemma stack_folders : forall l f, Forall name l -> Forall plain_char f ->
  ExtractPathStack (path_of l ++ 47 :: f) false = Some l.
Proof.
  intros. unfold ExtractPathStack. rewrite replace_id by (apply base_not_in; cbn; auto).
  now apply extract_folders.
Qed.

(** Parsing absolute file paths and relative paths. *)
Definition file_uri (p : list Z) : uri :=
  {| scheme := FILE; delim := tx "://"; host := []; port := 0; path := p; query := []; fragment := [] |}.
Lemma parse_absolute : forall a r, ~ In 92 r -> ~ In 58 r -> ~ In 35 r ->
  parse a (47 :: r) = Some (file_uri (47 :: r)).
Proof.
  intros a r H1 H2 H3. unfold parse.
  assert (N : forall c, c <> 47 -> ~ In c r -> ~ In c (47 :: r)) by (intros c ? ? [?|?]; [congruence | auto]).
  rewrite replace_id by (apply N; [lia | exact H1]).
  rewrite (find_none 58) by (apply N; [lia | exact H2]).
  rewrite (find_none 35) by (apply N; [lia | exact H3]). reflexivity.
Qed.
Lemma parse_relative : forall a c r, c <> 47 -> (forall x, In x [92; 58; 63; 35; 124] -> ~ In x (c :: r)) ->
  parse a (c :: r) =
  Some {| scheme := NONE; delim := []; host := []; port := 0;
          path := if IsFile (c :: r) then c :: r else (c :: r) ++ [47]; query := []; fragment := [] |}.
Proof.
  intros a c r Hc H. unfold parse.
  rewrite replace_id by (apply H; cbn; auto).
  rewrite (find_none 58) by (apply H; cbn; auto).
  cbn [nth]. destruct (Z.eqb_spec c 47); [congruence|]. unfold parse_tail.
  rewrite (find_none 63) by (apply H; cbn; auto). rewrite (find_none 35) by (apply H; cbn; auto).
  cbn [skipn].
  assert (B : bar_to_colon (c :: r) = c :: r).
  { unfold bar_to_colon. assert (H0 : ~ In 124 (c :: r)) by (apply H; cbn; auto 10).
    destruct r as [|d r]; [reflexivity|]. cbn [nth]. destruct (Z.eqb_spec d 124); [subst; cbn in H0; tauto|].
    rewrite andb_false_r. destruct r as [|e r]; [reflexivity|]. cbn [nth].
    destruct (Z.eqb_spec e 124); [subst; cbn in H0; tauto|]. now rewrite andb_false_r. }
  now rewrite B.
Qed.

Lemma names_slash_end : forall s l, names s l -> names (s ++ [47]) l.
Proof.
  induction 1 as [|s l H IH|n Hn|n s l Hn H IH]; cbn [app].
  - constructor. constructor.
  - now constructor.
  - apply N_name; [exact Hn | constructor].
  - rewrite <- app_assoc. cbn [app]. now apply N_name.
Qed.

(** The walk. *)
Lemma fold_walk : forall l d, Forall name l -> walk d l (fold_left step l d).
Proof.
  induction l as [|n l IH]; intros d H; cbn [fold_left]; [constructor|].
  inversion H as [|x y Hn Hl]; subst. unfold step at 2.
  destruct (same n (tx ".")) eqn:E; [apply same_spec in E; subst; apply W_dot; now apply IH|].
  destruct (same n (tx "..")) eqn:E2.
  - apply same_spec in E2; subst. destruct d as [|d x _] using rev_ind.
    + cbn [removelast]. apply W_root. now apply IH.
    + rewrite removelast_last. apply W_up. now apply IH.
  - apply W_down; [|now apply IH]. split; [exact Hn|]. split; intros ->; [rewrite same_refl in E | rewrite same_refl in E2]; discriminate.
Qed.
Lemma walk_ordinary : forall d l r, walk d l r -> Forall ordinary d -> Forall ordinary r.
Proof.
  induction 1 as [d|d l r H IH|d x l r H IH|l r H IH|d n l r Hn H IH]; intro F; auto.
  - apply IH. apply Forall_app in F. tauto.
  - apply IH. apply Forall_app. auto.
Qed.
Lemma walk_fun : forall d l r, walk d l r -> r = fold_left step l d.
Proof.
  induction 1 as [d|d l r H IH|d x l r H IH|l r H IH|d n l r (Hn & H1 & H2) H IH]; cbn [fold_left]; auto.
  - replace (step (d ++ [x]) dotdot) with d; [exact IH|]. unfold step.
    change (same dotdot (tx ".")) with false. change (same dotdot (tx "..")) with true.
    cbn iota. now rewrite removelast_last.
  - replace (step d n) with (d ++ [n]); [exact IH|]. unfold step. rewrite !same_false; [reflexivity | exact H2 | exact H1].
Qed.

Definition base_of (d : list (list Z)) (f : list Z) : list Z := path_of d ++ 47 :: f.
Lemma base_head : forall d f, exists r, base_of d f = 47 :: r.
Proof. intros [|n d] f; [exists f | eexists]; reflexivity. Qed.
Lemma parse_base : forall a d f, Forall name d -> Forall plain_char f ->
  parse a (base_of d f) = Some (file_uri (base_of d f)).
Proof.
  intros a d f Hd Hf. destruct (base_head d f) as (r & E).
  pose proof (fun c H => base_not_in d f c Hd Hf H) as N. fold (base_of d f) in N. rewrite E in *.
  apply parse_absolute; intro Hin; [apply (N 92) | apply (N 58) | apply (N 35)]; cbn; auto 10.
Qed.

Lemma resolve_relative : forall a d f s l, Forall name d -> Forall plain_char f ->
  names s l -> s <> [] -> hd 0 s <> 47 ->
  MakeAbsolute a (file_uri (base_of d f)) s = Some (path_of (fold_left step l d)).
Proof.
  intros a d f s l Hd Hf Hs Hne Hh. destruct s as [|c s]; [congruence|]. cbn [hd] in Hh.
  unfold MakeAbsolute. rewrite parse_relative; [|exact Hh|].
  2:{ intros x Hx. eapply names_not_in; [exact Hs | cbn in *; tauto]. }
  unfold MakeAbsoluteUri. cbn [scheme path host port delim query fragment scheme_eqb negb file_uri].
  set (p := if IsFile (c :: s) then c :: s else (c :: s) ++ [47]).
  assert (Hp : names p l) by (subst p; destruct (IsFile (c :: s)); [exact Hs | now apply names_slash_end]).
  assert (P0 : exists t, p = c :: t) by (subst p; destruct (IsFile (c :: s)); eexists; reflexivity).
  destruct P0 as (t & P0).
  assert (C92 : c <> 92).
  { intros ->. apply (names_not_in _ _ 92 Hs); cbn; auto. }
  assert (A : (match p with c :: _ => (c =? 92) || (c =? 47) | [] => false end ||
      ((1 <? length p)%nat && (nth 1 p 0 =? 58))) = false).
  { rewrite P0. destruct (Z.eqb_spec c 92); [congruence|]. destruct (Z.eqb_spec c 47); [congruence|]. cbn [orb].
    destruct (Z.eqb_spec (nth 1 (c :: t) 0) 58) as [E|]; [|apply andb_false_r].
    exfalso. apply (names_not_in _ _ 58 Hp); [cbn; auto|]. rewrite P0, <- E.
    destruct t as [|e t]; [discriminate|]. cbn. auto. }
  rewrite A. cbn [orb andb]. unfold base_of. rewrite stack_folders by assumption.
  rewrite (stack_names p l Hp). cbn [option_map]. reflexivity.
Qed.

(** *** Round trip *)
Lemma resolve_absolute : forall a base r, ~ In 92 r -> ~ In 58 r -> ~ In 35 r ->
  MakeAbsolute a base (47 :: r) = Some (47 :: r).
Proof. intros. unfold MakeAbsolute. rewrite parse_absolute by assumption. reflexivity. Qed.

Lemma common_spec : forall d l, let m := common d l in
  (m <= length d)%nat /\ (m <= length l)%nat /\ firstn m d = firstn m l.
Proof.
  induction d as [|x d IH]; destruct l as [|y l]; cbn [common]; try (cbn; repeat split; lia).
  destruct (same x y) eqn:E; [|cbn; repeat split; lia]. apply same_spec in E. subst.
  specialize (IH l). cbn zeta in IH |- *. destruct IH as (A & B & C). cbn [length firstn]. rewrite C. repeat split; lia.
Qed.
Lemma fold_ups : forall k d, (k <= length d)%nat -> fold_left step (repeat dotdot k) d = firstn (length d - k) d.
Proof.
  induction k as [|k IH]; intros d H; cbn [repeat fold_left].
  - now rewrite Nat.sub_0_r, firstn_all.
  - destruct d as [|x d _] using rev_ind; [cbn in H; lia|]. rewrite app_length in *. cbn [length] in *.
    unfold step at 2. change (same dotdot (tx ".")) with false. change (same dotdot (tx "..")) with true. cbn iota.
    rewrite removelast_last, IH by lia. rewrite firstn_app.
    replace (length d + 1 - S k)%nat with (length d - k)%nat by lia.
    rewrite (proj2 (Nat.sub_0_le (length d - k) (length d))) by lia. cbn [firstn]. now rewrite app_nil_r.
Qed.
Lemma fold_ordinary : forall l d, Forall ordinary l -> fold_left step l d = d ++ l.
Proof.
  induction l as [|n l IH]; intros d H; cbn [fold_left]; [now rewrite app_nil_r|].
  inversion H as [|x y (_ & H1 & H2) Hl]; subst. unfold step at 2. rewrite !same_false; [|exact H2|exact H1].
  rewrite IH by assumption. now rewrite <- app_assoc.
Qed.
Lemma names_ups : forall k s l, names s l -> names (concat (repeat (tx "../") k) ++ s) (repeat dotdot k ++ l).
Proof.
  induction k as [|k IH]; intros s l H; [exact H|]. cbn [repeat concat app].
  rewrite <- app_assoc. change (tx "../") with (dotdot ++ [47]). rewrite <- app_assoc. cbn [app].
  apply (N_name dotdot); [|now apply IH].
  split; [discriminate|]. repeat constructor; intro; cbn in *; lia.
Qed.
Lemma names_folders : forall l s r, Forall name l -> names s r ->
  names (concat (map (fun n => n ++ [47]) l) ++ s) (l ++ r).
Proof.
  induction l as [|n l IH]; intros s r H Hs; [exact Hs|]. inversion H; subst. cbn [map concat app].
  rewrite <- !app_assoc. cbn [app]. apply N_name; auto.
Qed.
Lemma ordinary_names : forall l, Forall ordinary l -> Forall name l.
Proof. intros l H. eapply Forall_impl; [|exact H]. intros x (Hx & _). exact Hx. Qed.

Lemma round_trip : forall a d f t, Forall ordinary d -> d <> [] -> Forall plain_char f ->
  Forall ordinary t -> t <> [] ->
  exists r, MakeRelative a (file_uri (base_of d f)) (path_of t) = Some r /\
    MakeAbsolute a (file_uri (base_of d f)) r = Some (path_of t).
Proof.
  intros a d f t Hd Hdn Hf Ht Htn.
  pose proof (ordinary_names _ Hd) as Hd'. pose proof (ordinary_names _ Ht) as Ht'.
  pose proof (fun c H => path_not_in t c Ht' H) as N.
  assert (Ep : exists r, path_of t = 47 :: r) by (destruct t; [congruence | eexists; reflexivity]).
  destruct Ep as (pr & Ep).
  assert (Rabs : MakeAbsolute a (file_uri (base_of d f)) (path_of t) = Some (path_of t)).
  { rewrite Ep in *. apply resolve_absolute; intro Hin; [apply (N 92) | apply (N 58) | apply (N 35)]; cbn; auto 10. }
  assert (Pabs : parse a (path_of t) = Some (file_uri (path_of t))).
  { rewrite Ep in *. apply parse_absolute; intro Hin; [apply (N 92) | apply (N 58) | apply (N 35)]; cbn; auto 10. }
  unfold MakeRelative. rewrite Rabs, Pabs. rewrite Ep. cbn iota. rewrite <- Ep.
  cbn [host file_uri same negb scheme path scheme_eqb andb].
  change (base_of d f) with (path_of d ++ 47 :: f) at 1.  rewrite (stack_folders d f Hd' Hf), (stack_names _ _ (names_path t Ht')).
  destruct d as [|d0 d']; [congruence|]. destruct t as [|t0 t']; [congruence|].
  destruct (same d0 t0) eqn:E0; [|exists (path_of (t0 :: t')); auto]. apply same_spec in E0. subst t0.
  set (d := d0 :: d') in *. set (t := d0 :: t') in *.
  set (m := common d (removelast t)).
  destruct (Nat.ltb_spec 0 m) as [Hm|Hm].
  2:{ rewrite replace_id by (apply N; cbn; auto). exists (path_of t). auto. }
  pose proof (common_spec d (removelast t)) as C. cbn zeta in C. fold m in C. destruct C as (C1 & C2 & C3).
  destruct (exists_last Htn) as (t1 & fn & Et). rewrite Et in *. rewrite removelast_last in *. rewrite last_last.
  apply Forall_app in Ht. destruct Ht as (Ht1 & Hfn). inversion Hfn as [|x y Hfn1 _]; subst x y.
  pose proof (ordinary_names _ Ht1) as Ht1'.
  set (rest := concat (map (fun s => s ++ [47]) (skipn m t1)) ++ fn).
  assert (Nrest : names rest (skipn m t1 ++ [fn])).
  { subst rest. apply names_folders.
    - rewrite <- (firstn_skipn m t1) in Ht1'. apply Forall_app in Ht1'. tauto.
    - apply N_last. apply Hfn1. }
  set (ups := (length d - m)%nat).
  set (pre := if (m <? length d)%nat then concat (repeat (tx "../") ups) else tx "./").
  assert (Npre : exists l, names (pre ++ rest) l /\ hd 0 (pre ++ rest) = 46 /\
            fold_left step l d = t1 ++ [fn]).
  { subst pre. destruct (Nat.ltb_spec m (length d)) as [L|L].
    - exists (repeat dotdot ups ++ skipn m t1 ++ [fn]). split; [now apply names_ups|]. split.
      + assert (exists k, ups = S k) as (k & ->) by (exists (ups - 1)%nat; lia). reflexivity.
      + rewrite fold_left_app, fold_ups by lia.
        replace (length d - ups)%nat with m by lia. rewrite C3.
        rewrite fold_ordinary.
        * rewrite app_assoc, firstn_skipn. reflexivity.
        * apply Forall_app. split; [|auto]. rewrite <- (firstn_skipn m t1) in Ht1. apply Forall_app in Ht1. tauto.
    - exists (dot :: skipn m t1 ++ [fn]). split; [|split; [reflexivity|]].
      + change (tx "./" ++ rest) with (dot ++ 47 :: rest). apply N_name; [|exact Nrest].
        split; [discriminate|]. repeat constructor. intro; cbn in *; lia.
      + cbn [fold_left]. change (step d dot) with d.
        assert (Em : m = length d) by lia. rewrite Em, firstn_all in C3.
        rewrite fold_ordinary.
        * rewrite C3 at 1. rewrite <- Em, app_assoc, firstn_skipn. reflexivity.
        * apply Forall_app. split; [|auto]. rewrite <- (firstn_skipn m t1) in Ht1. apply Forall_app in Ht1. tauto. }
  destruct Npre as (l & Nl & Hh & Fl).
  exists (pre ++ rest). split.
  - destruct (t1 ++ [fn]) eqn:E; [now destruct t1|]. f_equal. apply replace_id.
    eapply names_not_in; [exact Nl | cbn; auto].
  - rewrite <- Fl. apply resolve_relative; auto.
    + intro E. rewrite E in Hh. cbn in Hh. lia.
    + rewrite Hh. lia.
Qed.

(** *** Escape *)
Lemma append_keeps_head : forall junk b t r x, (2 <= length b)%nat -> str_append_c junk b t = Some r ->
  hd x b = 0 -> hd x r = 0 /\ (1 <= length r)%nat.
Proof.
  intros junk b t r x L E H. destruct b as [|c b]; [cbn in L; lia|]. cbn in H. subst c.
  unfold str_append_c, str_insert_c in E. destruct t as [|t0 t]; [injection E as <-; cbn; split; [auto | lia]|].
  cbn [npos_or] in E. set (n := str_length (0 :: b)) in *.
  assert (Hn : (1 <= n)%nat /\ (n <= length b)%nat).
  { subst n. unfold str_length. cbn [length] in *. destruct (Nat.ltb_spec 1 (S (length b))); lia. }
  rewrite Nat.min_id in E. rewrite Nat.ltb_irrefl in E.
  set (b1 := str_resize junk (0 :: b) (n + Nat.min (length (t0 :: t)) (length (t0 :: t)))) in E.
  assert (B1 : exists q, b1 = 0 :: q).
  { subst b1. unfold str_resize. cbn [app firstn length].
    set (k := (n + _)%nat).
    match goal with |- context[firstn k ?l] => set (z := firstn k l) end.
    assert (Hz : z <> []).
    { subst z. destruct k eqn:Ek; [subst k; cbn in Ek; lia|]. destruct b; [cbn in L; lia|]. discriminate. }
    destruct z; [congruence|]. cbn [removelast app]. eexists. reflexivity. }
  destruct B1 as (q & B1). unfold blit in E. rewrite B1 in E.
  destruct n as [|n]; [lia|]. cbn [firstn app] in E. unfold set_last in E.
  match type of E with Some (removelast (0 :: ?z) ++ [0]) = _ => destruct z end; injection E as <-; cbn; split; auto; try lia.
Qed.
Lemma escape_loop_empty : forall number junk rest e r, (1 <= length e)%nat -> hd 1 e = 0 ->
  escape_loop number junk rest e = Some r -> hd 1 r = 0 /\ (1 <= length r)%nat.
Proof.
  intros number junk. induction rest as [|c rest IH]; intros e r L H E; cbn [escape_loop] in E.
  - injection E as <-. auto.
  - set (e1 := if _ || _ then str_push_back e c else e) in E.
    assert (P : forall e x, (1 <= length e)%nat -> hd 1 e = 0 ->
       (2 <= length (str_push_back e x))%nat /\ hd 1 (str_push_back e x) = 0).
    { intros e' x L' H'. unfold str_push_back. rewrite app_length. cbn [length]. split; [lia|].
      destruct e'; [cbn in L'; lia | exact H']. }
    assert (E1 : (1 <= length e1)%nat /\ hd 1 e1 = 0).
    { subst e1. destruct (_ || _); [|auto]. destruct (P e c L H). split; [lia | auto]. }
    destruct E1 as (L1 & H1).
    destruct (if c =? 37 then _ else _) as [e2|] eqn:E2; [|discriminate].
    assert (Q : (1 <= length e2)%nat /\ hd 1 e2 = 0).
    { destruct (c =? 37); [|injection E2 as <-; auto]. destruct rest as [|n rest']; [discriminate|].
      injection E2 as <-. destruct (IsHex n); [|auto]. destruct (P e1 c L1 H1). split; [lia | auto]. }
    destruct Q as (L2 & H2). destruct (P e2 37 L2 H2) as (L3 & H3).
    destruct (str_append_c junk (str_push_back e2 37) (number c)) as [e3|] eqn:E3; [|discriminate].
    destruct (append_keeps_head _ _ _ _ 1 L3 E3 H3). eapply IH; eauto.
Qed.

(** *** Printing and parsing *)
Definition mark (c : Z) (s : list Z) : list Z := match s with [] => [] | _ => c :: s end.
Lemma find_first : forall c s r, ~ In c s -> find_char c (s ++ c :: r) 0 = Some (length s).
Proof. intros. unfold find_char. cbn [skipn]. now rewrite index_first. Qed.
Lemma find_mark : forall c s q, ~ In c s -> q <> [] -> find_char c (s ++ mark c q) 0 = Some (length s).
Proof. intros c s q H Hq. destruct q; [congruence|]. now apply find_first. Qed.
Lemma skip_pre : forall (a b : list Z), skipn (length a) (a ++ b) = b.
Proof. intros. rewrite skipn_app, skipn_all, Nat.sub_diag. reflexivity. Qed.
Lemma skip_pre1 : forall (a b : list Z) x, skipn (length a + 1) (a ++ x :: b) = b.
Proof. intros. rewrite skipn_app, skipn_all2 by lia. replace (length a + 1 - length a)%nat with 1%nat by lia. reflexivity. Qed.
Lemma first_pre : forall (a b : list Z), firstn (length a) (a ++ b) = a.
Proof. intros. rewrite firstn_app, firstn_all, Nat.sub_diag. apply app_nil_r. Qed.

Lemma path_is_file : forall t, Forall name t -> t <> [] -> IsFile (path_of t) = true /\ bar_to_colon (path_of t) = path_of t.
Proof.
  intros t H Hn. split.
  - destruct (exists_last Hn) as (t1 & n & ->). apply Forall_app in H. destruct H as (_ & H).
    inversion H as [|x y (Hne & Hc) _]; subst. unfold path_of. rewrite map_app, concat_app. cbn [map concat].
    rewrite app_nil_r. destruct (exists_last Hne) as (n1 & c & ->).
    unfold IsFile. rewrite app_length. cbn [length]. rewrite app_length. cbn [length].
    change (47 :: n1 ++ [c]) with ((47 :: n1) ++ [c]). rewrite app_assoc, last_last.
    apply Forall_app in Hc. destruct Hc as (_ & Hc). inversion Hc as [|x y Hc0 _]; subst.
    destruct (Z.eqb_spec c 47); [subst; exfalso; apply Hc0; cbn; auto|].
    apply andb_true_iff. split; [apply Nat.ltb_lt; lia | reflexivity].
  - assert (N : ~ In 124 (path_of t)) by (apply path_not_in; [exact H | cbn; auto 10]).
    unfold bar_to_colon.
    assert (A : forall i, (i < length (path_of t))%nat -> nth i (path_of t) 0 <> 124).
    { intros i Hi E. apply N. rewrite <- E. now apply nth_In. }
    destruct (Nat.ltb_spec 1 (length (path_of t))) as [L|L]; cbn [andb];
      [destruct (Z.eqb_spec (nth 1 (path_of t) 0) 124); [exfalso; now apply (A 1%nat)|]|];
    (destruct (Nat.ltb_spec 2 (length (path_of t))) as [L2|L2]; cbn [andb];
      [destruct (Z.eqb_spec (nth 2 (path_of t) 0) 124); [exfalso; now apply (A 2%nat)|]|]); reflexivity.
Qed.

Lemma parse_tail_spec : forall pre t q f sch dl h prt, Forall name t -> t <> [] ->
  ~ In 63 pre -> ~ In 35 pre -> ~ In 35 q -> ~ In 63 f -> (q = [] \/ f = []) ->
  parse_tail (pre ++ path_of t ++ mark 63 q ++ mark 35 f) sch dl h prt (length pre) =
  {| scheme := sch; delim := dl; host := h; port := prt; path := path_of t; query := q; fragment := f |}.
Proof.
  intros pre t q f sch dl h prt Ht Htn P1 P2 Q F QF.
  destruct (path_is_file t Ht Htn) as (I & B).
  assert (N63 : ~ In 63 (pre ++ path_of t)).
  { rewrite in_app_iff. intros [?|Hin]; [tauto|]. revert Hin. apply path_not_in; [exact Ht | cbn; auto 10]. }
  assert (N35 : ~ In 35 (pre ++ path_of t)).
  { rewrite in_app_iff. intros [?|Hin]; [tauto|]. revert Hin. apply path_not_in; [exact Ht | cbn; auto 10]. }
  unfold parse_tail. destruct QF as [-> | ->]; cbn [mark app].
  - destruct f as [|f0 f]; cbn [mark app].
    + rewrite app_nil_r, !find_none by assumption. rewrite skip_pre, B, I. reflexivity.
    + rewrite !app_assoc.
      rewrite (find_none 63) by (rewrite in_app_iff; intros [?|[?|Hin]]; [tauto | lia | exact (F Hin)]).
      rewrite (find_first 35) by assumption. rewrite skip_pre1, <- app_assoc.
      unfold substr. rewrite app_length.
      destruct (Z.ltb_spec (Z.of_nat (length pre + length (path_of t)) - Z.of_nat (length pre)) 0); [lia|].
      rewrite skip_pre.
      replace (Z.to_nat (Z.of_nat (length pre + length (path_of t)) - Z.of_nat (length pre)))
        with (length (path_of t)) by lia.
      rewrite first_pre, B, I. reflexivity.
  - rewrite app_nil_r. destruct q as [|q0 q]; cbn [mark app].
    + rewrite app_nil_r, !find_none by assumption. rewrite skip_pre, B, I. reflexivity.
    + rewrite !app_assoc.
      rewrite (find_none 35) by (rewrite in_app_iff; intros [?|[?|Hin]]; [tauto | lia | exact (Q Hin)]).
      rewrite (find_first 63) by assumption. rewrite skip_pre1, <- app_assoc.
      unfold substr. rewrite app_length.
      destruct (Z.ltb_spec (Z.of_nat (length pre + length (path_of t)) - Z.of_nat (length pre)) 0); [lia|].
      rewrite skip_pre.
      replace (Z.to_nat (Z.of_nat (length pre + length (path_of t)) - Z.of_nat (length pre)))
        with (length (path_of t)) by lia.
      rewrite first_pre, B, I. reflexivity.
Qed.

Definition scheme_text (s : scheme_t) : list Z :=
  match s with FILE => tx "file" | FTP => tx "ftp" | HTTP => tx "http" | HTTPS => tx "https" | NONE => [] end.
Lemma digits_plain : forall ds, Forall (fun c => digit c = true) ds -> Forall plain_char ds.
Proof.
  intros ds H. eapply Forall_impl; [|exact H]. intros c Hc Hin. cbn beta in Hc.
  apply digit_range in Hc. cbn in Hin. lia.
Qed.

Lemma print_parse : forall a sch h p t q f, sch <> NONE -> Forall plain_char h -> 0 <= p <= 2147483599 ->
  Forall name t -> t <> [] -> text q -> text f -> ~ In 92 q -> ~ In 35 q -> ~ In 92 f -> ~ In 63 f ->
  (q = [] \/ f = []) ->
  let x := {| scheme := sch; delim := tx "://"; host := h; port := p; path := path_of t; query := q; fragment := f |} in
  parse a (GetAbsoluteUri x) = Some x.
Proof.
  intros a sch h p t q f Hs Hh Hp Ht Htn _ _ Q92 Q35 F92 F63 QF x.
  set (auth := h ++ (if p =? 0 then [] else 58 :: append_u32 p)).
  assert (Pd : Forall plain_char (append_u32 p)).
  { apply digits_plain. apply dec_spec. lia. }
  assert (Aauth : forall c, In c [92; 47; 63; 35; 124] -> ~ In c auth).
  { intros c Hc. subst auth. rewrite in_app_iff. intros [Hin|Hin].
    - revert Hin. apply plain_not_in; [exact Hh | cbn in *; tauto].
    - destruct (p =? 0); [destruct Hin|]. destruct Hin as [<-|Hin]; [cbn in Hc; lia|].
      revert Hin. apply plain_not_in; [exact Pd | cbn in *; tauto]. }
  set (st := scheme_text sch).
  assert (St : ~ In 58 st /\ ~ In 92 st /\ ~ In 63 st /\ ~ In 35 st /\ (1 < length st)%nat /\ scheme_named st = sch /\ st <> []).
  { subst st. destruct sch; [congruence| | | |]; (split; [|split; [|split; [|split; [|split; [|split]]]]]);
      try (cbn; lia); try reflexivity; discriminate. }
  destruct St as (S58 & S92 & S63 & S35 & Sl & Sn & Sne).
  set (qf := mark 63 q ++ mark 35 f).
  assert (G : GetAbsoluteUri x = (st ++ tx "://" ++ auth) ++ path_of t ++ qf).
  { unfold GetAbsoluteUri, x, GetAuthority. cbn [scheme delim host port path query fragment]. fold auth.
    unfold qf, mark. rewrite <- !app_assoc. reflexivity. }
  set (pre := st ++ tx "://" ++ auth) in *.
  assert (Path47 : exists r, path_of t = 47 :: r) by (destruct t; [congruence | eexists; reflexivity]).
  destruct Path47 as (pr & Epath).
  rewrite G. clear G. unfold parse.
  destruct (pre ++ path_of t ++ qf) as [|u0 u'] eqn:Eu.
  { subst pre. destruct st; [congruence | discriminate]. }
  rewrite <- Eu. clear Eu u0 u'.
  assert (NQ : forall c, In c [92] -> ~ In c qf).
  { intros c [<-|[]]. subst qf. rewrite in_app_iff. unfold mark. intros [Hin|Hin].
    - destruct q; [destruct Hin|]. destruct Hin as [|Hin]; [lia | tauto].
    - destruct f; [destruct Hin|]. destruct Hin as [|Hin]; [lia | tauto]. }
  rewrite replace_id.
  2:{ rewrite !in_app_iff. subst pre. rewrite !in_app_iff. intros [[?|[Hin|Hin]]|[Hin|Hin]].
      - tauto.
      - cbn in Hin. lia.
      - revert Hin. apply Aauth. cbn. auto.
      - revert Hin. apply path_not_in; [exact Ht | cbn; auto].
      - revert Hin. apply NQ. cbn. auto. }
  set (u := pre ++ path_of t ++ qf).
  assert (U1 : u = st ++ 58 :: 47 :: 47 :: auth ++ path_of t ++ qf).
  { subst u pre. rewrite <- !app_assoc. reflexivity. }
  rewrite U1, find_first by exact S58. rewrite <- U1.
  destruct (Nat.ltb_spec 1 (length st)); [|lia].
  replace (firstn (length st) u) with st by (rewrite U1; now rewrite first_pre).
  rewrite Sn.
  replace (firstn 3 (skipn (length st) u)) with (tx "://") by (rewrite U1, skip_pre; reflexivity).
  destruct (scheme_eqb sch NONE) eqn:E; [destruct sch; [congruence | discriminate ..]|]. clear E.
  assert (U2 : u = (st ++ tx "://") ++ auth ++ path_of t ++ qf).
  { subst u pre. rewrite <- !app_assoc. reflexivity. }
  assert (L3 : length (st ++ tx "://") = (length st + 3)%nat) by (rewrite app_length; reflexivity).
  assert (Fh : find_char 47 u (length st + 3) = Some (length pre)).
  { unfold find_char. rewrite U2, <- L3, skip_pre, Epath. cbn [app].
    rewrite index_first by (apply Aauth; cbn; auto). cbn [option_map]. f_equal.
    subst pre. rewrite app_assoc. now rewrite (app_length (st ++ tx "://")). }
  rewrite Fh.
  assert (Lpre : length pre = (length st + 3 + length auth)%nat).
  { subst pre. rewrite !app_length. cbn [length tx]. change (length (tx "://")) with 3%nat. lia. }
  assert (Tail : forall h' p', parse_tail u sch (tx "://") h' p' (length pre) =
     {| scheme := sch; delim := tx "://"; host := h'; port := p'; path := path_of t; query := q; fragment := f |}).
  { intros h' p'. apply parse_tail_spec; auto.
    - subst pre. rewrite !in_app_iff. intros [?|[Hin|Hin]]; [tauto | cbn in Hin; lia | revert Hin; apply Aauth; cbn; auto 10].
    - subst pre. rewrite !in_app_iff. intros [?|[Hin|Hin]]; [tauto | cbn in Hin; lia | revert Hin; apply Aauth; cbn; auto 10]. }
  destruct (Nat.ltb_spec (length st + 3) (length pre)) as [Ha|Ha].
  - (* there is an authority *)
    unfold parse_host.
    replace (firstn (length pre - (length st + 3)) (skipn (length st + 3) u)) with auth.
    2:{ rewrite U2, <- L3, skip_pre. replace (length pre - length (st ++ tx "://"))%nat with (length auth) by lia.
        now rewrite first_pre. }
    assert (Fp : match find_char 58 auth 0 with
         | Some i => match ToInt32 a (skipn (i + 1) auth) with
                     | Some (v, _) => Some (u32 v, firstn i auth)
                     | None => None
                     end
         | None => Some (0, auth)
         end = Some (p, h)).
    { assert (H58 : ~ In 58 h) by (apply plain_not_in; [exact Hh | cbn; auto]).
      subst auth. destruct (Z.eqb_spec p 0) as [->|Hp0].
      - rewrite app_nil_r, find_none by exact H58. reflexivity.
      - rewrite find_first by exact H58. rewrite skip_pre1, first_pre.
        pose proof (to_int32_spec a [] p []) as R. cbn [app] in R. rewrite app_nil_r in R.
        assert (append_i32 p = append_u32 p) as R'.
        { unfold append_i32. destruct (Z.ltb_spec p 0); [lia | reflexivity]. }
        rewrite R' in R. rewrite R; [| constructor | cbn; auto | lia | lia].
        unfold u32. rewrite Z.mod_small by lia. reflexivity. }
    rewrite Fp.
    assert (N1 : nth (length pre + 1) u 0 =? 47 = false).
    { apply Z.eqb_neq. subst u. rewrite app_nth2 by lia.
      replace (length pre + 1 - length pre)%nat with 1%nat by lia.
      destruct t as [|n t]; [congruence|]. apply Forall_inv in Ht. destruct Ht as (Hn1 & Hn2).
      destruct n as [|c n]; [congruence|]. apply Forall_inv in Hn2. rename Hn2 into Hc.
      unfold path_of. cbn. intros ->. apply Hc. cbn. auto. }
    rewrite N1, andb_false_r.
    assert (N2 : (1 <? length h)%nat && ((nth 1 h 0 =? 58) || (nth 1 h 0 =? 124)) = false).
    { destruct (Nat.ltb_spec 1 (length h)) as [Lh|]; [|reflexivity]. cbn [andb].
      pose proof (nth_In h 0 Lh) as Hin.
      apply orb_false_iff. split; apply Z.eqb_neq; intro E; rewrite E in Hin; revert Hin;
        apply plain_not_in; try exact Hh; cbn; auto 10. }
    rewrite N2, Tail. reflexivity.
  - rewrite Tail. assert (auth = []) by (apply length_zero_iff_nil; lia).
    subst auth. apply app_eq_nil in H0. destruct H0 as (-> & E).
    destruct (Z.eqb_spec p 0) as [->|]; [reflexivity | discriminate].
Qed.
