(** Lemmas about the floating point text conversions. *)
From Coq Require Import List ZArith Bool QArith Qabs Qround Lia Lqa.
From Verif Require Import TextModel TextSpec TextProofs FloatModel FloatSpec.
Import ListNotations.
Local Open Scope Z_scope.

Lemma digits_bool : forall ds, Forall is_digit ds -> Forall (fun c => digit c = true) ds.
Proof. intros ds. apply Forall_impl. intros c H. now apply digit_range. Qed.
Lemma bool_digits : forall ds, Forall (fun c => digit c = true) ds -> Forall is_digit ds.
Proof. intros ds. apply Forall_impl. intros c H. now apply digit_range. Qed.
Lemma ws4_iff : forall c, ws4 c = true <-> blank_or_cr c.
Proof. intro c. unfold ws4, blank_or_cr, blank. rewrite !orb_true_iff, !Z.eqb_eq. tauto. Qed.
Lemma ws3_iff : forall c, ws3 c = true <-> blank c.
Proof. intro c. unfold ws3, blank. rewrite !orb_true_iff, !Z.eqb_eq. tauto. Qed.

(** *** The accumulators *)
Definition accv (v : Q) (ds : list Z) : Q := fold_left (fun v c => v * 10 + inject_Z (c - 48))%Q ds v.
Definition accd (d : Q) (ds : list Z) : Q := fold_left (fun d _ => d * 10)%Q ds d.

Lemma num_digits : forall a ds v d t, Forall (fun c => digit c = true) ds ->
  num_loop a v d (ds ++ t) = num_loop a (accv v ds) (accd d ds) t.
Proof.
  induction ds as [|c ds IH]; intros v d t H; [reflexivity|]. inversion H; subst.
  cbn [app num_loop]. rewrite H2. pose proof (proj1 (digit_range c) H2).
  rewrite (proj2 (Z.eqb_neq c 46)) by lia. rewrite IH by auto. reflexivity.
Qed.

Lemma accv_value : forall ds q v, (q == inject_Z v)%Q -> (accv q ds == inject_Z (value_from v ds))%Q.
Proof.
  induction ds as [|c ds IH]; intros q v H; [exact H|]. cbn [accv fold_left value_from].
  apply IH. rewrite H. rewrite inject_Z_plus, inject_Z_mult. reflexivity.
Qed.
Lemma pow_succ : forall n, 10 ^ Z.of_nat (S n) = 10 * 10 ^ Z.of_nat n.
Proof. intro n. rewrite Nat2Z.inj_succ, Z.pow_succ_r by lia. reflexivity. Qed.
Lemma accd_value : forall ds d, (accd d ds == d * inject_Z (10 ^ Z.of_nat (length ds)))%Q.
Proof.
  induction ds as [|c ds IH]; intro d.
  - cbn. ring.
  - cbn [accd fold_left length]. fold (accd (d * 10) ds). rewrite IH.
    rewrite pow_succ, inject_Z_mult. change (inject_Z 10) with 10%Q. ring.
Qed.
Lemma accv_app : forall a b v, accv v (a ++ b) = accv (accv v a) b.
Proof. intros. unfold accv. apply fold_left_app. Qed.

(** *** The exponent *)
Lemma to_int32_digits : forall a sg xs tail, (sg = [] \/ sg = [45]) ->
  Forall (fun c => digit c = true) xs -> xs <> [] -> stops digit tail -> value_from 0 xs <= 2147483599 ->
  ToInt32 a (sg ++ xs ++ tail) =
    Some (if match sg with [] => true | _ => false end then value_from 0 xs else - value_from 0 xs, after tail).
Proof.
  intros a sg xs tail Hsg Hd Hne Hs Hb. unfold ToInt32.
  destruct xs as [|c xs]; [congruence|]. inversion Hd; subst.
  pose proof (proj1 (digit_range c) H1) as Hc. pose proof (digit_not_ws c H1) as (Hw & _).
  pose proof (value_mono (c :: xs) 0 Hd ltac:(lia)) as Hpos.
  assert (Hdig : int_digits a 0 ((c :: xs) ++ tail) = Some (value_from 0 (c :: xs), tail)).
  { destruct a.
    - apply int_digits_strict; auto; lia.
    - change 0 with (s32 0) at 1. rewrite int_digits_wrap by auto. rewrite s32_id by lia. reflexivity. }
  assert (Hn : forall z, -2147483648 <= z <= 2147483647 -> norm a z = Some z).
  { intros z Hz. destruct a; [now apply norm_strict|]. cbn. now rewrite s32_id. }
  destruct Hsg as [-> | ->].
  - cbn [app skip_while]. rewrite Hw. rewrite (proj2 (Z.eqb_neq c 45)) by lia.
    change (c :: xs ++ tail) with ((c :: xs) ++ tail). rewrite Hdig. rewrite Hn by lia.
    rewrite Z.mul_1_r. reflexivity.
  - cbn [app skip_while]. change (ws4 45) with false. cbn iota. change (45 =? 45) with true. cbn iota.
    change (c :: xs ++ tail) with ((c :: xs) ++ tail). rewrite Hdig. rewrite Hn by lia.
    replace (value_from 0 (c :: xs) * -1) with (- value_from 0 (c :: xs)) by lia. reflexivity.
Qed.

(** Where the pointer is after the exponent. *)
Definition next (s : list Z) : list Z := skip_while ws4 (skip_while (fun c => negb (ws4 c)) s).

Lemma back_one_app : forall u c rest, back_one (u ++ c :: rest) rest = c :: rest.
Proof.
  intros u c rest. unfold back_one. rewrite app_length. cbn [length].
  replace (length u + S (length rest) - S (length rest))%nat with (length u) by lia.
  rewrite skipn_app, skipn_all2 by lia. now rewrite Nat.sub_diag.
Qed.

Lemma next_blanks : forall sep rest, Forall (fun c => ws4 c = true) sep -> stops ws4 rest ->
  (sep = [] -> rest = []) -> next (sep ++ rest) = rest.
Proof.
  intros sep rest Hs Hr He. unfold next. destruct sep as [|c sep].
  - rewrite He by auto. reflexivity.
  - inversion Hs; subst. cbn [app]. rewrite (skip_stop _ (c :: sep ++ rest)) by (cbn; now rewrite H1).
    change (c :: sep ++ rest) with ((c :: sep) ++ rest). rewrite skip_app by auto. now apply skip_stop.
Qed.

Lemma skip_all : forall p s, Forall (fun c => p c = true) s -> skip_while p s = [].
Proof. induction 1 as [|c s H _ IH]; cbn; auto. now rewrite H. Qed.

Lemma skip_ws3_split : forall rest, stops ws4 rest -> forall sep c, ws3 c = true ->
  exists s1 c' s2, c :: sep = s1 ++ c' :: s2 /\ skip_while ws3 (c :: sep ++ rest) = s2 ++ rest.
Proof.
  intros rest Hr. induction sep as [|d sep IH]; intros c Hc.
  - exists [], c, []. split; auto. cbn. rewrite Hc. apply skip_stop.
    destruct rest as [|e rest]; cbn in *; auto. destruct (ws3 e) eqn:E; auto.
    apply ws3_ws4 in E. congruence.
  - cbn [app skip_while]. rewrite Hc. destruct (ws3 d) eqn:Ed.
    + destruct (IH d Ed) as (s1 & c' & s2 & E1 & E2). exists (c :: s1), c', s2.
      split; [cbn; congruence|]. cbn [skip_while] in E2. rewrite Ed in E2. exact E2.
    + exists [], c, (d :: sep). split; auto.
Qed.
(** The text after the exponent digits: [sep] has a real blank. *)
Lemma after_split : forall sep rest, stops ws4 rest -> existsb ws3 sep = true ->
  exists s1 c s2, sep = s1 ++ c :: s2 /\ after (sep ++ rest) = s2 ++ rest.
Proof.
  intros sep rest Hr. unfold after. induction sep as [|c sep IH]; intro He; [discriminate|].
  cbn [existsb] in He. cbn [app]. destruct (ws3 c) eqn:Ec.
  - rewrite (skip_stop _ (c :: sep ++ rest)) by (cbn; now rewrite Ec). now apply skip_ws3_split.
  - destruct (IH He) as (s1 & c' & s2 & E1 & E2). exists (c :: s1), c', s2.
    split; [cbn; congruence|]. cbn [skip_while]. rewrite Ec. exact E2.
Qed.

Lemma next_exponent : forall pre sep rest, Forall (fun c => ws4 c = true) sep -> stops ws4 rest ->
  (rest = [] \/ Exists (fun c => ws3 c = true) sep) ->
  pre <> [] -> Forall (fun c => ws4 c = false) pre ->
  next (back_one (pre ++ sep ++ rest) (after (sep ++ rest))) = rest.
Proof.
  intros pre sep rest Hs Hr He Hne Hp.
  destruct (existsb ws3 sep) eqn:E.
  - destruct (after_split sep rest Hr E) as (s1 & c & s2 & E1 & E2). rewrite E2. subst sep.
    replace (pre ++ (s1 ++ c :: s2) ++ rest) with ((pre ++ s1) ++ c :: (s2 ++ rest))
      by (rewrite <- !app_assoc; reflexivity).
    rewrite back_one_app. apply Forall_app in Hs as (_ & Hs).
    change (c :: s2 ++ rest) with ((c :: s2) ++ rest). apply next_blanks; auto. discriminate.
  - destruct He as [-> |He].
    2:{ apply Exists_exists, existsb_exists in He. congruence. }
    rewrite !app_nil_r.
    assert (A : after sep = []).
    { unfold after. rewrite (skip_all (fun c => negb (ws3 c))); [reflexivity|].
      clear -E. induction sep as [|c sep IH]; [constructor|].
      cbn in E. apply orb_false_iff in E as (E1 & E2). constructor; [now rewrite E1|auto]. }
    rewrite A. clear -Hs Hne Hp.
    destruct (exists_last (l := pre ++ sep)) as (u & c & E); [destruct pre; [congruence|discriminate]|].
    rewrite E. rewrite back_one_app. unfold next. cbn [skip_while].
    destruct (ws4 c) eqn:Ec; cbn [negb skip_while]; [now rewrite Ec|reflexivity].
Qed.

(** *** make_value *)
Lemma pow10_pos : forall n, (0 < inject_Z (10 ^ Z.of_nat n))%Q.
Proof. intro n. change 0%Q with (inject_Z 0). rewrite <- Zlt_Qlt. apply Z.pow_pos_nonneg; lia. Qed.

Lemma make_value_spec : forall v s d x v' d', (v == v')%Q -> (d == d')%Q -> (0 < d')%Q ->
  (make_value v s d x == s * (v' / d') * Qpower 10 x)%Q.
Proof.
  intros v s d x v' d' Hv Hd Hp. unfold make_value.
  destruct (Qeq_bool d 0) eqn:E.
  - apply Qeq_bool_iff in E. rewrite <- Hd, E in Hp. lra.
  - assert (Hn : ~ d' == 0) by lra. destruct (Z.eqb_spec x 0) as [-> |Hx].
    + rewrite Hv, Hd. change (Qpower 10 0) with 1%Q. field. auto.
    + rewrite Hv, Hd. field. auto.
Qed.
Lemma make_value_zero : forall v s d x v', (v == v')%Q -> (d == 0)%Q ->
  (make_value v s d x == s * v' * Qpower 10 x)%Q.
Proof.
  intros v s d x v' Hv Hd. unfold make_value. apply Qeq_bool_iff in Hd. rewrite Hd.
  destruct (Z.eqb_spec x 0) as [-> |Hx]; rewrite Hv; [change (Qpower 10 0) with 1%Q|]; field.
Qed.

(** *** Reading a mantissa and an exponent *)
Lemma digit_spec_not_ws : forall c, is_digit c -> ws4 c = false.
Proof. intros c H. apply digit_range in H. now apply digit_not_ws in H. Qed.

(** Reading the exponent part: [body] is what precedes it inside the word. *)
Lemma exponent_loop : forall a tx x v d sep rest, exponent tx x ->
  Forall (fun c => ws4 c = true) sep -> stops ws4 rest ->
  (rest = [] \/ Exists (fun c => ws3 c = true) sep) ->
  exists s, num_loop a v d (tx ++ sep ++ rest) = Some (v, d, x, false, s) /\ next s = rest.
Proof.
  intros a tx x v d sep rest Hx Hs Hr He.
  assert (Hst : stops digit (sep ++ rest)).
  { destruct sep as [|c sep].
    - destruct He as [-> |He]; [exact I|inversion He].
    - cbn. inversion Hs; subst. destruct (digit c) eqn:E; auto. apply digit_not_ws in E. destruct E; congruence. }
  assert (G : forall c sg xs, c = 101 \/ c = 69 -> (sg = [] \/ sg = [45]) -> Forall is_digit xs -> xs <> [] ->
    number xs <= 2147483599 ->
    exists s, num_loop a v d ((c :: sg ++ xs) ++ sep ++ rest) =
      Some (v, d, if match sg with [] => true | _ => false end then number xs else - number xs, false, s)
      /\ next s = rest).
  { intros c sg xs Hc Hsg Hd Hne Hb.
    exists (back_one ((c :: sg ++ xs) ++ sep ++ rest) (after (sep ++ rest))). split.
    - cbn [app num_loop]. rewrite (proj2 (Z.eqb_neq c 46)) by lia.
      assert (E1 : digit c = false) by (destruct Hc; subst; reflexivity). rewrite E1.
      assert (E2 : (c =? 101) || (c =? 69) = true) by (destruct Hc; subst; reflexivity). rewrite E2.
      rewrite <- app_assoc.
      rewrite (to_int32_digits a sg xs (sep ++ rest) Hsg (digits_bool _ Hd) Hne Hst Hb). reflexivity.
    - apply next_exponent; auto; [discriminate|].
      constructor; [destruct Hc; subst; reflexivity|]. apply Forall_app. split.
      + destruct Hsg as [-> | ->]; repeat constructor.
      + revert Hd. apply Forall_impl. apply digit_spec_not_ws. }
  destruct Hx as [|c xs Hc Hd Hne Hb|c xs Hc Hd Hne Hb].
  - cbn [app]. exists (sep ++ rest). split.
    + destruct (sep ++ rest) as [|c t] eqn:E; [reflexivity|].
      assert (Hc : ws4 c = true).
      { destruct sep as [|c' sep].
        - cbn in E. destruct He as [-> |He]; [discriminate|inversion He].
        - cbn in E. injection E as -> _. now inversion Hs. }
      cbn [num_loop]. cbn in Hst. rewrite Hst. unfold ws4 in Hc.
      rewrite !orb_true_iff, !Z.eqb_eq in Hc.
      assert (c <> 46 /\ c <> 101 /\ c <> 69 /\ c <> 73) as (N1 & N2 & N3 & N4) by lia.
      rewrite (proj2 (Z.eqb_neq c 46)), (proj2 (Z.eqb_neq c 101)), (proj2 (Z.eqb_neq c 69)),
        (proj2 (Z.eqb_neq c 73)) by auto. reflexivity.
    + apply next_blanks; auto. intros ->. destruct He as [|He]; [auto|inversion He].
  - apply (G c [] xs); auto.
  - apply (G c [45] xs); auto.
Qed.

Lemma to_float_body : forall a tm m tx x sg s sep rest,
  mantissa tm m -> exponent tx x ->
  (s = 1%Q /\ sg = [] \/ s = (-1)%Q /\ sg = [45]) ->
  Forall (fun c => ws4 c = true) sep -> stops ws4 rest ->
  (rest = [] \/ Exists (fun c => ws3 c = true) sep) ->
  forall lead, Forall (fun c => ws4 c = true) lead ->
  exists r, ToFloat a (lead ++ (sg ++ tm ++ tx) ++ sep ++ rest) = Some (r, rest) /\
    (r == s * m * Qpower 10 x)%Q.
Proof.
  intros a tm m tx x sg s sep rest Hm Hx Hsg Hs Hr He lead Hl.
  (* the first character of the mantissa *)
  assert (Hhd : exists c t, tm = c :: t /\ (is_digit c \/ c = 46)).
  { destruct Hm as [ds Hd Hne|ds fs Hd Hf].
    - destruct ds as [|c ds]; [congruence|]. inversion Hd; subst. eauto.
    - destruct ds as [|c ds]; [exists 46, fs; auto|]. inversion Hd; subst. exists c, (ds ++ [46] ++ fs). auto. }
  destruct Hhd as (c0 & t0 & Etm & Hc0).
  assert (Hc0n : ws4 c0 = false /\ c0 <> 45).
  { destruct Hc0 as [H| ->]; [split; [now apply digit_spec_not_ws|unfold is_digit in H; lia]|now split]. }
  assert (Hne : lead ++ (sg ++ tm ++ tx) ++ sep ++ rest <> []).
  { rewrite Etm. destruct lead, sg; discriminate. }
  destruct (exponent_loop a tx x) with (v := 0%Q) (d := 0%Q) (sep := sep) (rest := rest) as (s0 & _ & _); auto.
  assert (Hloop : exists v d s', num_loop a 0 0 (tm ++ tx ++ sep ++ rest) = Some (v, d, x, false, s') /\
    next s' = rest /\ forall sq, (make_value v sq d x == sq * m * Qpower 10 x)%Q).
  { destruct Hm as [ds Hd Hne'|ds fs Hd Hf].
    - rewrite num_digits by (now apply digits_bool).
      destruct (exponent_loop a tx x (accv 0 ds) (accd 0 ds) sep rest) as (s' & E & Hn); auto.
      exists (accv 0 ds), (accd 0 ds), s'. split; [exact E|]. split; [exact Hn|].
      intro sq. apply make_value_zero.
      + apply accv_value. reflexivity.
      + rewrite accd_value. ring.
    - rewrite <- !app_assoc. rewrite num_digits by (now apply digits_bool).
      cbn [app num_loop]. change (46 =? 46) with true. cbn iota.
      rewrite num_digits by (now apply digits_bool).
      destruct (exponent_loop a tx x (accv (accv 0 ds) fs) (accd 1 fs) sep rest) as (s' & E & Hn); auto.
      exists (accv (accv 0 ds) fs), (accd 1 fs), s'. split; [exact E|]. split; [exact Hn|].
      intro sq. apply make_value_spec.
      + rewrite <- accv_app. apply accv_value. reflexivity.
      + rewrite accd_value. ring.
      + apply pow10_pos. }
  destruct Hloop as (v & d & s' & E & Hn & Hv).
  exists (make_value v s d x). split; [|apply Hv].
  assert (G : ToFloat a (lead ++ (sg ++ tm ++ tx) ++ sep ++ rest) =
    match num_loop a 0 0 (tm ++ tx ++ sep ++ rest) with
    | None => None
    | Some (val, decimals, exponent, infinity, s1) =>
        match (if infinity : bool then test_inf s1 else Some s1) with
        | None => None
        | Some s1 => Some (make_value val s decimals exponent, next s1)
        end
    end).
  { unfold ToFloat. destruct (lead ++ (sg ++ tm ++ tx) ++ sep ++ rest) eqn:El; [congruence|].
    rewrite <- El. rewrite skip_app by auto.
    rewrite <- !app_assoc.
    destruct Hsg as [(-> & ->)|(-> & ->)].
    - cbn [app]. rewrite Etm. cbn [app]. rewrite skip_stop by (cbn; apply Hc0n).
      rewrite (proj2 (Z.eqb_neq c0 45)) by apply Hc0n. reflexivity.
    - cbn [app]. rewrite skip_stop by reflexivity. reflexivity. }
  rewrite G, E. now rewrite Hn.
Qed.

Lemma to_float_spec : forall a lead t q sep rest, Forall (fun c => ws4 c = true) lead -> float_text t q ->
  separator sep rest ->
  exists r, ToFloat a (lead ++ t ++ sep ++ rest) = Some (r, rest) /\ (r == q)%Q.
Proof.
  intros a lead t q sep rest Hl Ht (Hs & He & Hr).
  assert (Hs' : Forall (fun c => ws4 c = true) sep)
    by (revert Hs; apply Forall_impl; intro c; apply ws4_iff).
  assert (He' : rest = [] \/ Exists (fun c => ws3 c = true) sep).
  { destruct He as [|He]; auto. right. revert He. apply Exists_impl. intro c; apply ws3_iff. }
  assert (Hr' : stops ws4 rest).
  { destruct rest as [|c rest]; cbn in *; auto. destruct (ws4 c) eqn:E; auto. apply ws4_iff in E. contradiction. }
  destruct Ht as [tm m tx x Hm Hx|tm m tx x Hm Hx].
  - destruct (to_float_body a tm m tx x [] 1%Q sep rest Hm Hx ltac:(auto) Hs' Hr' He' lead Hl) as (r & E & Hq).
    exists r. split; [exact E|]. rewrite Hq. ring.
  - destruct (to_float_body a tm m tx x [45] (-1)%Q sep rest Hm Hx ltac:(auto) Hs' Hr' He' lead Hl) as (r & E & Hq).
    exists r. split; [exact E|]. rewrite Hq. ring.
Qed.
