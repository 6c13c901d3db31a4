(** Lemmas for loading channels. *)
From Coq Require Import String List ZArith NArith QArith Qabs Bool Lia.
From Verif Require Import TextModel TextSpec TextProofs StringModel StringProofs FloatModel FloatSpec DaeModel DaeSpec DaeProofs RigModel RigSpec RigTextProofs RigProofs CrcModel
  EnumModel AnimModel AnimSpec AnimReadProofs.
Import ListNotations.
Local Open Scope nat_scope.
Local Open Scope list_scope.

(** *** The inputs of a sampler *)
Definition hit (semantic : string) (n : xml) : bool := text_eq (ReadNodeProperty n "semantic") (tx semantic).
Definition pick {A} (g : xml -> A) (semantic : string) (ins : list xml) (x : A) : A := fold_left (fun x n => if hit semantic n then g n else x) ins x.
Definition source_of (scopes : list (list xml)) (n : xml) : option xml := FindChildByIdFCDAnimation scopes (ReadNodeProperty n "source").
Lemma sampler_input_eq scopes f n : sampler_input scopes f n =
  Found (if hit "INPUT" n then source_of scopes n else f_in f) (if hit "OUTPUT" n then source_of scopes n else f_out f)
    (if hit "IN_TANGENT" n then source_of scopes n else f_itan f) (if hit "OUT_TANGENT" n then source_of scopes n else f_otan f)
    (if hit "TCB" n then source_of scopes n else f_tcb f) (if hit "EASE_IN_OUT" n then source_of scopes n else f_ease f)
    (if hit "INTERPOLATION" n then source_of scopes n else f_interp f) (if hit "DRIVER" n then ReadNodeProperty n "source" else f_driver f).
Proof.
  unfold sampler_input, hit, source_of. cbv zeta. destruct f as [a b c d e g h i]. cbn [f_in f_out f_itan f_otan f_tcb f_ease f_interp f_driver].
  generalize (ReadNodeProperty n "semantic"). intro t.
  generalize (FindChildByIdFCDAnimation scopes (ReadNodeProperty n "source")) (ReadNodeProperty n "source"). intros o p.
  destruct (text_eq t (tx "INPUT")) eqn:E1; [apply text_eq_spec in E1; subst t; reflexivity|].
  destruct (text_eq t (tx "OUTPUT")) eqn:E2; [apply text_eq_spec in E2; subst t; reflexivity|].
  destruct (text_eq t (tx "IN_TANGENT")) eqn:E3; [apply text_eq_spec in E3; subst t; reflexivity|].
  destruct (text_eq t (tx "OUT_TANGENT")) eqn:E4; [apply text_eq_spec in E4; subst t; reflexivity|].
  destruct (text_eq t (tx "TCB")) eqn:E5; [apply text_eq_spec in E5; subst t; reflexivity|].
  destruct (text_eq t (tx "EASE_IN_OUT")) eqn:E6; [apply text_eq_spec in E6; subst t; reflexivity|].
  destruct (text_eq t (tx "INTERPOLATION")) eqn:E7; [apply text_eq_spec in E7; subst t; reflexivity|].
  destruct (text_eq t (tx "DRIVER")); reflexivity.
Qed.
Lemma fold_found scopes : forall ins f, fold_left (sampler_input scopes) ins f =
  Found (pick (source_of scopes) "INPUT" ins (f_in f)) (pick (source_of scopes) "OUTPUT" ins (f_out f))
    (pick (source_of scopes) "IN_TANGENT" ins (f_itan f)) (pick (source_of scopes) "OUT_TANGENT" ins (f_otan f))
    (pick (source_of scopes) "TCB" ins (f_tcb f)) (pick (source_of scopes) "EASE_IN_OUT" ins (f_ease f))
    (pick (source_of scopes) "INTERPOLATION" ins (f_interp f)) (pick (fun n => ReadNodeProperty n "source") "DRIVER" ins (f_driver f)).
Proof.
  induction ins as [|n ins IH]; intro f; [destruct f; reflexivity|]. cbn [fold_left]. rewrite IH, sampler_input_eq. reflexivity.
Qed.
Lemma pick_none {A} (g : xml -> A) sem : forall ins x, (forall i v, In i ins -> has_attr i "semantic" v -> plain v) -> plain (tx sem) -> tx sem <> [] ->
  Forall (fun i => ~ has_attr i "semantic" (tx sem)) ins -> pick g sem ins x = x.
Proof.
  induction ins as [|n ins IH]; intros x Hp Hs Hne H; [reflexivity|]. inversion H as [|? ? H1 H2]; subst. cbn [pick fold_left].
  assert (E : hit sem n = false).
  { unfold hit. apply not_true_is_false. intro E. apply text_eq_spec in E. destruct (read_attr_has _ _ _ E Hne) as (w & Hw & Ew).
    rewrite (plain_same w (Hp n w (or_introl eq_refl) Hw)) in Ew. subst w. contradiction. }
  rewrite E. apply IH; auto. intros i v Hi. apply Hp. now right.
Qed.
Lemma pick_some {A} (g : xml -> A) sem ins x i l r : (forall i v, In i ins -> has_attr i "semantic" v -> plain v) -> plain (tx sem) -> tx sem <> [] ->
  ins = l ++ i :: r -> has_attr i "semantic" (tx sem) -> Forall (fun i => ~ has_attr i "semantic" (tx sem)) (l ++ r) -> pick g sem ins x = g i.
Proof.
  intros Hp Hs Hne -> Hi H. apply Forall_app in H as (H1 & H2). unfold pick. rewrite fold_left_app. cbn [fold_left].
  unfold hit at 2. rewrite (has_attr_plain _ _ _ Hi Hs), text_eq_refl. apply (pick_none g sem r (g i)); auto.
  intros j v Hj. apply Hp. apply in_or_app. right. now right.
Qed.
Lemma semantics_plain k : In k ["INPUT"; "OUTPUT"; "IN_TANGENT"; "OUT_TANGENT"; "TCB"; "EASE_IN_OUT"; "INTERPOLATION"; "DRIVER"]%string -> plain (tx k) /\ tx k <> [].
Proof.
  cbn [In]. intro H. repeat (destruct H as [<- | H]; [split; [|discriminate]; cbn; split; [repeat (apply Forall_cons; [lia|]); apply Forall_nil|cbn; intuition discriminate]|]). destruct H.
Qed.
Lemma pick_sampled scopes ins sem {A} (P : xml -> A -> Prop) x : (forall i v, In i ins -> has_attr i "semantic" v -> plain v) ->
  In sem ["INPUT"; "OUTPUT"; "IN_TANGENT"; "OUT_TANGENT"; "TCB"; "EASE_IN_OUT"; "INTERPOLATION"; "DRIVER"]%string -> sampled scopes ins sem P x ->
  match x with Some y => exists n, pick (source_of scopes) sem ins None = Some n /\ P n y | None => pick (source_of scopes) sem ins None = None end.
Proof.
  intros Hp Hs H. destruct (semantics_plain sem Hs) as (H1 & H2). destruct x as [y|]; cbn [sampled] in H.
  - destruct H as (id & n & (l & i & r & E & Hi & Hsrc & Ho) & Hr & HP). exists n. split; [|exact HP].
    rewrite (pick_some (source_of scopes) sem ins None i l r Hp H1 H2 E Hi Ho). unfold source_of. rewrite (has_attr_read _ _ _ Hsrc).
    rewrite legal_hash by (exact (proj1 Hr)). now apply find_by_crc.
  - now apply pick_none.
Qed.

(** *** Keys *)
Definition apply_entry (class : shape -> bool) (f : list Q -> key -> key) (e : option (list Q)) (k : key) : key :=
  if class (kind k) then match e with Some v => f v k | None => k end else k.
Definition table_stage (class : shape -> bool) (f : list Q -> key -> key) (w : nat) (rows : list (list Q)) (cs cs' : list (list key)) : Prop :=
  List.length cs' = List.length cs /\ forall i ks, nth_error cs i = Some ks -> exists ks', nth_error cs' i = Some ks' /\ List.length ks' = List.length ks /\
    forall j k, nth_error ks j = Some k -> exists e, entry_is w rows i j e /\ nth_error ks' j = Some (apply_entry class f e k).
Lemma update_spec class f : forall es ks, (forall j e, nth_error es j = Some e -> exists v, e = Some v) ->
  exists ks', update class f es ks = Some ks' /\ List.length ks' = List.length ks /\
    forall j k, nth_error ks j = Some k -> nth_error ks' j = Some (apply_entry class f (match nth_error es j with Some e => e | None => None end) k).
Proof.
  induction es as [|e es IH]; intros ks H.
  - exists ks. destruct ks as [|k0 ks]; (split; [reflexivity|]; split; [reflexivity|]; intros j k E; rewrite E; unfold apply_entry; destruct j; cbn; now destruct (class (kind k))).
  - destruct ks as [|k ks]; [exists []; split; [reflexivity|]; split; [reflexivity|]; intros [|j] k E; discriminate|].
    destruct (H 0 e eq_refl) as (v & ->). destruct (IH ks (fun j e => H (S j) e)) as (ks' & E & Hl & Hn). cbn [update]. rewrite E. cbn [option_map].
    destruct (class (kind k)) eqn:Ec; eexists; (split; [reflexivity|]; split; [cbn; now rewrite Hl|]); intros [|j] k' Ek; cbn [nth_error] in *.
    + injection Ek as <-. unfold apply_entry. now rewrite Ec.
    + now apply Hn.
    + injection Ek as <-. unfold apply_entry. now rewrite Ec.
    + now apply Hn.
Qed.
Lemma column_entries w rows i col j : column_is w rows i col -> entry_is w rows i j (match nth_error col j with Some e => e | None => None end).
Proof.
  intros (Hl & H). unfold entry_is. destruct (j <? List.length rows) eqn:E.
  - apply Nat.ltb_lt in E. destruct (nth_error col j) as [e|] eqn:En; [now apply H|]. apply nth_error_None in En. lia.
  - apply Nat.ltb_ge in E. rewrite (proj2 (nth_error_None col j)) by lia. reflexivity.
Qed.
Lemma update_curves_spec class f w rows : forall cols cs off, List.length cols = List.length cs ->
  (forall i col, nth_error cols i = Some col -> column_is w rows (off + i) col) ->
  exists cs', update_curves class f cols cs = Some cs' /\ List.length cs' = List.length cs /\
    forall i ks, nth_error cs i = Some ks -> exists ks', nth_error cs' i = Some ks' /\ List.length ks' = List.length ks /\
      forall j k, nth_error ks j = Some k -> exists e, entry_is w rows (off + i) j e /\ nth_error ks' j = Some (apply_entry class f e k).
Proof.
  induction cols as [|col cols IH]; intros cs off Hl H.
  - destruct cs; [|discriminate]. exists []. split; [reflexivity|]. split; [reflexivity|]. intros [|i] ks E; discriminate.
  - destruct cs as [|c cs]; [discriminate|]. pose proof (H 0 col eq_refl) as Hc. rewrite Nat.add_0_r in Hc.
    destruct (update_spec class f col c) as (c' & E & Hlen & Hn).
    { intros j e He. destruct Hc as (_ & Hc). destruct (Hc j e He) as (v & -> & _). eauto. }
    destruct (IH cs (S off)) as (cs' & E2 & Hlen2 & Hn2); [cbn in Hl; lia| |].
    { intros i x Hx. replace (S off + i) with (off + S i) by lia. apply (H (S i)). exact Hx. }
    cbn [update_curves]. rewrite E, E2. eexists. split; [reflexivity|]. split; [cbn; now rewrite Hlen2|]. intros [|i] ks Ek; cbn [nth_error] in Ek.
    + injection Ek as <-. exists c'. split; [reflexivity|]. split; [exact Hlen|]. intros j k Hk. eexists. split; [|apply Hn; exact Hk].
      rewrite Nat.add_0_r. now apply column_entries.
    + destruct (Hn2 i ks Ek) as (ks' & H1 & H2 & H3). exists ks'. split; [exact H1|]. split; [exact H2|]. intros j k Hk.
      replace (off + S i) with (S off + i) by lia. now apply H3.
Qed.
Lemma update_stage class f w k rows cols cs : columns_are w k rows cols -> List.length cs = k -> exists cs', update_curves class f cols cs = Some cs' /\ table_stage class f w rows cs cs'.
Proof.
  intros (Hl & H) Hk. destruct (update_curves_spec class f w rows cols cs 0 ltac:(lia) H) as (cs' & E & H1 & H2). exists cs'. split; [exact E|]. split; auto.
Qed.
Definition tangent_stage (f1 f2 : list Q -> key -> key) (d : option tangents) (cs cs' : list (list key)) : Prop :=
  match d with
  | None => cs' = cs
  | Some (Pairs rows) => table_stage is_bezier f2 2 rows cs cs'
  | Some (Relative rows) => table_stage is_bezier f1 1 rows cs cs'
  end.
Lemma load_tangents_spec a f1 f2 d k cs n : 0 < k -> List.length cs = k ->
  match d with Some t => exists m, n = Some m /\ tangent_table k m t | None => n = None end ->
  exists cs', load_tangents a f1 f2 n cs = Some cs' /\ tangent_stage f1 f2 d cs cs' /\ List.length cs' = k.
Proof.
  intros Hk Hl H. destruct d as [[rows|rows]|].
  - destruct H as (m & -> & count & Ht & Hc). cbn [load_tangents]. rewrite Hl. destruct (read_interleaved a 2 k count m rows ltac:(lia) Ht Hc (or_introl eq_refl)) as (cols & E & Hcol).
    rewrite E. rewrite (proj2 (Nat.eqb_neq (2 * k) k)) by lia. rewrite Nat.eqb_refl. destruct (update_stage is_bezier f2 2 k rows cols cs Hcol Hl) as (cs' & E2 & Hs).
    exists cs'. split; [exact E2|]. split; [exact Hs|]. destruct Hs as (Hs & _). lia.
  - destruct H as (m & -> & count & Ht & Hc). cbn [load_tangents]. rewrite Hl. destruct (read_relative a 2 k count m rows Ht Hc) as (cols & E & Hcol).
    rewrite E, Nat.eqb_refl. destruct (update_stage is_bezier f1 1 k rows cols cs Hcol Hl) as (cs' & E2 & Hs).
    exists cs'. split; [exact E2|]. split; [exact Hs|]. destruct Hs as (Hs & _). lia.
  - subst n. exists cs. split; [reflexivity|]. split; [reflexivity|exact Hl].
Qed.
Definition tcb_stage (f : list Q -> key -> key) (w : nat) (d : option (list (list Q))) (cs cs' : list (list key)) : Prop :=
  match d with None => cs' = cs | Some rows => table_stage is_tcb f w rows cs cs' end.
Lemma load_tcbs_spec a w f d k cs n : 1 < w -> List.length cs = k ->
  match d with Some rows => exists m count, n = Some m /\ table m (w * k) count rows /\ count <= List.length rows /\ (w = 2 \/ count = List.length rows) | None => n = None end ->
  exists cs', load_tcbs a w f n cs = Some cs' /\ tcb_stage f w d cs cs' /\ List.length cs' = k.
Proof.
  intros Hw Hl H. destruct d as [rows|].
  - destruct H as (m & count & -> & Ht & Hc & Hm). cbn [load_tcbs]. rewrite Hl. destruct (read_interleaved a w k count m rows Hw Ht Hc Hm) as (cols & E & Hcol).
    rewrite E. destruct (update_stage is_tcb f w k rows cols cs Hcol Hl) as (cs' & E2 & Hs).
    exists cs'. split; [exact E2|]. split; [exact Hs|]. destruct Hs as (Hs & _). lia.
  - subst n. exists cs. split; [reflexivity|]. split; [reflexivity|exact Hl].
Qed.

(** *** New keys *)
Lemma new_keys_spec times : forall rest is values j, List.length rest <= List.length is -> (forall x e, nth_error values x = Some e -> exists v, e = Some v) ->
  exists ks, new_keys times j rest is values = Some ks /\ List.length ks = List.length rest /\
    forall x k, nth_error ks x = Some k -> exists t i v, nth_error rest x = Some t /\ nth_error is x = Some i /\
      v = match nth_error values x with Some (Some v) => nth 0 v 0%Q | _ => 0%Q end /\ k = new_key times (j + x) t i v.
Proof.
  induction rest as [|t rest IH]; intros is values j Hl Hv.
  - exists []. split; [reflexivity|]. split; [reflexivity|]. intros [|x] k E; discriminate.
  - destruct is as [|i is]; [cbn in Hl; lia|]. cbn [new_keys]. destruct values as [|e values].
    + destruct (IH is [] (S j)) as (ks & E & Hk & Hn); [cbn in Hl; lia|intros [|x] e He; discriminate|]. rewrite E. eexists. split; [reflexivity|].
      split; [cbn; now rewrite Hk|]. intros [|x] k Ek; cbn [nth_error] in *.
      * injection Ek as <-. exists t, i, 0%Q. rewrite Nat.add_0_r. auto.
      * destruct (Hn x k Ek) as (t' & i' & v' & A & B & C & D). exists t', i', v'. replace (j + S x) with (S j + x) by lia. split; [exact A|]. split; [exact B|].
        split; [|exact D]. rewrite C. destruct x; reflexivity.
    + destruct (Hv 0 e eq_refl) as (v & ->). destruct (IH is values (S j)) as (ks & E & Hk & Hn); [cbn in Hl; lia|intros x e He; apply (Hv (S x)); exact He|].
      rewrite E. eexists. split; [reflexivity|]. split; [cbn; now rewrite Hk|]. intros [|x] k Ek; cbn [nth_error] in *.
      * injection Ek as <-. exists t, i, (nth 0 v 0%Q). rewrite Nat.add_0_r. auto.
      * destruct (Hn x k Ek) as (t' & i' & v' & A & B & C & D). exists t', i', v'. replace (j + S x) with (S j + x) by lia. auto.
Qed.
(** The keys before tangents and TCB values are read. *)
Definition key_stage (times : list Q) (is : list Z) (rows : list (list Q)) (i : nat) (ks : list key) : Prop :=
  List.length ks = List.length times /\ forall j k, nth_error ks j = Some k -> exists t x v, nth_error times j = Some t /\ nth_error is j = Some x /\
    (v == at_row rows j i)%Q /\ k = new_key times j t x v.
Lemma all_keys_spec times is rows k cols : List.length times <= List.length is -> columns_are 1 k rows cols ->
  exists cs, fold_right (fun c r => match new_keys times 0 times is c, r with Some k, Some r => Some (k :: r) | _, _ => None end) (Some []) cols = Some cs /\
    List.length cs = k /\ forall i ks, nth_error cs i = Some ks -> key_stage times is rows i ks.
Proof.
  intros Hl (Hk & Hc). subst k.
  assert (G : forall off, (forall i col, nth_error cols i = Some col -> column_is 1 rows (off + i) col) ->
    exists cs, fold_right (fun c r => match new_keys times 0 times is c, r with Some k, Some r => Some (k :: r) | _, _ => None end) (Some []) cols = Some cs /\
    List.length cs = List.length cols /\ forall i ks, nth_error cs i = Some ks -> key_stage times is rows (off + i) ks).
  { clear Hc. induction cols as [|c cols IH]; intros off H; [exists []; split; [reflexivity|]; split; [reflexivity|]; intros [|i] ks E; discriminate|].
    destruct (IH (S off)) as (cs & E & Hlen & Hn). { intros i col Hi. replace (S off + i) with (off + S i) by lia. apply (H (S i)). exact Hi. }
    pose proof (H 0 c eq_refl) as Hcol. rewrite Nat.add_0_r in Hcol. destruct Hcol as (Hcl & Hce).
    destruct (new_keys_spec times times is c 0 Hl) as (ks & E2 & Hk2 & Hn2). { intros x e He. destruct (Hce x e He) as (v & -> & _). eauto. }
    cbn [fold_right]. rewrite E, E2. eexists. split; [reflexivity|]. split; [cbn; now rewrite Hlen|]. intros [|i] ks' Ek; cbn [nth_error] in Ek.
    - injection Ek as <-. rewrite Nat.add_0_r. split; [exact Hk2|]. intros j kk Ekk. destruct (Hn2 j kk Ekk) as (t & x & v & A & B & C & D).
      exists t, x, v. split; [exact A|]. split; [exact B|]. split; [|exact D]. rewrite C. destruct (nth_error c j) as [e|] eqn:Ee.
      + destruct (Hce j e Ee) as (w & -> & Hw). rewrite (Hw 0 ltac:(lia)). rewrite Nat.mul_1_l, Nat.add_0_r. reflexivity.
      + apply nth_error_None in Ee. unfold at_row. rewrite (nth_overflow rows) by lia. destruct off; reflexivity.
    - replace (off + S i) with (S off + i) by lia. now apply Hn. }
  apply (G 0). exact Hc.
Qed.
