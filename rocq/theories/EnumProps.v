(* C75: the enumeration/string conversions of FUDaeEnum are inverse to each other. *)
From Coq Require Import String List ZArith Bool Lia.
From Verif Require Import EnumModel.
Import ListNotations.
Open Scope string_scope.
Open Scope Z_scope.

(* Specification: the enumerators that stand for a real choice, as opposed to
   "none of the above" and to the element count. *)
Definition sentinel (n : string) : Prop := n = "UNKNOWN" \/ n = "INVALID" \/ n = "COUNT".

(* The full claim: every real enumerator survives being written and read back. *)
Definition enum_round_trip (f : family) : Prop :=
  forall n v, In (n, v) (named f) -> ~ sentinel n -> FromString f (ToString f v) = v.

(* The texts of the "none of the above" enumerators. *)
Definition sentinelb (n : string) : bool :=
  String.eqb n "UNKNOWN" || String.eqb n "INVALID" || String.eqb n "COUNT".

Lemma sentinelb_spec n : sentinelb n = true <-> sentinel n.
Proof.
  unfold sentinelb, sentinel. rewrite !orb_true_iff, !String.eqb_eq. tauto.
Qed.

Definition rt_check (f : family) : bool :=
  forallb (fun p => sentinelb (fst p) || Z.eqb (FromString f (ToString f (snd p))) (snd p)) (named f).

Lemma rt_check_sound f : rt_check f = true -> enum_round_trip f.
Proof.
  unfold rt_check, enum_round_trip. rewrite forallb_forall.
  intros H n v I N. specialize (H _ I). cbn in H.
  apply orb_true_iff in H. destruct H as [H|H].
  - apply sentinelb_spec in H. contradiction.
  - now apply Z.eqb_eq.
Qed.

Theorem C75_round_trip_refuted : ~ (forall f, In f families -> enum_round_trip f).
Proof.
  intro H.
  assert (I : In FUDaeTextureFilterFunction families) by (vm_compute; tauto).
  specialize (H _ I "LINEAR" 2).
  assert (J : In ("LINEAR", 2) (named FUDaeTextureFilterFunction)) by (vm_compute; tauto).
  specialize (H J). vm_compute in H.
  assert (~ ("LINEAR" = "UNKNOWN" \/ "LINEAR" = "INVALID" \/ "LINEAR" = "COUNT")) as K
    by (intros [X|[X|X]]; discriminate).
  specialize (H K). discriminate.
Qed.

(* Missing from the full claim: the one enumerator FUDaeTextureFilterFunction::LINEAR. *)
Theorem C75_round_trip_partial : forall f n v,
  In f families -> In (n, v) (named f) -> ~ sentinel n ->
  ~ (f = FUDaeTextureFilterFunction /\ n = "LINEAR") ->
  FromString f (ToString f v) = v.
Proof.
  intros f n v I J N X.
  unfold families in I. cbn [In] in I.
  repeat (destruct I as [<-|I];
    [first [ refine (rt_check_sound _ _ n v J N); vm_compute; reflexivity | idtac ] | ]); [ | destruct I ].
  cbn [FUDaeTextureFilterFunction named In] in J.
  repeat (destruct J as [E|J];
    [injection E as <- <-;
     first [ reflexivity
           | exfalso; apply X; split; reflexivity
           | exfalso; apply N; left; reflexivity ] | ]).
  destruct J.
Qed.

(* ---- The other direction, for every string. ---- *)

Lemma run_chain_cases : forall l d s,
  (exists v, In (s, v) l /\ run_chain l d s = v)
  \/ ((forall v, ~ In (s, v) l) /\ run_chain l d s = d).
Proof.
  induction l as [|[k v] r IH]; intros d s; cbn.
  - right. split; [intros v []|reflexivity].
  - destruct (String.eqb_spec s k) as [E|E].
    + left. exists v. subst. auto.
    + destruct (IH d s) as [(w & I & R)|(I & R)].
      * left. exists w. auto.
      * right. split; [|exact R]. intros w [X|X]; [congruence|exact (I w X)].
Qed.

Lemma run_switch_cases : forall l d v,
  (exists s, In (v, s) l /\ run_switch l d v = s)
  \/ ((forall s, ~ In (v, s) l) /\ run_switch l d v = d).
Proof.
  induction l as [|[k s] r IH]; intros d v; cbn.
  - right. split; [intros s []|reflexivity].
  - destruct (Z.eqb_spec v k) as [E|E].
    + left. exists s. subst. auto.
    + destruct (IH d v) as [(w & I & R)|(I & R)].
      * left. exists w. auto.
      * right. split; [|exact R]. intros w [X|X]; [congruence|exact (I w X)].
Qed.

(* Whatever the string, the result is an enumerator of the enum. *)
Theorem C75_from_string_named : forall f s,
  In f (FUDaeTextureChannel :: families) -> exists n, In (n, FromString f s) (named f).
Proof.
  intros f s I.
  assert (C : forallb (fun g => forallb (fun p => existsb (fun q => Z.eqb (snd q) (snd p)) (named g))
                         (("", otherwise g) :: chain g))
                      (FUDaeTextureChannel :: families) = true) by (vm_compute; reflexivity).
  rewrite forallb_forall in C. specialize (C _ I). rewrite forallb_forall in C.
  unfold FromString.
  assert (exists k, In (k, run_chain (chain f) (otherwise f) s) (("", otherwise f) :: chain f)) as [k K].
  { destruct (run_chain_cases (chain f) (otherwise f) s) as [(v & J & R)|(_ & R)]; rewrite R.
    - exists s. right. exact J.
    - exists "". left. reflexivity. }
  specialize (C _ K). apply existsb_exists in C. destruct C as ((n & v) & J & E).
  cbn in E. apply Z.eqb_eq in E. subst v. exists n. exact J.
Qed.

(* A string that is read as a real choice is exactly the string that choice is
   written as: there are no aliases.  Full claim, and its two exceptions. *)
Definition unaliased (f : family) (s : string) : Prop :=
  FromString f s = otherwise f \/ ToString f (FromString f s) = s.

Theorem C75_no_alias_refuted :
  ~ (forall f s, In f families -> unaliased f s).
Proof.
  intro H. specialize (H FUDaeInterpolation "" (or_introl eq_refl)).
  vm_compute in H. destruct H as [H|H]; discriminate.
Qed.

(* Missing from the full claim: "" for FUDaeInterpolation, "LINEAR" for
   FUDaeTextureFilterFunction. *)
Theorem C75_no_alias_partial : forall f s,
  In f families ->
  ~ (f = FUDaeInterpolation /\ s = "") ->
  ~ (f = FUDaeTextureFilterFunction /\ s = "LINEAR") ->
  unaliased f s.
Proof.
  intros f s I X Y. unfold unaliased.
  destruct (run_chain_cases (chain f) (otherwise f) s) as [(v & J & R)|(_ & R)];
    [right|left; exact R].
  unfold FromString in *. rewrite R.
  assert (forallb (fun p => String.eqb (ToString f (snd p)) (fst p)) (chain f) = true
          -> ToString f v = s) as K.
  { intro C. rewrite forallb_forall in C. specialize (C _ J). now apply String.eqb_eq in C. }
  unfold families in I. cbn [In] in I. clear R.
  repeat (destruct I as [<-|I]; [first [ apply K; vm_compute; reflexivity | idtac ] | ]);
    [ | | destruct I ]; clear K.
  - cbn [FUDaeInterpolation chain In] in J.
    repeat (destruct J as [E|J];
      [injection E as <- <-; first [ reflexivity | exfalso; apply X; split; reflexivity ] | ]).
    destruct J.
  - cbn [FUDaeTextureFilterFunction chain In] in J.
    repeat (destruct J as [E|J];
      [injection E as <- <-; first [ reflexivity | exfalso; apply Y; split; reflexivity ] | ]).
    destruct J.
Qed.

(* Two different strings are never read as the same real choice, the empty
   interpolation apart. *)
Theorem C75_from_string_injective_partial : forall f s t,
  In f families ->
  FromString f s = FromString f t -> FromString f s <> otherwise f ->
  s = t \/ (f = FUDaeInterpolation /\ (s = "" \/ t = "")).
Proof.
  intros f s t I E N.
  destruct (run_chain_cases (chain f) (otherwise f) s) as [(v & Js & R)|(_ & R)]; [|contradiction].
  destruct (run_chain_cases (chain f) (otherwise f) t) as [(w & Jt & S0)|(_ & S0)];
    [|unfold FromString in *; congruence].
  unfold FromString in *. assert (W : w = v) by congruence. clear E N R S0.
  rewrite W in Jt. clear W w.
  assert (C : forallb (fun g => forallb (fun p => forallb (fun q =>
                negb (Z.eqb (snd p) (snd q)) || String.eqb (fst p) (fst q)
                || ((Nat.eqb (List.length (chain g)) (List.length (chain FUDaeInterpolation)))
                    && (Z.eqb (otherwise g) (otherwise FUDaeInterpolation))
                    && (String.eqb (fst p) "" || String.eqb (fst q) "")))
                (chain g)) (chain g)) families = true) by (vm_compute; reflexivity).
  rewrite forallb_forall in C. specialize (C _ I). rewrite forallb_forall in C.
  specialize (C _ Js). rewrite forallb_forall in C. specialize (C _ Jt). cbn [fst snd] in C.
  rewrite Z.eqb_refl in C. cbn [negb orb] in C.
  apply orb_true_iff in C. destruct C as [C|C].
  - left. now apply String.eqb_eq.
  - apply andb_true_iff in C. destruct C as (_ & C). apply orb_true_iff in C.
    rewrite !String.eqb_eq in C. right. split; [|exact C].
    clear - I Js Jt C.
    assert (In ("", v) (chain f)) as K by (destruct C; subst; assumption).
    clear - I K. unfold families in I. cbn [In] in I.
    repeat (destruct I as [<-|I];
      [first [ reflexivity
             | exfalso;
               match type of K with In (?k, v) (chain ?g) =>
                 let C := fresh in
                 assert (C : forallb (fun p => negb (String.eqb (fst p) "")) (chain g) = true)
                   by (vm_compute; reflexivity);
                 rewrite forallb_forall in C; specialize (C _ K); discriminate C end ] | ]).
    destruct I.
Qed.

(* A value outside the enumeration is written as the same text as "none of the
   above", and no value is written as the text of two choices: distinct real
   enumerators get distinct strings, the texture filter LINEAR included. *)
Theorem C75_to_string_injective : forall f n v m w,
  In f families -> In (n, v) (named f) -> In (m, w) (named f) ->
  ~ sentinel n -> ~ sentinel m -> ToString f v = ToString f w -> v = w.
Proof.
  intros f n v m w I Jn Jm Nn Nm E.
  assert (C : forallb (fun g => forallb (fun p => forallb (fun q =>
                sentinelb (fst p) || sentinelb (fst q)
                || negb (String.eqb (ToString g (snd p)) (ToString g (snd q)))
                || Z.eqb (snd p) (snd q)) (named g)) (named g)) families = true)
    by (vm_compute; reflexivity).
  rewrite forallb_forall in C. specialize (C _ I). rewrite forallb_forall in C.
  specialize (C _ Jn). rewrite forallb_forall in C. specialize (C _ Jm). cbn [fst snd] in C.
  rewrite E, String.eqb_refl in C. cbn [negb] in C. rewrite orb_false_r in C.
  apply orb_true_iff in C. destruct C as [C|C]; [|now apply Z.eqb_eq].
  apply orb_true_iff in C. rewrite !sentinelb_spec in C. tauto.
Qed.

Theorem C75_outside_is_fallback : forall f v,
  In f families -> (forall n, ~ In (n, v) (named f)) -> ToString f v = fallback f.
Proof.
  intros f v I N. unfold ToString.
  destruct (run_switch_cases (cases f) (fallback f) v) as [(s & J & _)|(_ & R)]; [|exact R].
  exfalso.
  assert (C : forallb (fun g => forallb (fun p => existsb (fun q => Z.eqb (snd q) (fst p)) (named g))
                         (cases g)) families = true) by (vm_compute; reflexivity).
  rewrite forallb_forall in C. specialize (C _ I). rewrite forallb_forall in C.
  specialize (C _ J). apply existsb_exists in C. destruct C as ((n & x) & K & E).
  cbn in E. apply Z.eqb_eq in E. subst x. exact (N n K).
Qed.

(* "None of the above" stays so when it is written and read back.  False for the
   families whose fallback text or fallback value is a real choice. *)
Definition keeps_unknown (f : family) : Prop :=
  forall v, (forall n, In (n, v) (named f) -> sentinel n) ->
  forall n, In (n, FromString f (ToString f v)) (named f) -> sentinel n.

Theorem C75_keeps_unknown_refuted :
  ~ keeps_unknown FUDaeMorphMethod /\ ~ keeps_unknown FUDaeInfinity /\ ~ keeps_unknown FUDaeBlendMode.
Proof.
  repeat split; intro H.
  - specialize (H 2). assert (forall n, In (n, 2) (named FUDaeMorphMethod) -> sentinel n) as A.
    { cbn. intros n [X|[X|[X|[X|[]]]]]; try discriminate. injection X as <-. left. reflexivity. }
    specialize (H A "NORMALIZED"). destruct H as [X|[X|X]]; [vm_compute; tauto|discriminate..].
  - specialize (H 5). assert (forall n, In (n, 5) (named FUDaeInfinity) -> sentinel n) as A.
    { cbn. intros n I. repeat destruct I as [X|I]; try discriminate; try contradiction.
      injection X as <-. left. reflexivity. }
    specialize (H A "CONSTANT"). destruct H as [X|[X|X]]; [vm_compute; tauto|discriminate..].
  - specialize (H 13). assert (forall n, In (n, 13) (named FUDaeBlendMode) -> sentinel n) as A.
    { cbn. intros n I. repeat destruct I as [X|I]; try discriminate; try contradiction;
      injection X as <-; unfold sentinel; auto. }
    specialize (H A "NONE"). destruct H as [X|[X|X]]; [vm_compute; tauto|discriminate..].
Qed.

Print Assumptions C75_round_trip_refuted.
Print Assumptions C75_round_trip_partial.
Print Assumptions C75_from_string_named.
Print Assumptions C75_no_alias_refuted.
Print Assumptions C75_no_alias_partial.
Print Assumptions C75_from_string_injective_partial.
Print Assumptions C75_to_string_injective.
Print Assumptions C75_outside_is_fallback.
Print Assumptions C75_keeps_unknown_refuted.

(* The exporter writes the texture filter LINEAR as "UNKNOWN". *)
Example C75_demo :
  ToString FUDaeTextureFilterFunction 2 = "UNKNOWN"
  /\ FromString FUDaeTextureFilterFunction "LINEAR" = 2
  /\ FromString FUDaeTextureFilterFunction (ToString FUDaeTextureFilterFunction 2) = 7.
Proof. vm_compute. auto. Qed.

Example C75_demo_round_trip :
  In FUDaePassStateBlendType families
  /\ In ("ONE_MINUS_SOURCE_ALPHA", 771) (named FUDaePassStateBlendType)
  /\ ~ sentinel "ONE_MINUS_SOURCE_ALPHA"
  /\ ToString FUDaePassStateBlendType 771 = "ONE_MINUS_SRC_ALPHA"
  /\ FromString FUDaePassStateBlendType "ONE_MINUS_SRC_ALPHA" = 771
  /\ FromString FUDaePassStateBlendType "one_minus_src_alpha" = otherwise FUDaePassStateBlendType.
Proof.
  repeat split; try (vm_compute; tauto).
  intros [X|[X|X]]; discriminate.
Qed.
