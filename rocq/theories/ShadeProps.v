(** C118 (standard effects written and loaded), C119 (what is loaded from the COMMON profile of a document). *)
From Coq Require Import String List ZArith QArith Bool Lia Lqa.
From Verif Require Import TextModel TextSpec StringModel StringProofs XmlModel UniqueSpec IdModel IdProps FloatModel FloatSpec FloatProofs FloatWrite FloatProps DaeModel DaeSpec DaeProofs DaeProps RigSpec RigTextProofs RigProofs RigWriteProofs NodeSpec CustomModel LampModel LampSpec LampProofs LampWriteProofs LampCameraProps LampProps AnimModel WireModel WireProps ShadeModel ShadeSpec ShadeProofs ShadeWriteProofs.
Import ListNotations.
Local Open Scope list_scope.

(** *** C118 *)
Lemma reference_kept r : legal name_char r -> (List.length r <= 512)%nat -> reference_of (write_reference r) = r.
Proof.
  intros L H. assert (N : r <> []) by (intros ->; exact L). destruct C16_clean_partial as (_ & C & _). destruct (C r N) as (_ & _ & E & _). specialize (E L H).
  unfold reference_of. assert (P : ReadNodeProperty (write_reference r) "ref" = r).
  { cbn. apply plain_same. assert (A : Forall name_char r).
    { destruct r as [|c r]; [destruct L|]. destruct L as (L1 & L2). constructor; [|exact L2]. unfold name_char. tauto. }
    assert (X : Forall (fun c => 1 <= c <= 255 /\ c <> 37)%Z r) by (revert A; apply Forall_impl; intro c; unfold name_char, UniqueSpec.is_letter, UniqueSpec.is_digit; lia).
    split; [revert X; apply Forall_impl; intros c Hc; apply Hc|]. rewrite Forall_forall in X. intro Y. now apply X in Y. }
  rewrite P. destruct r; [congruence|exact E].
Qed.
Lemma color_text_read a eps t x y z w : machine_eps eps -> finite x -> finite y -> finite z -> finite w -> ToString_vector eps (map Fin [x; y; z; w]) t ->
  exists v r, ToVector4 a (text_of (Some (Elem (tx "color") [] (content (AddContent t))))) = Some (Some v, r) /\ color_rel (remains eps) (Some (x, y, z, w)) (Some v).
Proof.
  intros He Hx Hy Hz Hw Ht. destruct (floats_written eps [x; y; z; w] He) with (t := t) as (rs & Hn & Hr & Hok); [repeat (apply Forall_cons; [assumption|]); apply Forall_nil|exact Ht|].
  inversion Hr as [|? x' ? l1 A1 B1]; subst. inversion B1 as [|? y' ? l2 A2 B2]; subst. inversion B2 as [|? z' ? l3 A3 B3]; subst. inversion B3 as [|? w' ? l4 A4 B4]; subst. inversion B4; subst.
  rewrite (content_same t Hok). destruct (read_four a t x' y' z' w' Hn) as (x1 & y1 & z1 & w1 & rest & E & E1 & E2 & E3 & E4).
  assert (T : text_of (Some (Elem (tx "color") [] (content t))) = t) by (destruct t; reflexivity). rewrite T, E. do 2 eexists. split; [reflexivity|].
  do 8 eexists. split; [reflexivity|]. split; [reflexivity|]. repeat split; eapply remains_eq; eassumption || idtac.
Qed.
Lemma number_text_read a eps t q : machine_eps eps -> finite q -> appends eps (Fin q) t ->
  exists v r, ToFloat a (text_of (Some (Elem (tx "float") [] (content t)))) = Some (v, r) /\ remains eps q v.
Proof.
  intros He Hq Ht. destruct (printed_number eps q t He Hq Ht) as (r & Hr & K). destruct (read_one a t r Hr) as (v & rest & E & Ev).
  assert (T : text_of (Some (Elem (tx "float") [] (content t))) = t) by (destruct t; reflexivity). rewrite T, E. do 2 eexists. split; [reflexivity|]. eapply remains_eq; eassumption.
Qed.
Lemma color_choice (P : cfield -> rgba -> Prop) : (forall f, exists v, P f v) -> exists v, forall f, P f (v f).
Proof.
  intro H. destruct (H Emission) as (v1 & H1), (H Diffuse) as (v2 & H2), (H Ambient) as (v3 & H3), (H Specular) as (v4 & H4), (H Reflective) as (v5 & H5), (H Transparent) as (v6 & H6).
  exists (fun f => match f with Emission => v1 | Diffuse => v2 | Ambient => v3 | Specular => v4 | Reflective => v5 | Transparent => v6 end). intros []; assumption.
Qed.
Lemma number_choice {A} (P : sfield -> A -> Prop) : (forall f, exists v, P f v) -> exists v, forall f, P f (v f).
Proof.
  intro H. destruct (H EmissionFactor) as (v1 & H1), (H ReflectivityFactor) as (v2 & H2), (H Refraction) as (v3 & H3), (H TransparencyFactor) as (v4 & H4), (H SpecularFactor) as (v5 & H5), (H Shininess) as (v6 & H6).
  exists (fun f => match f with EmissionFactor => v1 | ReflectivityFactor => v2 | Refraction => v3 | TransparencyFactor => v4 | SpecularFactor => v5 | Shininess => v6 end). intros []; assumption.
Qed.
Lemma about_one eps q : machine_eps eps -> (q == 1)%Q -> remains eps q 1.
Proof.
  intros He E. assert (B := eps_one eps He). split; intro H.
  - exfalso. rewrite E in H. change (Qabs.Qabs 1) with 1%Q in H. lra.
  - split; [rewrite E; vm_compute; discriminate|intros _; now rewrite E].
Qed.
(** Saved and loaded again, an effect without textures has the same lighting model, mode and flags; of every parameter that it makes use
    of, a constant is the same up to the digits that are written and a reference is the same; the others are those of a new effect, and
    black without reflectivity.  This does not depend on the version of the document that the effect is loaded into. *)
Theorem C118_saved_partial : forall a eps before after sid e n old,
  machine_eps eps -> proper_effect e -> untextured e -> Forall (fun c => ~ is_elem "technique" c) before ->
  WriteEffectStandard eps before after sid e n ->
  exists e', LoadEffectStandard a (new_effect old) n = Some e' /\
    lit e' = lit e /\ mode e' = mode e /\ is_factor e' = is_factor e /\ is_reflective e' = is_reflective e /\ is_refractive e' = is_refractive e /\
    untextured e' /\
    (forall f, color_used e f -> same_parameter (color_rel (remains eps)) (color_of e f) (color_of e' f)) /\
    (forall f, number_used e f -> same_parameter (remains eps) (number_of e f) (number_of e' f)) /\
    (forall f, ~ color_used e f -> color_of e' f = (Some (match f with Reflective => (0, 0, 0, 0)%Q | _ => initial_color f end), None)) /\
    (forall f, ~ number_used e f -> number_of e' f = (match f with ReflectivityFactor => 0%Q | _ => initial_number f end, None)).
Proof.
  intros a eps before after sid e n old He P U B (ct & st & ts & Hct & Hst & Hts & ->). destruct P as [PL PC PN (PR1 & PR2) PV].
  assert (T : forall c, ts c = []) by (intro c; destruct (Hts c) as (H & _); rewrite U in H; now destruct (ts c)).
  destruct (color_choice (fun f v => (exists r, ToVector4 a (text_of (Some (Elem (tx "color") [] (content (AddContent (ct f)))))) = Some (Some v, r)) /\ color_rel (remains eps) (fst (color_of e f)) (Some v))) as (cv & Hcv).
  { intro f. destruct (PC f) as (x & y & z & w & E & F1 & F2 & F3 & F4). destruct (Hct f) as (x1 & y1 & z1 & w1 & E1 & Ht). rewrite E in E1. injection E1 as <- <- <- <-. rewrite E.
    destruct (color_text_read a eps _ _ _ _ _ He F1 F2 F3 F4 Ht) as (v & r & Ev & R). exists v. split; [exists r; exact Ev|exact R]. }
  destruct (number_choice (fun f v => (exists r, ToFloat a (text_of (Some (Elem (tx "float") [] (content (st f))))) = Some (v, r)) /\ remains eps (fst (number_of e f)) v)) as (sv & Hsv).
  { intro f. destruct (number_text_read a eps _ _ He (PN f) (Hst f)) as (v & r & Ev & R). exists v. split; [exists r; exact Ev|exact R]. }
  eexists. split.
  { apply loaded_form with (cv := cv) (sv := sv); [intro f; apply Hcv|intro f; apply Hsv| | |exact T|exact PL|exact B].
    - intros f r Er. destruct (PR1 f r Er). now apply reference_kept.
    - intros f r Er. destruct (PR2 f r Er). now apply reference_kept. }
  assert (CC : forall f, same_parameter (color_rel (remains eps)) (color_of e f) (new_color e cv f (Some (initial_color f), None))).
  { intro f. unfold same_parameter, new_color. destruct (snd (color_of e f)); [reflexivity|]. split; [reflexivity|apply Hcv]. }
  assert (SS : forall f, same_parameter (remains eps) (number_of e f) (new_number e sv f (initial_number f, None))).
  { intro f. unfold same_parameter, new_number. destruct (snd (number_of e f)); [reflexivity|]. split; [reflexivity|apply Hsv]. }
  assert (V : Qeq_bool (fst (number_of e SpecularFactor)) 1 = true -> same_parameter (remains eps) (number_of e SpecularFactor) (1%Q, None)).
  { intro X. apply Qeq_bool_iff in X. unfold same_parameter. rewrite (PV X). split; [reflexivity|]. now apply about_one. }
  clear Hcv Hsv T Hct Hst Hts U PC PN PR1 PR2 PV. unfold untextured, items.
  destruct (lit e) eqn:El; [| | | |congruence]; destruct (is_factor e) eqn:Ef, (is_reflective e) eqn:Er, (is_refractive e) eqn:Ex, (Qeq_bool (fst (number_of e SpecularFactor)) 1) eqn:Eq;
  (split; [reflexivity|]); (split; [reflexivity|]); (split; [reflexivity|]); (split; [reflexivity|]); (split; [reflexivity|]); (split; [reflexivity|]);
  (split; [intros f; destruct f; cbn [color_used]; rewrite ?El, ?Ef, ?Er; intro X; try (exfalso; (discriminate X || (apply X; reflexivity) || (destruct X; discriminate))); apply CC|]);
  (split; [intros f; destruct f; cbn [number_used]; rewrite ?El, ?Ef, ?Er, ?Ex; intro X; try (exfalso; (discriminate X || (apply X; reflexivity) || (destruct X; discriminate))); first [apply SS | apply V; reflexivity]|]);
  (split; [intros f; destruct f; cbn [color_used]; rewrite ?El, ?Ef, ?Er; intro X; first [reflexivity | exfalso; apply X; (exact I || reflexivity || discriminate || (left; reflexivity) || (right; reflexivity))]|
           intros f; destruct f; cbn [number_used]; rewrite ?El, ?Ef, ?Er, ?Ex; intro X; first [reflexivity | exfalso; apply X; (exact I || reflexivity || discriminate || (left; reflexivity) || (right; reflexivity))]]).
Qed.
Print Assumptions C118_saved_partial.
(** The hypothesis can be met: every effect can be written. *)
Theorem C118_writable : forall eps before after sid e,
  machine_eps eps -> proper_effect e -> exists n, WriteEffectStandard eps before after sid e n.
Proof.
  intros eps before after sid e He P.
  assert (C : forall f, exists t, exists x y z w, fst (color_of e f) = Some (x, y, z, w) /\ ToString_vector eps (map Fin [x; y; z; w]) t).
  { intro f. destruct (pe_color e P f) as (x & y & z & w & E & _). destruct (floats_writable eps [x; y; z; w] He) as (t & Ht). exists t, x, y, z, w. split; [exact E|exact Ht]. }
  assert (N : forall f, exists t, appends eps (Fin (fst (number_of e f))) t) by (intro f; now apply C78_writable).
  destruct (number_choice _ N) as (st & Hst).
  assert (CT : exists ct, forall f, exists x y z w, fst (color_of e f) = Some (x, y, z, w) /\ ToString_vector eps (map Fin [x; y; z; w]) (ct f)).
  { destruct (C Emission) as (v1 & H1), (C Diffuse) as (v2 & H2), (C Ambient) as (v3 & H3), (C Specular) as (v4 & H4), (C Reflective) as (v5 & H5), (C Transparent) as (v6 & H6).
    exists (fun f => match f with Emission => v1 | Diffuse => v2 | Ambient => v3 | Specular => v4 | Reflective => v5 | Transparent => v6 end). intros []; assumption. }
  destruct CT as (ct & Hct). eexists. exists ct, st, (fun c => repeat (Elem (tx "texture") [] []) (textures e c)).
  split; [exact Hct|]. split; [exact Hst|]. split; [|reflexivity]. intro c. split; [apply repeat_length|]. apply Forall_forall. intros x Hx. apply repeat_spec in Hx. now subst x.
Qed.
Print Assumptions C118_writable.

(** An effect with textures, references and any lighting model: the values of a new one but for the diffuse colour. *)
Definition sample (k : lighting) (factor : bool) (level : option (list Z)) (tex : channel -> nat) : effect :=
  Effect k A_ONE (fun f => (Some (match f with Diffuse => (1, 1 # 2, 0, 1)%Q | _ => (0, 0, 0, 1)%Q end), match f with Ambient => Some (tx "shade") | _ => None end))
         (fun f => (match f with Shininess => 5 | TransparencyFactor => 1 # 2 | Refraction => 45 | _ => 1 end%Q, match f with SpecularFactor => level | _ => None end)) factor true false tex.
Definition sample_colors (f : cfield) : list Z := match f with Diffuse => tx "1 0.5 0 1" | _ => tx "0 0 0 1" end.
Definition sample_numbers (f : sfield) : list Z := match f with Shininess => tx "5" | TransparencyFactor => tx "0.5" | Refraction => tx "45" | _ => tx "1" end.
Definition sample_node (k : lighting) (factor : bool) (level : option (list Z)) (tex : channel -> nat) : xml :=
  effect_element [] [] (tx "common") (sample k factor level tex) sample_colors sample_numbers (fun c => repeat (Elem (tx "texture") [(tx "texture", tx "image")] []) (tex c)).
Lemma sample_written k factor level tex : WriteEffectStandard eps_float [] [] (tx "common") (sample k factor level tex) (sample_node k factor level tex).
Proof.
  exists sample_colors, sample_numbers, (fun c => repeat (Elem (tx "texture") [(tx "texture", tx "image")] []) (tex c)). split; [|split; [|split; [|reflexivity]]].
  - assert (B : ToString_vector eps_float (map Fin [0; 0; 0; 1]%Q) (tx "0 0 0 1")).
    { change (tx "0 0 0 1") with ([] ++ tx "0" ++ 32%Z :: tx "0" ++ 32%Z :: tx "0" ++ 32%Z :: tx "1" ++ []). apply (TS_cons eps_float []); [apply print_0|]. repeat (apply AR_cons; [apply print_0|]). apply AR_cons; [apply print_1|apply AR_nil]. }
    intros []; do 4 eexists; (split; [reflexivity|]); try exact B. change (sample_colors Diffuse) with ([] ++ tx "1" ++ 32%Z :: tx "0.5" ++ 32%Z :: tx "0" ++ 32%Z :: tx "1" ++ []).
    apply (TS_cons eps_float []); [apply print_1|]. apply AR_cons; [apply print_half|]. apply AR_cons; [apply print_0|]. apply AR_cons; [apply print_1|apply AR_nil].
  - intros []; [apply print_1|apply print_1|apply print_45|apply print_half|apply print_1|apply print_5].
  - intro c. split; [apply repeat_length|]. apply Forall_forall. intros x Hx. apply repeat_spec in Hx. now subst x.
Qed.
Lemma sample_proper k factor tex : k <> OTHER -> proper_effect (sample k factor None tex).
Proof.
  intro H. constructor; [exact H| | | |reflexivity].
  - intros []; do 4 eexists; (split; [reflexivity|]); repeat split; apply small_finite; vm_compute; discriminate.
  - intros []; apply small_finite; vm_compute; discriminate.
  - split; intros [] t E; try discriminate E. injection E as <-. split; [|cbn; lia]. cbn. unfold name_char, UniqueSpec.is_letter, UniqueSpec.is_digit. split; [lia|]. repeat (constructor; [lia|]). constructor.
Qed.
Lemma observed {A B} (o : option A) (f : A -> B) v : option_map f o = Some v -> exists e', o = Some e' /\ f e' = v.
Proof. destruct o as [e'|]; [|discriminate]. intro H. exists e'. split; [reflexivity|]. now injection H. Qed.
Definition none (c : channel) : nat := O.
Definition one (c d : channel) : nat := if channel_eq d c then 1%nat else O.
(** Not everything is kept.  With a texture the colour itself is lost: it becomes white.  With an emission factor the emission textures
    are lost.  A specular level that is a reference is lost when its value is 1.  A refraction texture makes the effect refractive and sets
    the index of refraction to 1.  The lighting model UNKNOWN becomes constant and the colours are lost. *)
Theorem C118_saved_refuted :
  (exists e n e', proper_effect e /\ WriteEffectStandard eps_float [] [] (tx "common") e n /\ LoadEffectStandard Strict (new_effect false) n = Some e' /\
     color_used e Diffuse /\ textures e' CDiffuse = textures e CDiffuse /\ ~ color_rel (remains eps_float) (fst (color_of e Diffuse)) (fst (color_of e' Diffuse))) /\
  (exists e n e', proper_effect e /\ WriteEffectStandard eps_float [] [] (tx "common") e n /\ LoadEffectStandard Strict (new_effect false) n = Some e' /\
     textures e CEmission = 1%nat /\ textures e' CEmission = O) /\
  (exists e n e', WriteEffectStandard eps_float [] [] (tx "common") e n /\ LoadEffectStandard Strict (new_effect false) n = Some e' /\
     untextured e /\ number_used e SpecularFactor /\ snd (number_of e SpecularFactor) = Some (tx "level") /\ snd (number_of e' SpecularFactor) = None) /\
  (exists e n e', proper_effect e /\ WriteEffectStandard eps_float [] [] (tx "common") e n /\ LoadEffectStandard Strict (new_effect false) n = Some e' /\
     is_refractive e = false /\ is_refractive e' = true /\ fst (number_of e Refraction) = 45%Q /\ fst (number_of e' Refraction) = 1%Q) /\
  (exists e n e', WriteEffectStandard eps_float [] [] (tx "common") e n /\ LoadEffectStandard Strict (new_effect false) n = Some e' /\
     untextured e /\ lit e = OTHER /\ lit e' = FLAT /\ fst (color_of e Diffuse) = Some (1, 1 # 2, 0, 1)%Q /\ fst (color_of e' Diffuse) = Some (0, 0, 0, 1)%Q).
Proof.
  split; [|split; [|split; [|split]]].
  - destruct (observed (LoadEffectStandard Strict (new_effect false) (sample_node PHONG false None (one CDiffuse))) (fun e => (textures e CDiffuse, fst (color_of e Diffuse))) (1%nat, Some (1, 1, 1, 1)%Q)) as (e' & E & O); [vm_compute; reflexivity|].
    exists (sample PHONG false None (one CDiffuse)), (sample_node PHONG false None (one CDiffuse)), e'. injection O as O1 O2. split; [apply sample_proper; discriminate|]. split; [apply sample_written|].
    split; [exact E|]. split; [discriminate|]. split; [exact O1|]. rewrite O2. intros (x & y & z & w & x' & y' & z' & w' & X & X' & _ & _ & (R & _) & _).
    injection X as <- <- <- <-. injection X' as <- <- <- <-. assert (Y : (1 == 0)%Q) by (apply R; reflexivity). discriminate Y.
  - destruct (observed (LoadEffectStandard Strict (new_effect false) (sample_node PHONG true None (one CEmission))) (fun e => textures e CEmission) O) as (e' & E & O); [vm_compute; reflexivity|].
    exists (sample PHONG true None (one CEmission)), (sample_node PHONG true None (one CEmission)), e'. split; [apply sample_proper; discriminate|]. split; [apply sample_written|]. split; [exact E|]. split; [reflexivity|exact O].
  - destruct (observed (LoadEffectStandard Strict (new_effect false) (sample_node PHONG false (Some (tx "level")) none)) (fun e => snd (number_of e SpecularFactor)) None) as (e' & E & O); [vm_compute; reflexivity|].
    exists (sample PHONG false (Some (tx "level")) none), (sample_node PHONG false (Some (tx "level")) none), e'. split; [apply sample_written|]. split; [exact E|]. split; [intro; reflexivity|]. split; [left; reflexivity|]. split; [reflexivity|exact O].
  - destruct (observed (LoadEffectStandard Strict (new_effect false) (sample_node PHONG false None (one CRefraction))) (fun e => (is_refractive e, fst (number_of e Refraction))) (true, 1%Q)) as (e' & E & O); [vm_compute; reflexivity|].
    injection O as O1 O2. exists (sample PHONG false None (one CRefraction)), (sample_node PHONG false None (one CRefraction)), e'. split; [apply sample_proper; discriminate|]. split; [apply sample_written|]. split; [exact E|]. auto.
  - destruct (observed (LoadEffectStandard Strict (new_effect false) (sample_node OTHER false None none)) (fun e => (lit e, fst (color_of e Diffuse))) (FLAT, Some (0, 0, 0, 1)%Q)) as (e' & E & O); [vm_compute; reflexivity|].
    injection O as O1 O2. exists (sample OTHER false None none), (sample_node OTHER false None none), e'. split; [apply sample_written|]. split; [exact E|]. split; [intro; reflexivity|]. auto.
Qed.
Print Assumptions C118_saved_refuted.
Example C118_demo :
  machine_eps eps_float /\ proper_effect (sample BLINN true None none) /\ untextured (sample BLINN true None none) /\
  WriteEffectStandard eps_float [] [] (tx "common") (sample BLINN true None none) (sample_node BLINN true None none) /\
  option_map (fun e' => (lit e', mode e', is_factor e', is_reflective e', is_refractive e', color_of e' Diffuse, color_of e' Ambient, number_of e' Shininess, number_of e' Refraction))
    (LoadEffectStandard Strict (new_effect true) (sample_node BLINN true None none)) =
  Some (BLINN, A_ONE, true, true, false, (Some (1, 5 # 10, 0, 1)%Q, None), (Some (0, 0, 0, 1)%Q, Some (tx "shade")), (5%Q, None), (1%Q, None)).
Proof.
  split; [now left|]. split; [apply sample_proper; discriminate|]. split; [intro; reflexivity|]. split; [apply sample_written|]. vm_compute. reflexivity.
Qed.
