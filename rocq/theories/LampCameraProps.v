(** C108 (cameras written and loaded), C109 (what is loaded from a <camera>). *)
From Coq Require Import String List ZArith QArith Qabs Bool Lia.
From Verif Require Import TextModel TextSpec StringModel StringProofs XmlModel UniqueSpec IdModel IdProps FloatModel FloatSpec FloatProofs FloatWrite FloatProps DaeModel DaeSpec DaeProofs ExtraModel ExtraProps RigSpec RigProofs RigWriteProofs CustomModel CustomSpec CustomProofs CustomNoteProofs CustomProps NodeSpec LampModel LampSpec LampProofs LampWriteProofs LampSafeProofs LampCameraProofs LampProps.
Import ListNotations.
Local Open Scope list_scope.

(** *** C109 *)
(** What is loaded from a document of any tool: the last element of each name counts; what is not given is as in a new camera; the aspect
    ratio is the one of the document when it comes last or when one of the views is missing, and otherwise the quotient of the views. *)
Lemma number_is a p q r : number_read a p r -> one_number (snd p) q -> (r == q)%Q.
Proof. intros (rest & E) H. destruct (read_one a _ q H) as (r' & rest' & E' & Hr). rewrite E' in E. injection E as -> _. exact Hr. Qed.
Lemma loaded_parameters a pr s : (forall k t, In k camera_words -> In (k, t) s -> exists q, one_number t q) ->
  exists c, fold_option (camera_step a) s (Some (SetProjectionType pr new_camera)) = Some c /\
    proj c = pr /\
    (forall t q, last_setting s (tx "znear") t -> one_number t q -> (nearZ c == q)%Q) /\ (~ In (tx "znear") (map fst s) -> nearZ c = 1%Q) /\
    (forall t q, last_setting s (tx "zfar") t -> one_number t q -> (farZ c == q)%Q) /\ (~ In (tx "zfar") (map fst s) -> farZ c = 1000%Q) /\
    (forall k t q, last_among s (view_words true) k t -> one_number t q -> (viewX c == q)%Q /\ hasX c = true) /\
    (none_among s (view_words true) -> viewX c = 60%Q /\ hasX c = false) /\
    (forall k t q, last_among s (view_words false) k t -> one_number t q -> (viewY c == q)%Q /\ hasY c = true) /\
    (none_among s (view_words false) -> viewY c = 60%Q /\ hasY c = false) /\
    (forall t q, last_among s shape_words (tx "aspect_ratio") t -> one_number t q -> exists r, aspect c = Some r /\ (r == q)%Q) /\
    (forall t q, none_among s (view_words true) \/ none_among s (view_words false) -> last_setting s (tx "aspect_ratio") t -> one_number t q -> exists r, aspect c = Some r /\ (r == q)%Q) /\
    (none_among s (view_words true) \/ none_among s (view_words false) -> ~ In (tx "aspect_ratio") (map fst s) -> aspect c = Some 1%Q) /\
    (forall k t, last_among s shape_words k t -> k <> tx "aspect_ratio" -> hasX c = true -> hasY c = true -> (1 # 10000 <= Qabs (viewX c))%Q -> ratio_of (viewX c) (viewY c) (aspect c)).
Proof.
  intro R. set (x := SetProjectionType pr new_camera). destruct (fold_total (camera_step a) s) with (x := x) as (c & E); [now apply step_total|]. exists c. split; [exact E|].
  split. { destruct (fold_last (camera_step a) proj (fun _ => false) (fun _ _ => True) (fun _ _ _ _ _ => I) (fun x b y H _ => proj_same a x b y H) s x c E) as (_ & T). now apply T. }
  destruct (fold_last (camera_step a) nearZ (in_group GN) (number_read a) (near_hit a) (near_miss a) s x c E) as (N1 & N2).
  destruct (fold_last (camera_step a) farZ (in_group GF) (number_read a) (far_hit a) (far_miss a) s x c E) as (F1 & F2).
  destruct (fold_last (camera_step a) (fun c => (viewX c, hasX c)) (in_group GX) (fun b o => number_read a b (fst o) /\ snd o = true) (x_hit a) (x_miss a) s x c E) as (X1 & X2).
  destruct (fold_last (camera_step a) (fun c => (viewY c, hasY c)) (in_group GY) (fun b o => number_read a b (fst o) /\ snd o = true) (y_hit a) (y_miss a) s x c E) as (Y1 & Y2).
  assert (L : forall g k t before after, g <> GO -> s = before ++ (k, t) :: after -> In k (words g) -> (forall k', In k' (words g) -> ~ In k' (map fst after)) ->
            in_group g (k, t) = true /\ forall d, In d after -> in_group g d = false).
  { intros g k t before after Hg _ Hk Ha. split; [now apply group_eq_iff, group_words|]. now apply none_in_group. }
  split. { intros t q (before & after & Es & Ha) Hq. destruct (L GN (tx "znear") t before after) as (L1 & L2); [discriminate|exact Es|left; reflexivity|intros k' [<-|[]]; exact Ha|]. exact (number_is _ _ _ _ (N1 _ _ _ Es L1 L2) Hq). }
  split. { intro H. apply N2. apply none_in_group; [discriminate|]. intros k' [<-|[]]; exact H. }
  split. { intros t q (before & after & Es & Ha) Hq. destruct (L GF (tx "zfar") t before after) as (L1 & L2); [discriminate|exact Es|left; reflexivity|intros k' [<-|[]]; exact Ha|]. exact (number_is _ _ _ _ (F1 _ _ _ Es L1 L2) Hq). }
  split. { intro H. apply F2. apply none_in_group; [discriminate|]. intros k' [<-|[]]; exact H. }
  split. { intros k t q (before & after & Es & Hk & Ha) Hq. destruct (L GX k t before after) as (L1 & L2); [discriminate|exact Es|exact Hk|exact Ha|]. destruct (X1 _ _ _ Es L1 L2) as (A & B). split; [exact (number_is _ _ _ _ A Hq)|exact B]. }
  split. { intro H. assert (T : (viewX c, hasX c) = (60%Q, false)) by (apply X2; now apply (none_in_group GX)). now injection T. }
  split. { intros k t q (before & after & Es & Hk & Ha) Hq. destruct (L GY k t before after) as (L1 & L2); [discriminate|exact Es|exact Hk|exact Ha|]. destruct (Y1 _ _ _ Es L1 L2) as (A & B). split; [exact (number_is _ _ _ _ A Hq)|exact B]. }
  split. { intro H. assert (T : (viewY c, hasY c) = (60%Q, false)) by (apply Y2; now apply (none_in_group GY)). now injection T. }
  assert (SW : forall g k, g = GX \/ g = GY \/ g = GA -> In k (words g) -> In k shape_words).
  { intros g k Hg Hk. unfold shape_words. destruct Hg as [->|[->| ->]]; cbn in *; tauto. }
  assert (ST : forall after : list (str * str), (forall k', In k' shape_words -> ~ In k' (map fst after)) -> forall b, In b after -> group_of (fst b) <> GX /\ group_of (fst b) <> GY /\ group_of (fst b) <> GA).
  { intros after Ha b Hb. assert (Z : forall g, g = GX \/ g = GY \/ g = GA -> group_of (fst b) <> g).
    { intros g Hg Eg. apply group_words in Eg; [|destruct Hg as [->|[->| ->]]; discriminate]. exact (Ha _ (SW g _ Hg Eg) (in_map fst _ _ Hb)). }
    auto 8. }
  assert (AR : forall before t after c0 c1, s = before ++ (tx "aspect_ratio", t) :: after -> camera_step a c0 (tx "aspect_ratio", t) = Some c1 -> forall q, one_number t q -> exists r, aspect c1 = Some r /\ (r == q)%Q).
  { intros before t after c0 c1 _ E1 q Hq. destruct (step_form _ _ _ _ E1) as [(X & _)|(v & rest & Ev & ->)]; [vm_compute in X; discriminate X|].
    destruct (read_one a t q Hq) as (r & rest' & Er & Hr). cbn [snd] in Ev. rewrite Er in Ev. injection Ev as <- _. exists r. split; [reflexivity|exact Hr]. }
  split. { intros t q (before & after & Es & _ & Ha) Hq. rewrite Es in E. destruct (split_fold a _ _ _ _ _ E) as (c0 & c1 & E0 & E1 & E2).
    rewrite (aspect_still a after (ST after Ha) c1 c E2). exact (AR _ _ _ _ _ Es E1 _ Hq). }
  assert (OV : forall g, g = GX \/ g = GY -> none_among s (words g) -> forall b, In b s -> group_of (fst b) <> g).
  { intros g Hg H b Hb Eg. apply group_words in Eg; [|destruct Hg as [->| ->]; discriminate]. exact (H _ Eg (in_map fst _ _ Hb)). }
  split. { intros t q H (before & after & Es & Ha) Hq.
    assert (G : exists g, (g = GX \/ g = GY) /\ none_among s (words g)) by (destruct H as [H|H]; [exists GX|exists GY]; auto). destruct G as (g & Hg & H').
    assert (O := OV g Hg H'). clear H. pose proof E as E'. rewrite Es in E'. destruct (split_fold a _ _ _ _ _ E') as (c0 & c1 & E0 & E1 & E2).
    assert (FL : (if group_eq g GX then hasX c1 else hasY c1) = false).
    { destruct (flag_of a _ _ _ E2) as (FX & FY). destruct (flag_of a _ _ _ E) as (GX' & GY'). apply Bool.not_true_iff_false. intro T.
      destruct Hg as [-> | ->]; cbn [group_eq] in T.
      - assert (T' : hasX c = true) by (apply FX; now left). apply GX' in T'. destruct T' as [T'|(b & Hb & Gb)]; [discriminate T'|]. apply group_eq_iff in Gb. exact (O b Hb Gb).
      - assert (T' : hasY c = true) by (apply FY; now left). apply GY' in T'. destruct T' as [T'|(b & Hb & Gb)]; [discriminate T'|]. apply group_eq_iff in Gb. exact (O b Hb Gb). }
    destruct (aspect_one_view a g after Hg) with (x := c1) (y := c) as (A & _); [|exact FL|exact E2|rewrite A; exact (AR _ _ _ _ _ Es E1 _ Hq)].
    intros b Hb. split; [apply O; rewrite Es; apply in_or_app; right; right; exact Hb|]. intro Gb. apply group_words in Gb; [|discriminate]. destruct Gb as [Gb|[]]. apply Ha. rewrite Gb. now apply in_map. }
  split. { intros H Ha.
    assert (G : exists g, (g = GX \/ g = GY) /\ none_among s (words g)) by (destruct H as [H|H]; [exists GX|exists GY]; auto). destruct G as (g & Hg & H').
    assert (O := OV g Hg H'). destruct (aspect_one_view a g s Hg) with (x := x) (y := c) as (A & _); [|destruct Hg as [-> | ->]; reflexivity|exact E|exact A].
    intros b Hb. split; [now apply O|]. intro Gb. apply group_words in Gb; [|discriminate]. destruct Gb as [Gb|[]]. apply Ha. rewrite Gb. now apply in_map. }
  intros k t (before & after & Es & Hk & Ha) Nk HX HY HZ. pose proof E as E'. rewrite Es in E'. destruct (split_fold a _ _ _ _ _ E') as (c0 & c1 & E0 & E1 & E2).
  assert (SA := ST after Ha). rewrite (aspect_still a after SA c1 c E2). destruct (still_views a after c1 c) as (V1 & V2); [intros b Hb; destruct (SA b Hb) as (? & ? & ?); auto|exact E2|].
  rewrite V1, V2 in *. destruct (flag_of a _ _ _ E2) as (FX & FY).
  assert (NG : forall g b, g = GX \/ g = GY -> In b after -> in_group g b = true -> False).
  { intros g b Hg Hb Gb. apply group_eq_iff in Gb. destruct (SA b Hb) as (? & ? & ?). destruct Hg as [->| ->]; contradiction. }
  assert (H1 : hasX c1 = true) by (apply FX in HX; destruct HX as [HX|(b & Hb & Gb)]; [exact HX|exfalso; exact (NG GX b (or_introl eq_refl) Hb Gb)]).
  assert (H2 : hasY c1 = true) by (apply FY in HY; destruct HY as [HY|(b & Hb & Gb)]; [exact HY|exfalso; exact (NG GY b (or_intror eq_refl) Hb Gb)]).
  assert (NZ : forall v, (1 # 10000 <= Qabs v)%Q -> is_zero v = false).
  { intros v Hv. unfold is_zero. destruct (Qle_bool (1 # 10000) v) eqn:B1; [reflexivity|]. destruct (Qle_bool v (- (1 # 10000))) eqn:B2; [reflexivity|]. exfalso.
    assert (P1 : (v < 1 # 10000)%Q) by (apply Qnot_le_lt; intro Z; apply Qle_bool_iff in Z; congruence).
    assert (P2 : (- (1 # 10000) < v)%Q) by (apply Qnot_le_lt; intro Z; apply Qle_bool_iff in Z; congruence).
    apply (Qlt_not_le (Qabs v) (1 # 10000)); [|exact Hv]. apply Qabs_Qlt_condition. auto. }
  assert (RQ : forall u v, ratio_of u v (quotient u v)).
  { intros u v. unfold ratio_of, quotient. destruct (Qeq_bool v 0) eqn:B; [left; split; [now apply Qeq_bool_iff|reflexivity]|right]. assert (B' : ~ (v == 0)%Q) by (intro Z; apply Qeq_bool_iff in Z; congruence).
    split; [exact B'|]. exists (u / v)%Q. split; [reflexivity|]. field. exact B'. }
  assert (Gk : group_of k = GX \/ group_of k = GY).
  { unfold shape_words in Hk. apply in_app_or in Hk. destruct Hk as [Hk|Hk]; [left; now apply (group_words GX); [discriminate|]|]. apply in_app_or in Hk. destruct Hk as [Hk|Hk]; [right; now apply (group_words GY); [discriminate|]|].
    destruct Hk as [Hk|[]]. congruence. }
  destruct (step_form _ _ _ _ E1) as [(X & _)|(v & rest & _ & ->)]; [cbn [fst] in X; destruct Gk; congruence|]. cbn [fst] in *.
  destruct Gk as [G|G]; rewrite G in *; cbn [set_group SetFovX SetFovY viewX viewY aspect hasX hasY] in *; rewrite ?H1, ?H2, (NZ _ HZ); cbn [andb negb]; apply RQ.
Qed.
Lemma child_found name n c : first_child (children_of n) (is_elem name) c -> FindChildByType n name = Some c.
Proof. intro H. unfold FindChildByType. exact (find_elem_named _ _ _ H). Qed.
Lemma child_missing name n : (forall c, In c (children_of n) -> ~ is_elem name c) -> FindChildByType n name = None.
Proof.
  intro H. unfold FindChildByType. induction (children_of n) as [|c l IH]; [reflexivity|]. cbn [find]. destruct (named c name) eqn:E.
  - exfalso. apply (H c (or_introl eq_refl)). destruct c as [k a ch|t]; [|discriminate]. cbn in E. apply eq_text_iff in E. subst. do 2 eexists. reflexivity.
  - apply IH. intros d Hd. apply H. right. exact Hd.
Qed.
Theorem C109_import : forall a attrs ch e note target o c p pr s,
  LoadTargetedEntity (Elem (tx "camera") attrs ch) = Some (e, note, target) ->
  first_child ch (is_elem "optics") o -> first_child (children_of o) (is_elem "technique_common") c ->
  first_child (children_of c) (is_elem (projection_word pr)) p -> (forall d, In d (children_of c) -> ~ is_elem (projection_word (other pr)) d) ->
  settings (children_of p) s -> (forall k t, In k camera_words -> In (k, t) s -> exists q, one_number t q) ->
  exists cam e', LoadCamera a (Elem (tx "camera") attrs ch) = Some (cam, e', note, target) /\
    default_then (LoadExtraType o) e = Some e' /\
    proj cam = pr /\
    (forall t q, last_setting s (tx "znear") t -> one_number t q -> (nearZ cam == q)%Q) /\ (~ In (tx "znear") (map fst s) -> nearZ cam = 1%Q) /\
    (forall t q, last_setting s (tx "zfar") t -> one_number t q -> (farZ cam == q)%Q) /\ (~ In (tx "zfar") (map fst s) -> farZ cam = 1000%Q) /\
    (forall k t q, last_among s (view_words true) k t -> one_number t q -> (viewX cam == q)%Q /\ hasX cam = true) /\
    (none_among s (view_words true) -> viewX cam = 60%Q /\ hasX cam = false) /\
    (forall k t q, last_among s (view_words false) k t -> one_number t q -> (viewY cam == q)%Q /\ hasY cam = true) /\
    (none_among s (view_words false) -> viewY cam = 60%Q /\ hasY cam = false) /\
    (forall t q, last_among s shape_words (tx "aspect_ratio") t -> one_number t q -> exists r, aspect cam = Some r /\ (r == q)%Q) /\
    (forall t q, none_among s (view_words true) \/ none_among s (view_words false) -> last_setting s (tx "aspect_ratio") t -> one_number t q -> exists r, aspect cam = Some r /\ (r == q)%Q) /\
    (none_among s (view_words true) \/ none_among s (view_words false) -> ~ In (tx "aspect_ratio") (map fst s) -> aspect cam = Some 1%Q) /\
    (forall k t, last_among s shape_words k t -> k <> tx "aspect_ratio" -> hasX cam = true -> hasY cam = true -> (1 # 10000 <= Qabs (viewX cam))%Q -> ratio_of (viewX cam) (viewY cam) (aspect cam)).
Proof.
  intros a attrs ch e note target o c p pr s HL Ho Hc Hp Hq Hs R. destruct (loaded_parameters a pr s R) as (cam & E & K). destruct (loaded_default _ _ _ _ HL) as (ts & Hf).
  destruct (find_then (LoadExtraType o) e ts Hf) as (e' & Ee). exists cam, e'. split; [|split; [exact Ee|exact K]].
  unfold LoadCamera. rewrite HL. change (named (Elem (tx "camera") attrs ch) "camera") with true. cbn [negb].
  rewrite (child_found "optics" (Elem (tx "camera") attrs ch) o Ho). cbn [child]. rewrite (child_found _ _ _ Hc). cbn [child].
  assert (LE : LoadExtra o e = Some e') by (unfold LoadExtra; destruct Ho as (? & ? & _ & (oa & oc & ->) & _); exact Ee). rewrite LE.
  assert (FP : fold_option (LoadCameraParameter a) (FindParameters p) (Some (SetProjectionType pr new_camera)) = Some cam).
  { destruct Hp as (pre & post & _ & (pa & pc & ->) & _). cbn [children_of] in Hs.
    rewrite (fold_pairs (LoadCameraParameter a) (camera_step a) _ s (camera_pairs a) (parameters_settings pc s Hs (tx (projection_word pr)) pa)). exact E. }
  destruct pr; cbn [projection_word other] in *; rewrite (child_found _ _ _ Hp), (child_missing _ _ Hq), FP; reflexivity.
Qed.
Print Assumptions C109_import.
(** No document without the letter I (for the spellings of infinity) in its texts makes the import fail. *)
Theorem C109_safe : forall n, calm n -> exists r, LoadCamera Wrapping n = Some r.
Proof.
  intros n Cn. unfold LoadCamera. destruct (entity_total n) as (e & note & target & HL). rewrite HL. destruct (named n "camera"); cbn [negb]; [|eauto].
  assert (FC : forall m name d, calm m -> FindChildByType m name = Some d -> calm d).
  { intros m name d Cm H. unfold FindChildByType in H. apply find_some in H. eapply calm_children; [exact Cm|apply H]. }
  destruct (FindChildByType n "optics") as [o|] eqn:Eo.
  - destruct (extra_default o e (loaded_default _ _ _ _ HL)) as (e1 & -> & _). cbn [child]. assert (Co := FC _ _ _ Cn Eo). destruct (FindChildByType o "technique_common") as [c|] eqn:Ec; cbn [child]; [|eauto].
    assert (Cc := FC _ _ _ Co Ec).
    assert (F : forall p x, calm p -> exists y, fold_option (LoadCameraParameter Wrapping) (FindParameters p) (Some x) = Some y).
    { intros p x Cp. apply fold_total. intros y b Hb. apply camera_safe. exact (parameters_calm p b Cp Hb). }
    destruct (FindChildByType c "orthographic") as [p|] eqn:E1, (FindChildByType c "perspective") as [q|] eqn:E2; eauto.
    + destruct (F p (SetProjectionType ORTHOGRAPHIC new_camera) (FC _ _ _ Cc E1)) as (y & ->). cbn. eauto.
    + destruct (F q (SetProjectionType PERSPECTIVE new_camera) (FC _ _ _ Cc E2)) as (y & ->). cbn. eauto.
  - cbn [child]. eauto.
Qed.
Print Assumptions C109_safe.
(** Refuted: the parameters of a camera of the document are read.  With both a <perspective> and an <orthographic> nothing is. *)
Definition with_optics (l : list xml) : xml := Elem (tx "camera") [] [Elem (tx "optics") [] [Elem (tx "technique_common") [] l]].
Theorem C109_both_refuted : forall a l1 l2, exists e note target,
  LoadCamera a (with_optics [Elem (tx "perspective") [] l1; Elem (tx "orthographic") [] l2]) = Some (new_camera, e, note, target).
Proof. intros a l1 l2. do 3 eexists. reflexivity. Qed.
(** Refuted: the aspect ratio is a number.  A vertical view of 0 is divided by (FCDCamera.cpp:44, 52: the other view is tested). *)
Theorem C109_zero_refuted : exists c e note target,
  LoadCamera Strict (with_optics [Elem (tx "perspective") [] [element "xfov" "40"; element "yfov" "0"]]) = Some (c, e, note, target) /\ aspect c = None.
Proof. do 4 eexists. split; [vm_compute; reflexivity|reflexivity]. Qed.
(** Refuted: the ratio that the class comment gives (FCDCamera.h:40-43: vertical over horizontal field of view).  The code divides the
    horizontal by the vertical view; and an aspect ratio of the document is replaced when both views are given after it. *)
Theorem C109_ratio_refuted : exists c e note target,
  LoadCamera Strict (with_optics [Elem (tx "perspective") [] [element "aspect_ratio" "3"; element "xfov" "40"; element "yfov" "20"]]) = Some (c, e, note, target) /\
  exists r, aspect c = Some r /\ (r == 2)%Q /\ ~ (r == viewY c / viewX c)%Q.
Proof. do 4 eexists. split; [vm_compute; reflexivity|]. eexists. split; [reflexivity|]. split; vm_compute; [reflexivity|discriminate]. Qed.
Print Assumptions C109_both_refuted.
Print Assumptions C109_zero_refuted.
Print Assumptions C109_ratio_refuted.
Definition foreign_camera : list xml := [element "znear" "1"; element "xfov" "40"; Text (tx " "); element "aspect_ratio" "2"; element "zfar" "100"].
Definition foreign_words : list (str * str) := [(tx "znear", tx "1"); (tx "xfov", tx "40"); (tx "aspect_ratio", tx "2"); (tx "zfar", tx "100")].
Example C109_demo : settings foreign_camera foreign_words /\ (forall k t, In k camera_words -> In (k, t) foreign_words -> exists q, one_number t q) /\
  last_among foreign_words shape_words (tx "aspect_ratio") (tx "2") /\ none_among foreign_words (view_words false) /\ last_among foreign_words (view_words true) (tx "xfov") (tx "40") /\
  exists c e, LoadCamera Strict (with_optics [Elem (tx "perspective") [] foreign_camera]) = Some (c, e, [], []) /\ (viewX c == 40)%Q /\ hasX c = true /\ hasY c = false /\ aspect c = Some 2%Q /\ (farZ c == 100)%Q.
Proof.
  split. { unfold foreign_camera, foreign_words, element. repeat first [apply S_nil | apply S_text | apply S_elem; [intro X; vm_compute in X; discriminate X|intro X; vm_compute in X; discriminate X|do 3 eexists; split; [reflexivity|right; eexists; reflexivity]|]]. }
  split. { intros k t _ [H|[H|[H|[H|[]]]]]; injection H as _ <-; eexists; apply whole_number; try (apply digits_all; reflexivity); discriminate. }
  split. { exists [(tx "znear", tx "1"); (tx "xfov", tx "40")], [(tx "zfar", tx "100")]. split; [reflexivity|]. split; [cbn; auto 8|]. intros k Hk [H|[]]. subst k. cbn [In shape_words view_words app] in Hk. repeat (destruct Hk as [Hk|Hk]; [vm_compute in Hk; discriminate Hk|]). destruct Hk. }
  split. { intros k Hk H. cbn [In view_words] in Hk. destruct Hk as [<-|[<-|[]]]; cbn in H; repeat (destruct H as [H|H]; [vm_compute in H; discriminate H|]); destruct H. }
  split. { exists [(tx "znear", tx "1")], [(tx "aspect_ratio", tx "2"); (tx "zfar", tx "100")]. split; [reflexivity|]. split; [cbn; auto|]. intros k Hk H. cbn [In view_words] in Hk. destruct Hk as [<-|[<-|[]]]; cbn in H; repeat (destruct H as [H|H]; [vm_compute in H; discriminate H|]); destruct H. }
  do 2 eexists. split; [vm_compute; reflexivity|]. repeat split; vm_compute; reflexivity.
Qed.

(** *** C108 *)
Ltac not_word H := cbn [In map fst view_words shape_words app words] in H; repeat (destruct H as [H|H]; [vm_compute in H; discriminate H|]); destruct H.
Ltac word_in := cbn [In view_words shape_words app]; repeat (first [left; reflexivity | right]).
Ltac none_of := let k := fresh in let Hk := fresh in let H := fresh in intros k Hk H; cbn [In view_words shape_words app] in Hk;
  repeat (destruct Hk as [Hk|Hk]; [subst k; not_word H|]); destruct Hk.
Ltac last_at n := match goal with
  | |- last_among ?s _ _ _ => exists (firstn n s), (skipn (S n) s); split; [reflexivity|split; [word_in|cbn [skipn]; none_of]]
  | |- last_setting ?s _ _ => exists (firstn n s), (skipn (S n) s); split; [reflexivity|cbn [skipn]; let H := fresh in intro H; not_word H]
  end.
Lemma written_settings eps vals texts : machine_eps eps ->
  Forall2 (fun p t => exists q, snd p = Some q /\ appends eps (Fin q) t) vals texts -> (forall p q, In p vals -> snd p = Some q -> finite q) ->
  (forall p : string * option Q, In p vals -> tx (fst p) <> tx "technique" /\ tx (fst p) <> tx "extra") ->
  settings (map (fun pt : (string * option Q) * str => Elem (tx (fst (fst pt))) [] (content (snd pt))) (combine vals texts)) (map (fun pt => (tx (fst (fst pt)), snd pt)) (combine vals texts)) /\
  Forall2 (fun p t => exists q r, snd p = Some q /\ one_number t r /\ remains eps q r) vals texts.
Proof.
  intros He F. induction F as [|p t vals texts (q & Eq & Ht) F IH]; intros Hf Hn; [split; constructor|].
  destruct IH as (S1 & S2); [intros; eapply Hf; [right|]; eauto|intros; apply Hn; right; assumption|]. destruct (Hn p (or_introl eq_refl)) as (N1 & N2).
  assert (Fq : finite q) by (apply (Hf p); [left; reflexivity|exact Eq]). destruct (printed_text eps q t He Fq Ht) as (Tn & _). destruct (printed_number eps q t He Fq Ht) as (r & R1 & R2).
  split; [|constructor; [eauto 6|exact S2]]. cbn [combine map fst snd]. apply S_elem; [exact N1|exact N2| |exact S1]. do 3 eexists. split; [reflexivity|]. right. exists []. destruct t; [congruence|reflexivity].
Qed.
Lemma technique_first e x : with_technique (tx "FCOLLADA") e x -> hd_error (map fst x) = Some [].
Proof. intros [ts r H|ts r H]; reflexivity. Qed.
(** The full statement: every camera is written and loaded unchanged, with its extra tree, note and target.  False: see below.  Proved: the
    views whose flag is set, or the vertical one when none is, the aspect ratio unless both views are set, and the clip planes survive. *)
Theorem C108_round_trip_partial : forall a eps attrs c e note target n e',
  machine_eps eps -> proper_camera c -> sound_extra e -> has_data e \/ e = new_extra \/ note <> [] \/ target <> None ->
  plain note -> (forall id, target = Some id -> plain id) -> no_notes e -> no_targets e ->
  WriteCamera eps attrs c e note target n e' ->
  (~ empty_technique (tx "FCOLLADA") e -> e' = e) /\
  exists c' loaded, LoadCamera a n = Some (c', loaded, note, match target with Some id => 35%Z :: id | None => [] end) /\
    (note = [] -> target = None -> loaded = e) /\ (note <> [] \/ target <> None -> with_technique (tx "FCOLLADA") e loaded) /\
    proj c' = proj c /\ remains eps (nearZ c) (nearZ c') /\ remains eps (farZ c) (farZ c') /\
    (hasX c = true -> hasX c' = true /\ remains eps (viewX c) (viewX c')) /\ (hasX c = false -> hasX c' = false /\ viewX c' = 60%Q) /\
    (hasX c = false \/ hasY c = true -> hasY c' = true /\ remains eps (viewY c) (viewY c')) /\ (hasX c = true -> hasY c = false -> hasY c' = false /\ viewY c' = 60%Q) /\
    (hasX c = false \/ hasY c = false -> exists q r, aspect c = Some q /\ aspect c' = Some r /\ remains eps q r) /\
    (hasX c = true -> hasY c = true -> (1 # 10000 <= Qabs (viewX c'))%Q -> ratio_of (viewX c') (viewY c') (aspect c')).
Proof.
  intros a eps attrs c e note target n e' He (Fx & Fy & Fn & Ff & q0 & Eq0 & Fq0) Se D Pn Pt NN NT (texts & l & Ft & Wt & ->).
  destruct (written_settings eps _ _ He Ft) as (HS & HR).
  { intros p q Hp Eq. unfold camera_values in Hp. apply in_app_or in Hp. destruct Hp as [Hp|Hp]; [destruct (hasX c); [|destruct Hp]; destruct Hp as [<-|[]]; injection Eq as <-; exact Fx|].
    apply in_app_or in Hp. destruct Hp as [Hp|Hp]; [destruct (negb (hasX c) || hasY c); [|destruct Hp]; destruct Hp as [<-|[]]; injection Eq as <-; exact Fy|].
    apply in_app_or in Hp. destruct Hp as [Hp|Hp]; [destruct (HasAspectRatio c); [|destruct Hp]; destruct Hp as [<-|[]]; cbn in Eq; rewrite Eq0 in Eq; injection Eq as <-; exact Fq0|].
    destruct Hp as [<-|[<-|[]]]; injection Eq as <-; assumption. }
  { intros p Hp. assert (G : In (fst p) ["xfov"; "yfov"; "xmag"; "ymag"; "aspect_ratio"; "znear"; "zfar"]%string).
    { unfold camera_values, view_name, HasAspectRatio in Hp. destruct (hasX c), (hasY c), (proj c); cbn in Hp; repeat (destruct Hp as [<-|Hp]; [cbn; auto 10|]); destruct Hp. }
    cbn [In] in G. repeat (destruct G as [<-|G]; [split; intro X; vm_compute in X; discriminate X|]). destruct G. }
  set (p := Elem (tx (projection_name (proj c))) [] _) in *. set (common := Elem (tx "technique_common") [] [p]). set (o := Elem (tx "optics") [] [common]).
  destruct (C105_entity_partial e note target (tx "camera") attrs [o] [] Se D Pn Pt NN NT) as (l' & e2 & loaded & Wt' & A & L & L1 & L2).
  { intros m [[<-|[]]|[]]. split; vm_compute; reflexivity. }
  assert (E' : (l', e2) = (l, e')) by congruence. injection E' as -> ->. rewrite app_nil_r in L. split; [exact A|].
  assert (PW : projection_name (proj c) = projection_word (proj c)) by (destruct (proj c); reflexivity).
  set (s := map (fun pt : (string * option Q) * str => (tx (fst (fst pt)), snd pt)) (combine (camera_values c) texts)) in *.
  destruct (C109_import a attrs ([o] ++ l) loaded note (match target with Some id => 35%Z :: id | None => [] end) o common p (proj c) s L) as (c' & e3 & LC & LE & Kp & Kn & _ & Kf & _ & KX & KX0 & KY & KY0 & KA & _ & _ & KR).
  - exists [], l. split; [reflexivity|]. split; [do 2 eexists; reflexivity|constructor].
  - exists [], []. split; [reflexivity|]. split; [do 2 eexists; reflexivity|constructor].
  - exists [], []. split; [reflexivity|]. split; [unfold p; rewrite PW; do 2 eexists; reflexivity|constructor].
  - intros d [<-|[]] (da & dc & Ed). unfold p in Ed. injection Ed as Ed _. destruct (proj c); vm_compute in Ed; discriminate Ed.
  - exact HS.
  - intros k t _ Hin. unfold s in Hin. clear -HR Hin. induction HR as [|v u vals texts (q & r & _ & R1 & _) HR IH]; [destruct Hin|]. cbn [combine map] in Hin. destruct Hin as [Hin|Hin]; [injection Hin as _ <-; eauto|auto].
  - assert (Le : e3 = loaded).
    { assert (HD : hd_error (map fst loaded) = Some []).
      { destruct note as [|z note]; [destruct target as [id|]|].
        - apply (technique_first e). apply L2. right. intro X. discriminate X.
        - rewrite (L1 eq_refl eq_refl). apply Se.
        - apply (technique_first e). apply L2. left. intro X. discriminate X. }
      cut (default_then (LoadExtraType o) loaded = Some loaded); [intro X; rewrite X in LE; now injection LE|]. apply default_type_same.
      - intros m [<-|[]]. reflexivity.
      - intro X. rewrite X in HD. discriminate HD.
      - exact HD. }
    subst e3. exists c', loaded. split; [exact LC|]. split; [exact L1|]. split; [exact L2|]. split; [exact Kp|].
    subst s. clear - HR Kn Kf KX KX0 KY KY0 KA KR Eq0. revert HR Kn Kf KX KX0 KY KY0 KA KR. unfold camera_values, HasAspectRatio, view_name.
    destruct (hasX c) eqn:EX, (hasY c) eqn:EY; cbn [negb orb andb app]; intro HR.
    + inversion HR as [|? t1 ? ? (q1 & r1 & E1 & N1 & R1) HR1]; subst. inversion HR1 as [|? t2 ? ? (q2 & r2 & E2 & N2 & R2) HR2]; subst.
      inversion HR2 as [|? t3 ? ? (q3 & r3 & E3 & N3 & R3) HR3]; subst. inversion HR3 as [|? t4 ? ? (q4 & r4 & E4 & N4 & R4) HR4]; subst. inversion HR4; subst. clear HR HR1 HR2 HR3 HR4.
      cbn [snd] in E1, E2, E3, E4. injection E1 as <-. injection E2 as <-. injection E3 as <-. injection E4 as <-. cbn [combine map fst snd]. destruct (proj c); cbv zeta; intros Kn Kf KX KX0 KY KY0 KA KR.
      * assert (T1 := KX (tx "xfov") t1 r1 ltac:(last_at 0%nat) N1). assert (T2 := KY (tx "yfov") t2 r2 ltac:(last_at 1%nat) N2). assert (T3 := Kn t3 r3 ltac:(last_at 2%nat) N3). assert (T4 := Kf t4 r4 ltac:(last_at 3%nat) N4).
        assert (T5 := KR (tx "yfov") t2 ltac:(last_at 1%nat) ltac:(intro X; vm_compute in X; discriminate X)).
        destruct T1 as (T1 & TX). destruct T2 as (T2 & TY). repeat split; try (intuition congruence); try (eapply remains_eq; eauto); try (intros [X|X]; discriminate X); intros _ _; now apply T5.
      * assert (T1 := KX (tx "xmag") t1 r1 ltac:(last_at 0%nat) N1). assert (T2 := KY (tx "ymag") t2 r2 ltac:(last_at 1%nat) N2). assert (T3 := Kn t3 r3 ltac:(last_at 2%nat) N3). assert (T4 := Kf t4 r4 ltac:(last_at 3%nat) N4).
        assert (T5 := KR (tx "ymag") t2 ltac:(last_at 1%nat) ltac:(intro X; vm_compute in X; discriminate X)).
        destruct T1 as (T1 & TX). destruct T2 as (T2 & TY). repeat split; try (intuition congruence); try (eapply remains_eq; eauto); try (intros [X|X]; discriminate X); intros _ _; now apply T5.
    + inversion HR as [|? t1 ? ? (q1 & r1 & E1 & N1 & R1) HR1]; subst. inversion HR1 as [|? t2 ? ? (q2 & r2 & E2 & N2 & R2) HR2]; subst.
      inversion HR2 as [|? t3 ? ? (q3 & r3 & E3 & N3 & R3) HR3]; subst. inversion HR3 as [|? t4 ? ? (q4 & r4 & E4 & N4 & R4) HR4]; subst. inversion HR4; subst. clear HR HR1 HR2 HR3 HR4.
      cbn [snd] in E1, E2, E3, E4. injection E1 as <-. injection E3 as <-. injection E4 as <-. cbn [combine map fst snd]. destruct (proj c); cbv zeta; intros Kn Kf KX KX0 KY KY0 KA KR.
      * assert (T1 := KX (tx "xfov") t1 r1 ltac:(last_at 0%nat) N1). assert (T2 := KY0 ltac:(none_of)). assert (T3 := Kn t3 r3 ltac:(last_at 2%nat) N3). assert (T4 := Kf t4 r4 ltac:(last_at 3%nat) N4).
        assert (T5 := KA t2 r2 ltac:(last_at 1%nat) N2). destruct T5 as (r & T5 & T6).
        destruct T1 as (T1 & TX). destruct T2 as (T2 & TY). repeat split; try (intuition congruence); try (eapply remains_eq; eauto). intros _. exists q2, r. repeat split; auto; eapply remains_eq; eauto.
      * assert (T1 := KX (tx "xmag") t1 r1 ltac:(last_at 0%nat) N1). assert (T2 := KY0 ltac:(none_of)). assert (T3 := Kn t3 r3 ltac:(last_at 2%nat) N3). assert (T4 := Kf t4 r4 ltac:(last_at 3%nat) N4).
        assert (T5 := KA t2 r2 ltac:(last_at 1%nat) N2). destruct T5 as (r & T5 & T6).
        destruct T1 as (T1 & TX). destruct T2 as (T2 & TY). repeat split; try (intuition congruence); try (eapply remains_eq; eauto). intros _. exists q2, r. repeat split; auto; eapply remains_eq; eauto.
    + inversion HR as [|? t1 ? ? (q1 & r1 & E1 & N1 & R1) HR1]; subst. inversion HR1 as [|? t2 ? ? (q2 & r2 & E2 & N2 & R2) HR2]; subst.
      inversion HR2 as [|? t3 ? ? (q3 & r3 & E3 & N3 & R3) HR3]; subst. inversion HR3 as [|? t4 ? ? (q4 & r4 & E4 & N4 & R4) HR4]; subst. inversion HR4; subst. clear HR HR1 HR2 HR3 HR4.
      cbn [snd] in E1, E2, E3, E4. injection E1 as <-. injection E3 as <-. injection E4 as <-. cbn [combine map fst snd]. destruct (proj c); cbv zeta; intros Kn Kf KX KX0 KY KY0 KA KR.
      * assert (T1 := KY (tx "yfov") t1 r1 ltac:(last_at 0%nat) N1). assert (T2 := KX0 ltac:(none_of)). assert (T3 := Kn t3 r3 ltac:(last_at 2%nat) N3). assert (T4 := Kf t4 r4 ltac:(last_at 3%nat) N4).
        assert (T5 := KA t2 r2 ltac:(last_at 1%nat) N2). destruct T5 as (r & T5 & T6).
        destruct T1 as (T1 & TX). destruct T2 as (T2 & TY). repeat split; try (intuition congruence); try (eapply remains_eq; eauto). intros _. exists q2, r. repeat split; auto; eapply remains_eq; eauto.
      * assert (T1 := KY (tx "ymag") t1 r1 ltac:(last_at 0%nat) N1). assert (T2 := KX0 ltac:(none_of)). assert (T3 := Kn t3 r3 ltac:(last_at 2%nat) N3). assert (T4 := Kf t4 r4 ltac:(last_at 3%nat) N4).
        assert (T5 := KA t2 r2 ltac:(last_at 1%nat) N2). destruct T5 as (r & T5 & T6).
        destruct T1 as (T1 & TX). destruct T2 as (T2 & TY). repeat split; try (intuition congruence); try (eapply remains_eq; eauto). intros _. exists q2, r. repeat split; auto; eapply remains_eq; eauto.
    + inversion HR as [|? t1 ? ? (q1 & r1 & E1 & N1 & R1) HR1]; subst. inversion HR1 as [|? t2 ? ? (q2 & r2 & E2 & N2 & R2) HR2]; subst.
      inversion HR2 as [|? t3 ? ? (q3 & r3 & E3 & N3 & R3) HR3]; subst. inversion HR3 as [|? t4 ? ? (q4 & r4 & E4 & N4 & R4) HR4]; subst. inversion HR4; subst. clear HR HR1 HR2 HR3 HR4.
      cbn [snd] in E1, E2, E3, E4. injection E1 as <-. injection E3 as <-. injection E4 as <-. cbn [combine map fst snd]. destruct (proj c); cbv zeta; intros Kn Kf KX KX0 KY KY0 KA KR.
      * assert (T1 := KY (tx "yfov") t1 r1 ltac:(last_at 0%nat) N1). assert (T2 := KX0 ltac:(none_of)). assert (T3 := Kn t3 r3 ltac:(last_at 2%nat) N3). assert (T4 := Kf t4 r4 ltac:(last_at 3%nat) N4).
        assert (T5 := KA t2 r2 ltac:(last_at 1%nat) N2). destruct T5 as (r & T5 & T6).
        destruct T1 as (T1 & TX). destruct T2 as (T2 & TY). repeat split; try (intuition congruence); try (eapply remains_eq; eauto). intros _. exists q2, r. repeat split; auto; eapply remains_eq; eauto.
      * assert (T1 := KY (tx "ymag") t1 r1 ltac:(last_at 0%nat) N1). assert (T2 := KX0 ltac:(none_of)). assert (T3 := Kn t3 r3 ltac:(last_at 2%nat) N3). assert (T4 := Kf t4 r4 ltac:(last_at 3%nat) N4).
        assert (T5 := KA t2 r2 ltac:(last_at 1%nat) N2). destruct T5 as (r & T5 & T6).
        destruct T1 as (T1 & TX). destruct T2 as (T2 & TY). repeat split; try (intuition congruence); try (eapply remains_eq; eauto). intros _. exists q2, r. repeat split; auto; eapply remains_eq; eauto.
Qed.
Print Assumptions C108_round_trip_partial.
(** Every camera with finite values can be written. *)
Theorem C108_writable : forall eps attrs c e note target,
  machine_eps eps -> proper_camera c -> sound_extra e -> has_data e \/ e = new_extra \/ note <> [] \/ target <> None ->
  plain note -> (forall id, target = Some id -> plain id) -> no_notes e -> no_targets e -> exists n e', WriteCamera eps attrs c e note target n e'.
Proof.
  intros eps attrs c e note target He (_ & _ & _ & _ & q0 & Eq0 & _) Se D Pn Pt NN NT.
  destruct (C105_entity_partial e note target (tx "camera") attrs [] [] Se D Pn Pt NN NT) as (l & e' & loaded & W & _); [intros m [[]|[]]|].
  assert (T : forall vals : list (string * option Q), (forall p, In p vals -> exists q, snd p = Some q) -> exists texts, Forall2 (fun p t => exists q, snd p = Some q /\ appends eps (Fin q) t) vals texts).
  { induction vals as [|p vals IH]; intro H; [exists []; constructor|]. destruct (H p (or_introl eq_refl)) as (q & Eq). destruct (C78_writable eps (Fin q) He) as (t & Ht).
    destruct IH as (texts & F); [intros p' Hp; apply H; right; exact Hp|]. exists (t :: texts). constructor; eauto. }
  destruct (T (camera_values c)) as (texts & F); [|eexists _, e'; exists texts, l; split; [exact F|split; [exact W|reflexivity]]].
  intros p Hp. unfold camera_values in Hp. repeat (apply in_app_or in Hp; destruct Hp as [Hp|Hp]).
  - destruct (hasX c); [|destruct Hp]. destruct Hp as [<-|[]]. eexists. reflexivity.
  - destruct (negb (hasX c) || hasY c); [|destruct Hp]. destruct Hp as [<-|[]]. eexists. reflexivity.
  - destruct (HasAspectRatio c); [|destruct Hp]. destruct Hp as [<-|[]]. exists q0. exact Eq0.
  - destruct Hp as [<-|[<-|[]]]; eexists; reflexivity.
Qed.
Print Assumptions C108_writable.
Definition camera_texts (c : camera) (texts : list str) : Prop := Forall2 (fun p t => exists q, snd p = Some q /\ appends eps_float (Fin q) t) (camera_values c) texts.
Lemma camera_written c texts e note target n e' l : camera_texts c texts -> WriteTargetedEntityExtra e note target = Some (l, e') ->
  n = Elem (tx "camera") [] ([Elem (tx "optics") [] [Elem (tx "technique_common") [] [Elem (tx (projection_name (proj c))) []
        (map (fun pt => Elem (tx (fst (fst pt))) [] (content (snd pt))) (combine (camera_values c) texts))]]] ++ l) -> WriteCamera eps_float [] c e note target n e'.
Proof. intros H1 H2 H3. exists texts, l. auto. Qed.
Ltac text_is q H := apply Forall2_cons; [exists q; split; [reflexivity|exact H]|].
(** A camera with a horizontal view and an aspect ratio. *)
Definition wide : camera := SetAspectRatio (1 # 2) (SetFovX 45 (SetFarZ 60 new_camera)).
Lemma small_finite q : (Qabs q <= Qpower 10 3)%Q -> finite q.
Proof. intro H. apply Qle_trans with (1 := H). apply p10_le. lia. Qed.
Example C108_demo : exists n, WriteCamera eps_float [] wide lamp_data (tx "a note") (Some (tx "node-1")) n lamp_data /\ proper_camera wide /\ hasX wide = true /\ hasY wide = false /\
  exists c' loaded, LoadCamera Strict n = Some (c', loaded, tx "a note", tx "#node-1") /\
    loaded = [([], [(tx "MY_TOOL", ENode [] [] [] [ENode (tx "a") (tx "1") [] []]); (tx "FCOLLADA", ENode [] [] [] [])]); (tx "x", [])] /\
    c' = Camera PERSPECTIVE 45 60 (Some (5 # 10)%Q) 1 60 true false.
Proof.
  eexists. split; [eapply camera_written with (texts := [tx "45"; tx "0.5"; tx "1"; tx "60"]); [unfold camera_texts; text_is 45%Q print_45; text_is (1 # 2)%Q print_half; text_is 1%Q print_1; text_is 60%Q print_60; apply Forall2_nil|vm_compute; reflexivity|reflexivity]|].
  split; [unfold proper_camera, wide; cbn; repeat split; try (apply small_finite; vm_compute; discriminate); eexists; (split; [reflexivity|]); apply small_finite; vm_compute; discriminate|].
  split; [reflexivity|]. split; [reflexivity|]. do 2 eexists. split; [vm_compute; reflexivity|]. split; reflexivity.
Qed.
(** Refuted: the flags and the views of a camera survive.  A camera without flags is written with its vertical view, which sets the flag
    when it is loaded; its horizontal view is lost. *)
Theorem C108_flags_refuted : exists n, WriteCamera eps_float [] (Camera PERSPECTIVE 45 60 (Some 1%Q) 1 60 false false) new_extra [] None n new_extra /\
  exists c' e, LoadCamera Strict n = Some (c', e, [], []) /\ hasY c' = true /\ viewX c' = 60%Q.
Proof.
  eexists. split; [eapply camera_written with (texts := [tx "60"; tx "1"; tx "1"; tx "60"]); [unfold camera_texts; text_is 60%Q print_60; text_is 1%Q print_1; text_is 1%Q print_1; text_is 60%Q print_60; apply Forall2_nil|vm_compute; reflexivity|reflexivity]|].
  do 2 eexists. split; [vm_compute; reflexivity|]. split; reflexivity.
Qed.
(** Refuted: the aspect ratio that was set survives.  With both views it is not written (FAXCameraExport.cpp:56) and the quotient of the
    views takes its place. *)
Definition anamorphic : camera := SetAspectRatio (1 # 2) (SetFovY 45 (SetFovX 45 (SetFarZ 60 new_camera))).
Theorem C108_aspect_refuted : exists n, WriteCamera eps_float [] anamorphic new_extra [] None n new_extra /\ aspect anamorphic = Some (1 # 2)%Q /\
  exists c' e r, LoadCamera Strict n = Some (c', e, [], []) /\ aspect c' = Some r /\ (r == 1)%Q.
Proof.
  eexists. split; [eapply camera_written with (texts := [tx "45"; tx "45"; tx "1"; tx "60"]); [unfold camera_texts; text_is 45%Q print_45; text_is 45%Q print_45; text_is 1%Q print_1; text_is 60%Q print_60; apply Forall2_nil|vm_compute; reflexivity|reflexivity]|].
  split; [reflexivity|]. do 3 eexists. split; [vm_compute; reflexivity|]. split; reflexivity.
Qed.
Print Assumptions C108_flags_refuted.
Print Assumptions C108_aspect_refuted.
