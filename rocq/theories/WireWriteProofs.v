(** Lemmas for the export of splines. *)
From Coq Require Import String List ZArith QArith Bool Lia Lqa.
From Verif Require Import TextModel TextSpec TextProofs StringModel StringProofs XmlModel EnumModel FloatModel FloatSpec FloatProps DaeModel DaeSpec DaeProofs RigModel RigSpec RigTextProofs RigProofs
  RigWriteProofs AnimModel CustomModel CustomSpec CustomProofs CustomReadProofs AssetModel AssetSpec WireModel WireSpec WireProofs.
Import ListNotations.
Local Open Scope nat_scope.
Local Open Scope list_scope.

Lemma points_split eps : forall ps rs, Forall2 (remains eps) (flat_map coordinates ps) rs ->
  exists qs, rs = flat_map coordinates qs /\ Forall2 (point_remains eps) ps qs.
Proof.
  induction ps as [|[[x y] z] ps IH]; intros rs H; [inversion H; subst; exists []; split; constructor|].
  cbn [flat_map coordinates app] in H. inversion H as [|? x' ? r1 Hx H1]; subst. inversion H1 as [|? y' ? r2 Hy H2]; subst. inversion H2 as [|? z' ? r3 Hz H3]; subst.
  destruct (IH r3 H3) as (qs & -> & Hq). exists ((x', y', z') :: qs). split; [reflexivity|]. constructor; [cbn; auto|exact Hq].
Qed.
Lemma points_joined ps : points_from (flat_map coordinates ps) ps.
Proof. induction ps as [|[[x y] z] ps IH]; cbn; constructor. exact IH. Qed.
Lemma points_finite ps : Forall finite_point ps -> Forall finite (flat_map coordinates ps).
Proof. induction 1 as [|[[x y] z] ps (H1 & H2 & H3) _ IH]; cbn; repeat (constructor; auto). Qed.
Lemma same_self ps : Forall2 same_point ps ps.
Proof. induction ps as [|[[x y] z] ps IH]; constructor; auto. cbn. repeat split; reflexivity. Qed.
Lemma same_numbers l : Forall2 (fun x y => y == x)%Q l l.
Proof. induction l; constructor; auto. reflexivity. Qed.
Lemma digits_plain n : plain (append_u64 n).
Proof. unfold append_u64. apply dec_plain. unfold u32. apply Z.mod_pos_bound. lia. Qed.
Ltac plain_word := split; [apply Forall_forall; let c := fresh in let H := fresh in intros c H; vm_compute in H; intuition (subst; lia)|let H := fresh in intro H; vm_compute in H; intuition discriminate].
Lemma name_of id k i : geometry_id id -> In k ["-cvs-"; "-weights-"; "-knots-"]%string -> source_name (spline_id id k i).
Proof.
  intros (Hp & Hh) Hk. unfold spline_id. split; [split|].
  - apply plain_app; [exact Hp|]. apply plain_app; [|apply digits_plain]. cbn in Hk. repeat (destruct Hk as [<- | Hk]; [plain_word|]). destruct Hk.
  - cbn in Hk. repeat (destruct Hk as [<- | Hk]; [destruct id; discriminate|]). destruct Hk.
  - intros r E. destruct id as [|c id]; [cbn in Hk; repeat (destruct Hk as [<- | Hk]; [discriminate|]); destruct Hk|]. cbn in E. injection E as -> _. now apply (Hh id).
Qed.
Lemma input_made ch id sem s : source_name id -> plain (tx sem) -> tx sem <> [] -> first_child ch (with_id id) s ->
  exists i, AddInput id (tx sem) (-1) (-1) = [i] /\ is_elem "input" i /\ input_for ch i (tx sem) s.
Proof.
  intros Hid Hs Hn Hf. unfold AddInput. destruct id as [|c id]; [now destruct Hid as ((_ & X) & _)|]. destruct (tx sem) as [|c2 t] eqn:E; [congruence|]. rewrite <- E in *. clear E.
  eexists. split; [reflexivity|]. split; [eexists; eexists; reflexivity|]. split; [exact Hs|]. split.
  - eexists _, _, [], _. split; [reflexivity|constructor].
  - exists (c :: id). split; [exact Hid|]. split; [|exact Hf]. eexists _, _, [_], _. split; [reflexivity|]. constructor; [discriminate|constructor].
Qed.
Lemma source_says id t a b c d e rs : numbers_of float_text t rs -> float_source (AddSource id "float_array" t a b c d e) rs.
Proof. intro H. destruct (source_array id "float_array" t a b c d e) as (nm & at' & ch & x & -> & A & B). exists nm, at', ch, x, t. auto. Qed.
Lemma source_elem k id arr t a b c d e : tx k <> tx "source" -> ~ is_elem k (AddSource id arr t a b c d e).
Proof. intro H. now apply not_elem. Qed.
Lemma source_ids id arr t a b c d e v : has_attr (AddSource id arr t a b c d e) "id" v -> v = id.
Proof.
  intros (nm & ch & pre & post & E & Hp). unfold AddSource in E. injection E as _ E _.
  destruct pre as [|x pre]; cbn in E; [now injection E as E _|]. injection E as <- E. inversion Hp as [|? ? H _]; subst. now destruct H.
Qed.
Lemma no_id name attrs ch v : (forall w, ~ In (tx "id", w) attrs) -> ~ has_attr (Elem name attrs ch) "id" v.
Proof. intros H (nm & c & pre & post & E & _). injection E as _ -> _. apply (H v). apply in_app_iff. right. now left. Qed.
Lemma child_holds name t : plain t -> holds (AddChild name t) t.
Proof. intro H. exists (all_text (AddChild name t)). split; [apply text_at_all|]. symmetry. unfold AddChild. cbn [all_text]. now apply content_back. Qed.
Lemma content_digits d : (0 <= d)%Z -> has_text (AddChild "degree" (append_u32 d)) (append_u32 d).
Proof.
  intro H. unfold AddChild. assert (E : AddContent (append_u32 d) = append_u32 d) by (apply content_same; unfold append_u32; now apply dec_char).
  rewrite E. apply content_has_text.
Qed.
Theorem written_says eps id i k w n : machine_eps eps -> geometry_id id -> proper_wire k w -> WriteSpline eps id i k w n ->
  exists w', says_spline n k w' /\ wire_remains eps k w w'.
Proof.
  intros He Hid [Hk Hp (Hfw & Hfk) Hd Hsm Hco] (tc & tw & tk & Tc & Tw & Tk & ->).
  destruct (floats_written eps _ He (points_finite _ Hp) tc Tc) as (rc & Nc & Rc & _). apply points_split in Rc as (ps & -> & Rc).
  destruct (floats_written eps _ He Hfw tw Tw) as (rw & Nw & Rw & _). destruct (floats_written eps _ He Hfk tk Tk) as (rk & Nk & Rk & _).
  set (cid := spline_id id "-cvs-" i). set (wid := spline_id id "-weights-" i). set (kid := spline_id id "-knots-" i).
  assert (Hc : source_name cid) by (apply name_of; [exact Hid|cbn; auto]). assert (Hw : source_name wid) by (apply name_of; [exact Hid|cbn; auto]). assert (Hkn : source_name kid) by (apply name_of; [exact Hid|cbn; auto]).
  assert (Dcw : cid <> wid) by (unfold cid, wid, spline_id; intro X; apply app_inv_head in X; discriminate).
  assert (Dck : cid <> kid) by (unfold cid, kid, spline_id; intro X; apply app_inv_head in X; discriminate).
  assert (Dwk : wid <> kid) by (unfold kid, wid, spline_id; intro X; apply app_inv_head in X; discriminate).
  assert (P1 : plain (tx "POSITION")) by plain_word. assert (P2 : plain (tx "WEIGHTS")) by plain_word. assert (P3 : plain (tx "KNOTS")) by plain_word.
  clearbody cid wid kid.
  exists (Wire [] (if IsClosed w then CLOSED else OPEN) ps (if (k =? NURBS)%Z then rw else []) (if (k =? NURBS)%Z then rk else []) (if (k =? NURBS)%Z then w_degree w else 0%Z)).
  split; [|constructor; cbn; [unfold IsClosed; reflexivity|exact Rc|intros ->; auto]].
  set (n := List.length (w_cvs w)). set (sp := AddSourcePosition cid tc n).
  set (sw := AddSourceFloat wid tw (List.length (w_weights w)) 1 (Some [tx "WEIGHT"])). set (sk := AddSourceFloat kid tk (List.length (w_knots w)) 1 (Some [tx "KNOT"])).
  assert (Ip : with_id cid sp) by apply source_id. assert (Iw : with_id wid sw) by apply source_id. assert (Ik : with_id kid sk) by apply source_id.
  assert (Op : forall x, cid <> x -> ~ with_id x sp) by (intros x Hx; now apply source_other). assert (Ow : forall x, wid <> x -> ~ with_id x sw) by (intros x Hx; now apply source_other).
  assert (Fp : float_source sp (flat_map coordinates ps)) by now apply source_says. assert (Fw : float_source sw rw) by now apply source_says. assert (Fk : float_source sk rk) by now apply source_says.
  assert (Vp : forall v, has_attr sp "id" v -> v = cid) by (intro; apply source_ids). assert (Vw : forall v, has_attr sw "id" v -> v = wid) by (intro; apply source_ids). assert (Vk : forall v, has_attr sk "id" v -> v = kid) by (intro; apply source_ids).
  assert (Ep : forall x, tx x <> tx "source" -> ~ is_elem x sp) by (intros x Hx; now apply not_elem). assert (Ew : forall x, tx x <> tx "source" -> ~ is_elem x sw) by (intros x Hx; now apply not_elem). assert (Ek : forall x, tx x <> tx "source" -> ~ is_elem x sk) by (intros x Hx; now apply not_elem).
  unfold spline_element. fold n sp sw sk. clearbody sp sw sk. cbv zeta.
  assert (Tec : forall pre l, Forall (fun c => ~ is_elem "extra" c) pre ->
    says_technique (Elem (tx "spline") [(tx "closed", flag_text (IsClosed w))] (pre ++ [AddExtraTechniqueChild l])) (Elem (tx "technique") [(tx "profile", tx "FCOLLADA")] l)).
  { intros pre l Hpre. exists (AddExtraTechniqueChild l). cbn [children_of]. split; [|split].
    - exists pre, []. split; [reflexivity|]. split; [eexists; eexists; reflexivity|exact Hpre].
    - intros c v [<- | []] (nm & ch & q & q' & E & Hq). injection E as _ E _. destruct q as [|x q]; cbn in E; [injection E as <- _; apply plain_word|]. injection E as _ E. destruct q; discriminate.
    - apply first_here. split; [eexists; eexists; reflexivity|]. eexists _, _, [], []. split; [reflexivity|constructor]. }
  assert (Ty : plain (TypeToString k)) by (destruct Hk as [-> |[-> | ->]]; plain_word).
  assert (Tw' : exists word, TypeToString k = tx word /\ type_word word k) by (destruct Hk as [-> |[-> | ->]]; eexists; split; [reflexivity|constructor|reflexivity|constructor|reflexivity|constructor]).
  destruct (k =? NURBS)%Z eqn:EN.
  - apply Z.eqb_eq in EN.
    set (cv := Elem (tx "control_vertices") [] (AddInput cid (tx "POSITION") (-1) (-1) ++ AddInput wid (tx "WEIGHTS") (-1) (-1) ++ AddInput kid (tx "KNOTS") (-1) (-1))).
    set (tq := [AddChild "type" (TypeToString k); AddChild "degree" (append_u32 (w_degree w))]).
    change (sp :: [sw; sk] ++ [cv; AddExtraTechniqueChild tq]) with ([sp; sw; sk; cv] ++ [AddExtraTechniqueChild tq]).
    assert (Pre : Forall (fun c => ~ is_elem "extra" c) [sp; sw; sk; cv]).
    { constructor; [apply Ep; discriminate|]. constructor; [apply Ew; discriminate|]. constructor; [apply Ek; discriminate|]. constructor; [apply not_elem; discriminate|constructor]. }
    pose proof (Tec [sp; sw; sk; cv] tq Pre) as Tq. constructor; cbn [w_form w_name w_cvs w_weights w_knots w_degree].
    + destruct Tw' as (word & E1 & E2). exists word. split; [|exact E2]. rewrite <- E1. exists (Elem (tx "technique") [(tx "profile", tx "FCOLLADA")] tq), (AddChild "type" (TypeToString k)).
      split; [exact Tq|]. split; [apply first_here; eexists; eexists; reflexivity|now apply child_holds].
    + exists (IsClosed w). split; [|reflexivity]. right. exists (flag_text (IsClosed w)). split; [eexists _, _, [], []; split; [reflexivity|constructor]|]. split; [destruct (IsClosed w); plain_word|].
      destruct (IsClosed w); cbn; split; try discriminate; auto.
      * intros [X|(c & r & X & Y)]; [discriminate|]. injection X as <- <-. cbn in Y. intuition discriminate.
      * intros _. right. exists 48%Z, []. split; [reflexivity|]. now left.
    + reflexivity.
    + intros c v. cbn [children_of app In]. intros [<- |[<- |[<- |[<- |[<- |[]]]]]] X.
      * rewrite (Vp v X). apply Hc. * rewrite (Vw v X). apply Hw. * rewrite (Vk v X). apply Hkn.
      * now apply no_id in X. * now apply no_id in X.
    + set (ch := [sp; sw; sk; cv] ++ [AddExtraTechniqueChild tq]).
      destruct (input_made ch cid "POSITION" sp Hc P1 ltac:(discriminate)) as (i1 & A1 & B1 & C1); [now apply first_here|].
      destruct (input_made ch wid "WEIGHTS" sw Hw P2 ltac:(discriminate)) as (i2 & A2 & B2 & C2); [apply first_skip; [now apply Op|now apply first_here]|].
      destruct (input_made ch kid "KNOTS" sk Hkn P3 ltac:(discriminate)) as (i3 & A3 & B3 & C3); [apply first_skip; [now apply Op|]; apply first_skip; [now apply Ow|now apply first_here]|].
      exists cv, [i1; i2; i3], [(tx "POSITION", sp); (tx "WEIGHTS", sw); (tx "KNOTS", sk)], (flat_map coordinates ps), ps. cbn [children_of].
      split; [|split; [|split; [|split; [|split; [|split; [|split; [|split]]]]]]].
      * apply first_skip; [apply Ep; discriminate|]. apply first_skip; [apply Ew; discriminate|]. apply first_skip; [apply Ek; discriminate|]. apply first_here. eexists; eexists; reflexivity.
      * unfold cv. rewrite A1, A2, A3. cbn [children_of app]. repeat (apply I_keep; [assumption|]). constructor.
      * repeat (constructor; [cbn [fst snd]; assumption|]). constructor.
      * repeat (constructor; [cbn [fst snd]; try (intro X; discriminate X); intros _; eauto|]). constructor.
      * right. exists sp. split; [|exact Fp]. exists [], [(tx "WEIGHTS", sw); (tx "KNOTS", sk)]. split; [reflexivity|]. repeat (constructor; [discriminate|]). constructor.
      * apply points_joined.
      * apply same_self.
      * intros _. split; [|split; [|split; [|split]]].
        -- repeat (constructor; [cbn [fst snd]; try (intro X; discriminate X); intros _; eauto|]). constructor.
        -- repeat (constructor; [cbn [fst snd]; try (intro X; discriminate X); intros _; eauto|]). constructor.
        -- exists rw. split; [|apply same_numbers]. right. exists sw. split; [|exact Fw]. exists [(tx "POSITION", sp)], [(tx "KNOTS", sk)]. split; [reflexivity|]. repeat (constructor; [discriminate|]). constructor.
        -- exists rk. split; [|apply same_numbers]. right. exists sk. split; [|exact Fk]. exists [(tx "POSITION", sp); (tx "WEIGHTS", sw)], []. split; [reflexivity|]. constructor.
        -- exists (Elem (tx "technique") [(tx "profile", tx "FCOLLADA")] tq). split; [exact Tq|]. right. exists (AddChild "degree" (append_u32 (w_degree w))), (append_u32 (w_degree w)).
           split; [apply first_skip; [apply not_elem; discriminate|apply first_here; eexists; eexists; reflexivity]|]. split; [apply content_digits; lia|]. split; [apply dec_decimal; lia|lia].
      * congruence.
  - apply Z.eqb_neq in EN. rewrite !app_nil_r.
    set (cv := Elem (tx "control_vertices") [] (AddInput cid (tx "POSITION") (-1) (-1))).
    set (tq := [AddChild "type" (TypeToString k)]).
    change (sp :: [] ++ [cv; AddExtraTechniqueChild tq]) with ([sp; cv] ++ [AddExtraTechniqueChild tq]).
    assert (Pre : Forall (fun c => ~ is_elem "extra" c) [sp; cv]).
    { constructor; [apply Ep; discriminate|]. constructor; [apply not_elem; discriminate|constructor]. }
    pose proof (Tec [sp; cv] tq Pre) as Tq. constructor; cbn [w_form w_name w_cvs w_weights w_knots w_degree].
    + destruct Tw' as (word & E1 & E2). exists word. split; [|exact E2]. rewrite <- E1. exists (Elem (tx "technique") [(tx "profile", tx "FCOLLADA")] tq), (AddChild "type" (TypeToString k)).
      split; [exact Tq|]. split; [apply first_here; eexists; eexists; reflexivity|now apply child_holds].
    + exists (IsClosed w). split; [|reflexivity]. right. exists (flag_text (IsClosed w)). split; [eexists _, _, [], []; split; [reflexivity|constructor]|]. split; [destruct (IsClosed w); plain_word|].
      destruct (IsClosed w); cbn; split; try discriminate; auto.
      * intros [X|(c & r & X & Y)]; [discriminate|]. injection X as <- <-. cbn in Y. intuition discriminate.
      * intros _. right. exists 48%Z, []. split; [reflexivity|]. now left.
    + reflexivity.
    + intros c v. cbn [children_of app In]. intros [<- |[<- |[<- |[]]]] X.
      * rewrite (Vp v X). apply Hc. * now apply no_id in X. * now apply no_id in X.
    + set (ch := [sp; cv] ++ [AddExtraTechniqueChild tq]).
      destruct (input_made ch cid "POSITION" sp Hc P1 ltac:(discriminate)) as (i1 & A1 & B1 & C1); [now apply first_here|].
      exists cv, [i1], [(tx "POSITION", sp)], (flat_map coordinates ps), ps. cbn [children_of].
      split; [|split; [|split; [|split; [|split; [|split; [|split; [|split]]]]]]].
      * apply first_skip; [apply Ep; discriminate|]. apply first_here. eexists; eexists; reflexivity.
      * unfold cv. rewrite A1. cbn [children_of app]. repeat (apply I_keep; [assumption|]). constructor.
      * repeat (constructor; [cbn [fst snd]; assumption|]). constructor.
      * repeat (constructor; [cbn [fst snd]; try (intro X; discriminate X); intros _; eauto|]). constructor.
      * right. exists sp. split; [|exact Fp]. exists [], []. split; [reflexivity|]. constructor.
      * apply points_joined.
      * apply same_self.
      * congruence.
      * auto.
Qed.
