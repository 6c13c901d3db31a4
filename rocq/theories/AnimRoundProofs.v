(** Animations that are written and read back. *)
From Coq Require Import String List ZArith NArith QArith Qabs Qpower Bool Lia Lqa.
From Verif Require Import TextModel TextSpec TextProofs StringModel StringProofs XmlModel FloatModel FloatSpec FloatProofs FloatProps DaeModel DaeSpec DaeProofs RigModel RigSpec
  RigTextProofs RigProofs RigWriteProofs CrcModel AnimModel AnimSpec AnimReadProofs AnimLoadProofs AnimChannelProofs AnimWriteProofs.
From Verif Require IdModel.
Import ListNotations.
Local Open Scope nat_scope.
Local Open Scope list_scope.

(** *** Numbers *)
Lemma number_finite q : number q -> finite q.
Proof. unfold number, finite. intro H. apply (Qle_trans _ _ _ H). vm_compute. discriminate. Qed.
Lemma near_finite q r : number q -> (Qabs r <= 1)%Q -> finite (q + r).
Proof.
  unfold number, finite. intros H Hr. apply (Qle_trans _ _ _ (Qabs_triangle q r)). apply (Qle_trans _ (Qpower 10 308 + 1)); [now apply Qplus_le_compat|]. vm_compute. discriminate.
Qed.
Lemma key_finite k : proper_key k -> Forall finite (in_numbers k) /\ Forall finite (out_numbers k) /\ Forall finite (tcb_numbers k) /\ Forall finite (ease_numbers k).
Proof.
  intros (H1 & H2 & H3). assert (A : finite (input k - (1 # 10000))) by (apply near_finite; [exact H1|vm_compute; discriminate]).
  assert (B : finite (input k + (1 # 10000))) by (apply near_finite; [exact H1|vm_compute; discriminate]).
  assert (C : finite (1 # 2)) by (vm_compute; discriminate). assert (D : finite 0) by (vm_compute; discriminate). pose proof (number_finite _ H2) as E.
  unfold in_numbers, out_numbers, tcb_numbers, ease_numbers. destruct (kind k) as [z|[i1 i2] [o1 o2]|te co bi ei eo]; cbn [fst snd] in H3.
  - repeat split; repeat (apply Forall_cons; [assumption|]); apply Forall_nil.
  - destruct H3 as (X1 & X2 & X3 & X4). apply number_finite in X1, X2, X3, X4. repeat split; repeat (apply Forall_cons; [assumption|]); apply Forall_nil.
  - destruct H3 as (X1 & X2 & X3 & X4 & X5). apply number_finite in X1, X2, X3, X4, X5. repeat split; repeat (apply Forall_cons; [assumption|]); apply Forall_nil.
Qed.
Lemma Forall_flat {A} (P : A -> Prop) {B} (f : B -> list A) l : Forall (fun x => Forall P (f x)) l -> Forall P (flat_map f l).
Proof. induction 1; cbn; [constructor|]. apply Forall_app. auto. Qed.
Lemma cells_finite cells : Forall proper_key cells -> Forall finite (map output cells) /\ Forall finite (flat_map in_numbers cells) /\
  Forall finite (flat_map out_numbers cells) /\ Forall finite (flat_map tcb_numbers cells) /\ Forall finite (flat_map ease_numbers cells).
Proof.
  intro H. split; [apply Forall_map; revert H; apply Forall_impl; intros k (_ & H & _); now apply number_finite|].
  repeat split; apply Forall_flat; revert H; apply Forall_impl; intros k Hk; apply (key_finite k Hk).
Qed.
(** *** Rows *)
Lemma rows_of (w : nat) : forall n (l : list Q), List.length l = n * w -> exists rows, List.length rows = n /\ Forall (fun r => List.length r = w) rows /\ List.concat rows = l.
Proof. intros n l H. apply (chunk w n l). lia. Qed.
Lemma at_row_concat (w : nat) : forall rows j c, Forall (fun r => List.length r = w) rows -> c < w -> at_row rows j c = nth (w * j + c) (List.concat rows) 0%Q.
Proof.
  intros rows j c H Hc. destruct (Nat.lt_ge_cases j (List.length rows)) as [Hj|Hj].
  - apply (chunk_nth w rows j c H Hj Hc).
  - unfold at_row. rewrite (nth_overflow rows) by exact Hj. symmetry. rewrite nth_overflow; [destruct c; reflexivity|].
    assert (E : List.length (List.concat rows) = List.length rows * w) by (clear - H; induction H as [|r l E _ IH]; [reflexivity|cbn; rewrite app_length, IH, E; lia]). rewrite E. nia.
Qed.
Lemma flat_nth {A} (f : A -> list Q) (w : nat) : (forall x, List.length (f x) = w) -> forall l x k c, nth_error l x = Some k -> c < w -> nth_error (flat_map f l) (w * x + c) = nth_error (f k) c.
Proof.
  intros Hf. induction l as [|y l IH]; intros x k c H Hc; [destruct x; discriminate|]. cbn [flat_map]. destruct x as [|x]; cbn [nth_error] in H.
  - injection H as ->. rewrite Nat.mul_0_r. cbn [Nat.add]. apply nth_error_app1. rewrite Hf. exact Hc.
  - rewrite nth_error_app2 by (rewrite Hf; lia). rewrite Hf. replace (w * S x + c - w) with (w * x + c) by lia. now apply IH.
Qed.
Lemma flat_length {A} (f : A -> list Q) (w : nat) : (forall x, List.length (f x) = w) -> forall l, List.length (flat_map f l) = w * List.length l.
Proof. intros Hf. induction l as [|y l IH]; cbn; [lia|]. rewrite app_length, IH, Hf. lia. Qed.
Lemma in_length k : List.length (in_numbers k) = 2. Proof. unfold in_numbers. destruct (kind k) as [z|[a b] o|]; reflexivity. Qed.
Lemma out_length k : List.length (out_numbers k) = 2. Proof. unfold out_numbers. destruct (kind k) as [z|i [a b]|]; reflexivity. Qed.
Lemma tcb_length k : List.length (tcb_numbers k) = 3. Proof. unfold tcb_numbers. destruct (kind k); reflexivity. Qed.
Lemma ease_length k : List.length (ease_numbers k) = 2. Proof. unfold ease_numbers. destruct (kind k); reflexivity. Qed.

Section Written.
Variables (eps : Q) (base : list Z) (dim : nat) (times : list Q) (interps memory : list Z) (cells : list key) (ps tps : option (list (list Z))) (pre post : Z) (t : texts)
  (drv : option (list Z * Z)) (pointer : list Z) (element : Z) (qualifier : list Z) (ch : list xml) (parents : list (list xml)).
Let n := List.length times.
Hypothesis He : machine_eps eps.
Hypothesis Hbase : plain base.
Hypothesis Hdim : 0 < dim.
Hypothesis Hdim3 : (Z.of_nat (3 * dim) < 4294967296)%Z.
Hypothesis Htimes : times <> [].
Hypothesis Hn : (Z.of_nat n < 2147483648)%Z.
Hypothesis Hinterps : List.length interps = n.
Hypothesis Hmemory : List.length memory = n.
Hypothesis Hcells : List.length cells = n * dim.
Hypothesis Hfinite : Forall number times.
Hypothesis Hkeys : Forall proper_key cells.
Hypothesis Hpre : proper_infinity pre.
Hypothesis Hpost : proper_infinity post.
Hypothesis Hdrv : proper_driver drv.
Hypothesis Htarget : proper_target pointer element qualifier.
Hypothesis Ht : texts_of eps times cells t.
Definition drv_input : list xml := match drv with Some (p, i) => AddInput (driver_text p i) (tx "DRIVER") (-1) (-1) | None => [] end.
Let sampler := Elem (tx "sampler") [(tx "id", base ++ tx "-sampler")] (sampler_inputs base cells ++ drv_input).
Hypothesis Hrefers : forall c id, In c (sampler :: sources base dim times interps memory cells ps tps pre post t) -> with_id id c -> proper_id id -> refers (ch :: parents) id c.
Let Hsources : forall c id, In c (sources base dim times interps memory cells ps tps pre post t) -> with_id id c -> proper_id id -> refers (ch :: parents) id c :=
  fun c id H => Hrefers c id (or_intror H).

Definition specs : list (string * list Z) :=
  [("INPUT"%string, base ++ tx "-input"); ("OUTPUT"%string, base ++ tx "-output"); ("INTERPOLATION"%string, base ++ tx "-interpolations")] ++
  (if has_tangents cells then [("IN_TANGENT"%string, base ++ tx "-intangents"); ("OUT_TANGENT"%string, base ++ tx "-outtangents")] else []) ++
  (if has_tcb cells then [("TCB"%string, base ++ tx "-tcbs"); ("EASE_IN_OUT"%string, base ++ tx "-eases")] else []) ++
  match drv with Some (p, i) => [("DRIVER"%string, driver_text p i)] | None => [] end.
Lemma suffix_filled k : base ++ tx k = [] -> tx k = [].
Proof. intro H. apply app_eq_nil in H. tauto. Qed.
Lemma inputs_eq : sampler_inputs base cells ++ drv_input = map inp specs.
Proof.
  unfold sampler_inputs, drv_input, specs.
  rewrite !add_input by (try discriminate; intro H; apply suffix_filled in H; discriminate).
  rewrite !map_app. cbn [map app]. rewrite <- !app_assoc. do 3 f_equal. f_equal; [destruct (has_tangents cells); reflexivity|]. f_equal; [destruct (has_tcb cells); reflexivity|].
  destruct drv as [[p i]|]; [|reflexivity]. cbn [map]. apply add_input; [|discriminate]. destruct Hdrv as (((_ & Hp) & _) & _). unfold driver_text. intro H. apply app_eq_nil in H. tauto.
Qed.
Lemma specs_distinct : NoDup (map (fun s => tx (fst s)) specs).
Proof.
  assert (G : forall l : list (list Z), (fix nodup l := match l with [] => true | x :: r => negb (existsb (text_eq x) r) && nodup r end) l = true -> NoDup l).
  { induction l as [|x l IH]; [constructor|]. intro H. apply andb_true_iff in H as (H1 & H2). constructor; [|now apply IH]. intro Hx. apply negb_true_iff in H1.
    rewrite <- not_true_iff_false in H1. apply H1. apply existsb_exists. exists x. split; [exact Hx|apply text_eq_refl]. }
  apply G. unfold specs. generalize drv, (has_tangents cells), (has_tcb cells). intros dr b1 b2. destruct b1, b2, dr as [[p i]|]; reflexivity.
Qed.
Lemma found_source sem id c {A} (P : xml -> A -> Prop) x : lookup specs sem = Some id -> In c (sources base dim times interps memory cells ps tps pre post t) -> with_id id c -> proper_id id -> P c x ->
  sampled (ch :: parents) (map inp specs) sem P (Some x).
Proof.
  intros Hl Hc Hi Hp HP. exists id, c. split; [rewrite <- Hl; apply wired_lookup, specs_distinct|]. split; [now apply Hsources|exact HP].
Qed.
Lemma no_source sem {A} (P : xml -> A -> Prop) : lookup specs sem = None -> sampled (ch :: parents) (map inp specs) sem P None.
Proof. intro Hl. cbn [sampled]. rewrite <- Hl. apply wired_lookup, specs_distinct. Qed.
Lemma float_id id text len stride ps' : with_id id (AddSourceFloat id text len stride ps').
Proof. apply source_id. Qed.
Lemma input_id id text len stride ps' : with_id id (with_infinities (AddSourceFloat id text len stride ps') pre post).
Proof. eexists _, _, [], []. split; [reflexivity|constructor]. Qed.
(** The data of the channel. *)
Record written (d : channel_data) : Prop := {
  w_times : Forall2 (remains eps) times (d_times d);
  w_values : Forall (fun r => List.length r = dim) (d_values d) /\ Forall2 (remains eps) (map output cells) (List.concat (d_values d));
  w_words : d_words d = map InterpolationToString (memory ++ interps);
  w_in : has_tangents cells = true -> exists rows, d_in d = Some (Pairs rows) /\ List.length rows = n /\ Forall (fun r => List.length r = 2 * dim) rows /\
           Forall2 (remains eps) (flat_map in_numbers cells) (List.concat rows);
  w_out : has_tangents cells = true -> exists rows, d_out d = Some (Pairs rows) /\ List.length rows = n /\ Forall (fun r => List.length r = 2 * dim) rows /\
           Forall2 (remains eps) (flat_map out_numbers cells) (List.concat rows);
  w_tcb : has_tcb cells = true -> exists rows, d_tcb d = Some rows /\ List.length rows = n /\ Forall (fun r => List.length r = 3 * dim) rows /\
           Forall2 (remains eps) (flat_map tcb_numbers cells) (List.concat rows);
  w_ease : has_tcb cells = true -> exists rows, d_ease d = Some rows /\ List.length rows = n /\ Forall (fun r => List.length r = 2 * dim) rows /\
           Forall2 (remains eps) (flat_map ease_numbers cells) (List.concat rows);
  w_rest : d_pre d = pre /\ d_post d = post /\ d_driver d = drv
}.
Lemma numbers_rows l text (w : nat) : Forall finite l -> floats_text eps l text -> List.length l = n * w ->
  exists rows, List.length rows = n /\ Forall (fun r => List.length r = w) rows /\ Forall2 (remains eps) l (List.concat rows) /\ numbers_of float_text text (List.concat rows).
Proof.
  intros Hf Htx Hl. destruct (floats_written eps l He Hf text Htx) as (rs & H1 & H2 & _). pose proof (Forall2_len _ _ _ H2) as Hlen.
  destruct (rows_of w n rs ltac:(lia)) as (rows & A & B & C). exists rows. rewrite C. auto.
Qed.
Lemma target_channel : exists q, qualifier_is element qualifier q /\ has_attr (channel_node base pointer element qualifier) "target" (pointer ++ q) /\ plain q /\
  (q = [] \/ In (hd 0%Z q) [40; 91; 46]%Z).
Proof.
  destruct Htarget as (Hp & _ & Hq & H). exists ((if (0 <=? element)%Z then 40%Z :: append_i32 element ++ [41%Z] else []) ++ qualifier).
  split; [|split; [|split]].
  - split; intro Hel.
    + rewrite (proj2 (Z.leb_le 0 element) Hel). exists (append_i32 element). split.
      * destruct (append_i32_decimal element) as [(_ & Hd)|(Hlt & _)]; [exact Hd|lia].
      * cbn [app]. now rewrite <- app_assoc.
    + rewrite (proj2 (Z.leb_gt 0 element) Hel). reflexivity.
  - eexists _, _, [_], []. split; [reflexivity|]. constructor; [discriminate|constructor].
  - apply plain_app; [|exact Hq]. destruct (0 <=? element)%Z eqn:E; [|split; [constructor|intros []]]. apply Z.leb_le in E.
    assert (Hd : plain (append_i32 element)).
    { destruct (append_i32_decimal element) as [(_ & Hd)|(Hlt & _)]; [|lia]. rewrite (decimal_dec _ _ Hd). now apply dec_plain. }
    change (40%Z :: append_i32 element ++ [41%Z]) with ([40%Z] ++ append_i32 element ++ [41%Z]).
    apply plain_app; [|apply plain_app; [exact Hd|]]; (split; [constructor; [lia|constructor]|cbn; intuition discriminate]).
  - destruct (0 <=? element)%Z eqn:E; [right; left; reflexivity|]. apply Z.leb_gt in E. destruct H as [H|[H|H]]; [lia|left; exact H|right; exact H].
Qed.
Lemma driver_written : driven (map inp specs) drv.
Proof.
  unfold driven. destruct drv as [[p i]|] eqn:E.
  - exists (driver_text p i). split.
    + assert (L : lookup specs "DRIVER" = Some (driver_text p i)) by (unfold specs; rewrite E; destruct (has_tangents cells), (has_tcb cells); reflexivity).
      rewrite <- L. apply wired_lookup, specs_distinct.
    + destruct Hdrv as (Hp & Hi). split; [exact Hp|]. split; [exact Hi|]. exists (append_i32 i), (if (i =? 0)%Z then 40%Z :: append_i32 i ++ [41%Z] else []).
      split; [unfold driver_text; rewrite (proj2 (Z.leb_le 0 i)) by lia; cbn [app]; now rewrite <- app_assoc|].
      split; [destruct (append_i32_decimal i) as [(_ & Hd)|(Hlt & _)]; [exact Hd|lia]|].
      destruct (i =? 0)%Z eqn:E0; [|split; [constructor|intros []]]. apply Z.eqb_eq in E0. subst i. cbn. split; [repeat (apply Forall_cons; [lia|]); apply Forall_nil|cbn; intuition discriminate].
  - assert (L : lookup specs "DRIVER" = None) by (unfold specs; rewrite E; destruct (has_tangents cells), (has_tcb cells); reflexivity).
    rewrite <- L. apply wired_lookup, specs_distinct.
Qed.
Lemma specs_plain : forall i v, In i (map inp specs) -> has_attr i "semantic" v -> plain v.
Proof.
  intros i v Hi Hv. apply in_map_iff in Hi as (s & <- & Hs). apply inp_semantic in Hv. subst v. apply semantics_plain. unfold specs in Hs.
  rewrite !in_app_iff in Hs. cbn [In]. destruct Hs as [[<- |[<- |[<- |[]]]]|[Hs|[Hs|Hs]]]; try (cbn [fst]; tauto).
  - destruct (has_tangents cells); [|destruct Hs]. destruct Hs as [<- |[<- |[]]]; cbn [fst]; tauto.
  - destruct (has_tcb cells); [|destruct Hs]. destruct Hs as [<- |[<- |[]]]; cbn [fst]; tauto.
  - destruct drv as [[p x]|]; [|destruct Hs]. destruct Hs as [<- |[]]; cbn [fst]; tauto.
Qed.
Theorem channel_described : exists d q, describes (ch :: parents) (channel_node base pointer element qualifier) dim d pointer q /\ written d /\ qualifier_is element qualifier q.
Proof.
  destruct (cells_finite cells Hkeys) as (F1 & F2 & F3 & F4 & F5). destruct Ht as (T1 & T2 & T3 & T4 & T5 & T6).
  assert (F0 : Forall finite times) by (revert Hfinite; apply Forall_impl; exact number_finite).
  destruct (floats_written eps times He F0 _ T1) as (rt & R1 & R2 & _).
  destruct (numbers_rows _ _ dim F1 T2 ltac:(rewrite map_length; lia)) as (vr & V1 & V2 & V3 & V4).
  destruct (numbers_rows _ _ (2 * dim) F2 T3 ltac:(rewrite (flat_length _ 2 in_length); lia)) as (ir & I1 & I2 & I3 & I4).
  destruct (numbers_rows _ _ (2 * dim) F3 T4 ltac:(rewrite (flat_length _ 2 out_length); lia)) as (or & O1 & O2 & O3 & O4).
  destruct (numbers_rows _ _ (3 * dim) F4 T5 ltac:(rewrite (flat_length _ 3 tcb_length); lia)) as (tr & X1 & X2 & X3 & X4).
  destruct (numbers_rows _ _ (2 * dim) F5 T6 ltac:(rewrite (flat_length _ 2 ease_length); lia)) as (er & E1 & E2 & E3 & E4).
  destruct target_channel as (q & Q1 & Q2 & Q3 & Q4). destruct Htarget as (P1 & P2 & P3 & P4).
  set (words := map InterpolationToString (memory ++ interps)).
  exists (ChannelData rt vr words (if has_tangents cells then Some (Pairs ir) else None) (if has_tangents cells then Some (Pairs or) else None)
    (if has_tcb cells then Some tr else None) (if has_tcb cells then Some er else None) pre post drv), q.
  split; [|split; [|exact Q1]].
  - split.
    + auto.
    + exists (base ++ tx "-sampler"). eexists _, _, _, (map inp specs). split; [eexists _, _, [], _; split; [reflexivity|constructor]|].
      split; [apply Hrefers; [left; reflexivity|eexists _, _, [], []; split; [reflexivity|constructor]|apply suffix_proper; [exact Hbase|cbn; tauto]]|].
      split; [reflexivity|]. rewrite inputs_eq. split; [apply inputs_map|]. split; [exact specs_plain|].
      cbn [d_times d_values d_words d_in d_out d_tcb d_ease d_pre d_post d_driver].
      split; [|split; [|split; [|split; [|split; [|split; [|split]]]]]].
      * eapply found_source; [reflexivity|unfold sources; left; reflexivity|apply input_id|apply suffix_proper; [exact Hbase|cbn; tauto]|]. now apply time_source.
      * eapply found_source; [reflexivity|unfold sources; right; left; reflexivity|apply float_id|apply suffix_proper; [exact Hbase|cbn; tauto]|].
        exists n. split; [|lia]. apply float_table; auto; lia.
      * assert (Ew : match words with [] => None | x :: l => Some (x :: l) end = Some words).
        { unfold words. destruct (memory ++ interps) eqn:Em; [|reflexivity]. apply app_eq_nil in Em as (Em & _). rewrite Em in Hmemory. cbn in Hmemory. unfold n in Hmemory. destruct times; [congruence|discriminate]. }
        rewrite Ew. eapply found_source; [reflexivity|unfold sources; right; right; left; reflexivity|apply source_id|apply suffix_proper; [exact Hbase|cbn; tauto]|].
        apply words_source. rewrite app_length. lia.
      * destruct (has_tangents cells) eqn:Eh.
        -- eapply found_source; [unfold specs; rewrite Eh; reflexivity|unfold sources; rewrite Eh; right; right; right; left; reflexivity|apply float_id|apply suffix_proper; [exact Hbase|cbn; tauto]|].
           exists n. split; [|lia]. rewrite (Nat.mul_comm dim 2). apply float_table; auto; lia.
        -- apply no_source. unfold specs. rewrite Eh. destruct (has_tcb cells), drv as [[p i]|]; reflexivity.
      * destruct (has_tangents cells) eqn:Eh.
        -- eapply found_source; [unfold specs; rewrite Eh; reflexivity|unfold sources; rewrite Eh; right; right; right; right; left; reflexivity|apply float_id|apply suffix_proper; [exact Hbase|cbn; tauto]|].
           exists n. split; [|lia]. rewrite (Nat.mul_comm dim 2). apply float_table; auto; lia.
        -- apply no_source. unfold specs. rewrite Eh. destruct (has_tcb cells), drv as [[p i]|]; reflexivity.
      * destruct (has_tcb cells) eqn:Eh.
        -- eapply found_source; [unfold specs; rewrite Eh; destruct (has_tangents cells); reflexivity|unfold sources; rewrite Eh; right; right; right; apply in_or_app; right; left; reflexivity|apply float_id|
             apply suffix_proper; [exact Hbase|cbn; tauto]|].
           rewrite X1. rewrite (Nat.mul_comm dim 3). apply float_table; auto; lia.
        -- apply no_source. unfold specs. rewrite Eh. destruct (has_tangents cells), drv as [[p i]|]; reflexivity.
      * destruct (has_tcb cells) eqn:Eh.
        -- eapply found_source; [unfold specs; rewrite Eh; destruct (has_tangents cells); reflexivity|unfold sources; rewrite Eh; right; right; right; apply in_or_app; right; right; left; reflexivity|apply float_id|
             apply suffix_proper; [exact Hbase|cbn; tauto]|].
           exists n. split; [|lia]. rewrite (Nat.mul_comm dim 2). apply float_table; auto; lia.
        -- apply no_source. unfold specs. rewrite Eh. destruct (has_tangents cells), drv as [[p i]|]; reflexivity.
      * exact driver_written.
    + cbn [d_times]. split; [|lia]. intros ->. inversion R2 as [E|]. congruence.
  - split; cbn [d_times d_values d_words d_in d_out d_tcb d_ease d_pre d_post d_driver]; auto; intros ->; eauto.
Qed.
End Written.

(** *** Keys *)
Lemma forall2_cons {A B} (P : A -> B -> Prop) x y l l' : Forall2 P (x :: l) (y :: l') -> P x y /\ Forall2 P l l'.
Proof. intro H. inversion H; auto. Qed.
Lemma code_word z : InterpolationToString z = if (z =? 0)%Z then tx "STEP" else if (z =? 1)%Z then tx "LINEAR" else if (z =? 2)%Z then tx "BEZIER" else if (z =? 3)%Z then tx "TCB" else
  InterpolationToString 4.
Proof.
  destruct (Z.eqb_spec z 0) as [-> |H0]; [reflexivity|]. destruct (Z.eqb_spec z 1) as [-> |H1]; [reflexivity|]. destruct (Z.eqb_spec z 2) as [-> |H2]; [reflexivity|].
  destruct (Z.eqb_spec z 3) as [-> |H3]; [reflexivity|].
  unfold InterpolationToString, EnumModel.ToString. cbn [EnumModel.cases EnumModel.fallback EnumModel.FUDaeInterpolation EnumModel.run_switch].
  repeat match goal with |- context [if ?b then _ else _] => destruct b eqn:?E end; try reflexivity; exfalso;
    repeat match goal with H : (_ =? _)%Z = true |- _ => apply Z.eqb_eq in H end; lia.
Qed.
Section Key.
Variables (eps : Q) (dim : nat) (times : list Q) (interps memory : list Z) (cells : list key) (pre post : Z) (drv : option (list Z * Z)) (d : channel_data).
Hypothesis Hw : written eps dim times interps memory cells pre post drv d.
Variables (i j : nat) (code : Z) (x k' : key).
Hypothesis Hdim : 0 < dim.
Hypothesis Hi : i < dim.
Hypothesis Hx : nth_error cells (j * dim + i) = Some x.
Hypothesis Ht : nth_error times j = Some (input x).
Hypothesis Hc : nth_error memory j = Some code.
Hypothesis Hk : key_is d i j k'.
Hypothesis Hp : proper_key x.
Lemma row_back (f : key -> list Q) (w : nat) rows c q : (forall x, List.length (f x) = w) -> Forall (fun r => List.length r = w * dim) rows ->
  Forall2 (remains eps) (flat_map f cells) (List.concat rows) -> nth_error (f x) c = Some q -> remains eps q (at_row rows j (w * i + c)).
Proof.
  intros Hf Hr H2 Hq. assert (Hcw : c < w) by (rewrite <- (Hf x); apply nth_error_Some; congruence).
  rewrite (at_row_concat (w * dim) rows j (w * i + c) Hr ltac:(nia)).
  replace (w * dim * j + (w * i + c)) with (w * (j * dim + i) + c) by nia.
  apply (remains_nth eps _ _ H2 (w * (j * dim + i) + c) q). now rewrite (flat_nth f w Hf cells (j * dim + i) x c Hx Hcw).
Qed.
Lemma row_there (rows : list (list Q)) : List.length rows = List.length times -> (j <? List.length rows) = true.
Proof. intros ->. apply Nat.ltb_lt, nth_error_Some. congruence. Qed.
Lemma bezier_there i' o' : kind x = Bezier i' o' -> has_tangents cells = true.
Proof. intro E. unfold has_tangents. apply existsb_exists. exists x. split; [eapply nth_error_In; exact Hx|now rewrite E]. Qed.
Lemma tcb_there a b c e f : kind x = Tcb a b c e f -> has_tcb cells = true.
Proof. intro E. unfold has_tcb. apply existsb_exists. exists x. split; [eapply nth_error_In; exact Hx|now rewrite E]. Qed.
Lemma word_here : nth_error (d_words d) j = Some (InterpolationToString code).
Proof.
  rewrite (w_words _ _ _ _ _ _ _ _ _ _ Hw), map_app. assert (H : j < List.length (map InterpolationToString memory)) by (rewrite map_length; apply nth_error_Some; congruence).
  rewrite nth_error_app1 by exact H. rewrite nth_error_map, Hc. reflexivity.
Qed.
Lemma key_back : key_remains eps code x k'.
Proof.
  destruct Hk as (K1 & K2 & K3 & K4 & K5 & K6 & K7). destruct (w_values _ _ _ _ _ _ _ _ _ _ Hw) as (V1 & V2).
  split; [|split; [|split]].
  - apply (remains_eq _ _ _ _ (proj1 (remains_nth eps _ _ (w_times _ _ _ _ _ _ _ _ _ _ Hw) j _ Ht)) K1).
  - apply (remains_eq _ _ (at_row (d_values d) j i)); [|exact K2]. rewrite (at_row_concat dim _ j i V1 Hi). replace (dim * j + i) with (j * dim + i) by lia.
    apply (remains_nth eps _ _ V2 (j * dim + i) (output x)). now rewrite nth_error_map, Hx.
  - pose proof word_here as W. rewrite code_word in W. unfold code_of.
    destruct (Z.eqb_spec code 0) as [-> |H0]; [rewrite (K3 W); reflexivity|]. destruct (Z.eqb_spec code 1) as [-> |H1]; [rewrite (K4 W); reflexivity|].
    destruct (Z.eqb_spec code 2) as [-> |H2]; [destruct (K5 (or_introl W)) as (a & b & -> & _); reflexivity|].
    destruct (Z.eqb_spec code 3) as [-> |H3]; [destruct (K6 W) as (a & b & c & e & f & -> & _); reflexivity|].
    rewrite K7.
    + destruct (0 <=? code)%Z eqn:E1; [|reflexivity]. destruct (code <=? 3)%Z eqn:E2; [|reflexivity]. apply Z.leb_le in E1, E2. lia.
    + assert (Hl : j < List.length (d_words d)) by (apply nth_error_Some; congruence). intros [A|[A|[A|[A|A]]]]; [lia| | | |]; unfold word_is in A; rewrite W in A; discriminate.
  - intros Ec. pose proof word_here as W. rewrite Ec in W. destruct (kind x) as [z|i' o'|te co bi ei eo] eqn:Ex; cbn [interpolation] in W, Ec.
    + destruct Hp as (_ & _ & Hz). rewrite Ex in Hz. cbn [shape_remains]. destruct Hz as [<- |[<- |[<- |[]]]]; [rewrite (K3 W); reflexivity|rewrite (K4 W); reflexivity|].
      rewrite K7; [reflexivity|]. assert (Hl : j < List.length (d_words d)) by (apply nth_error_Some; congruence).
      intros [A|[A|[A|[A|A]]]]; [lia| | | |]; unfold word_is in A; rewrite W in A; discriminate.
    + destruct (K5 (or_introl W)) as (a & b & -> & Ha & Hb). pose proof (bezier_there _ _ Ex) as Hh.
      destruct (w_in _ _ _ _ _ _ _ _ _ _ Hw Hh) as (ir & I1 & I2 & I3 & I4). destruct (w_out _ _ _ _ _ _ _ _ _ _ Hw Hh) as (or & O1 & O2 & O3 & O4).
      unfold tangent_is in Ha, Hb. rewrite I1, (row_there ir I2) in Ha. rewrite O1, (row_there or O2) in Hb. destruct Ha as (A1 & A2), Hb as (B1 & B2).
      assert (In' : in_numbers x = [fst i'; snd i']) by (unfold in_numbers; rewrite Ex; destruct i'; reflexivity). assert (On' : out_numbers x = [fst o'; snd o']) by (unfold out_numbers; rewrite Ex; destruct o'; reflexivity).
      cbn [shape_remains]. split; split.
      * apply (remains_eq _ _ _ _ (row_back in_numbers 2 ir 0 (fst i') in_length I3 I4 ltac:(rewrite In'; reflexivity))). rewrite Nat.add_0_r. exact A1.
      * apply (remains_eq _ _ _ _ (row_back in_numbers 2 ir 1 (snd i') in_length I3 I4 ltac:(rewrite In'; reflexivity))). exact A2.
      * apply (remains_eq _ _ _ _ (row_back out_numbers 2 or 0 (fst o') out_length O3 O4 ltac:(rewrite On'; reflexivity))). rewrite Nat.add_0_r. exact B1.
      * apply (remains_eq _ _ _ _ (row_back out_numbers 2 or 1 (snd o') out_length O3 O4 ltac:(rewrite On'; reflexivity))). exact B2.
    + destruct (K6 W) as (a & b & c & e & f & -> & Ha & Hb). pose proof (tcb_there _ _ _ _ _ Ex) as Hh.
      destruct (w_tcb _ _ _ _ _ _ _ _ _ _ Hw Hh) as (tr & T1 & T2 & T3 & T4). destruct (w_ease _ _ _ _ _ _ _ _ _ _ Hw Hh) as (er & E1 & E2 & E3 & E4).
      unfold numbers_or in Ha, Hb. rewrite T1, (row_there tr T2) in Ha. rewrite E1, (row_there er E2) in Hb. cbn [map seq] in Ha, Hb.
      apply forall2_cons in Ha as (A1 & Ha). apply forall2_cons in Ha as (A2 & Ha). apply forall2_cons in Ha as (A3 & _).
      apply forall2_cons in Hb as (B1 & Hb). apply forall2_cons in Hb as (B2 & _).
      assert (Tn : tcb_numbers x = [te; co; bi]) by (unfold tcb_numbers; now rewrite Ex). assert (En : ease_numbers x = [ei; eo]) by (unfold ease_numbers; now rewrite Ex).
      cbn [shape_remains].
      assert (G3 : forall m q r, nth_error [te; co; bi] m = Some q -> (at_row tr j (3 * i + m) == r)%Q -> remains eps q r).
      { intros m q r Hm Hr. apply (remains_eq _ _ (at_row tr j (3 * i + m))); [|now symmetry]. apply (row_back tcb_numbers 3 tr m q tcb_length T3 T4). now rewrite Tn. }
      assert (G2 : forall m q r, nth_error [ei; eo] m = Some q -> (at_row er j (2 * i + m) == r)%Q -> remains eps q r).
      { intros m q r Hm Hr. apply (remains_eq _ _ (at_row er j (2 * i + m))); [|now symmetry]. apply (row_back ease_numbers 2 er m q ease_length E3 E4). now rewrite En. }
      split; [apply (G3 0 te a); [reflexivity|exact A1]|]. split; [apply (G3 1 co b); [reflexivity|exact A2]|]. split; [apply (G3 2 bi c); [reflexivity|exact A3]|].
      split; [apply (G2 0 ei e); [reflexivity|exact B1]|apply (G2 1 eo f); [reflexivity|exact B2]].
Qed.
End Key.

(** *** Channels *)
Lemma curve_back a eps base pointer c t ps ch parents : machine_eps eps -> plain base -> proper_curve pointer c -> texts_of eps (map input (keys (t_curve c))) (keys (t_curve c)) t ->
  (forall n id, In n (curve_sampler base (t_curve c) :: sources base 1 (map input (keys (t_curve c))) (map (fun k => interpolation (kind k)) (keys (t_curve c))) (memory c) (keys (t_curve c)) ps None
     (pre_infinity (t_curve c)) (post_infinity (t_curve c)) t) -> with_id id n -> proper_id id -> refers (ch :: parents) id n) ->
  exists x, LoadAnimationChannel a (ch :: parents) (channel_node base pointer (element c) (qualifier c)) = Some (Some x) /\ curve_kept eps pointer c x.
Proof.
  intros He Hb (P1 & P2 & P3 & P4 & P5 & P6 & P7 & P8) Ht Hr.
  assert (Hl : List.length (map input (keys (t_curve c))) = List.length (keys (t_curve c))) by apply map_length.
  destruct (channel_described eps base 1 (map input (keys (t_curve c))) (map (fun k => interpolation (kind k)) (keys (t_curve c))) (memory c) (keys (t_curve c)) ps None
    (pre_infinity (t_curve c)) (post_infinity (t_curve c)) t (driver (t_curve c)) pointer (element c) (qualifier c) ch parents) as (d & q & D1 & D2 & D3); auto; try lia.
  - destruct (keys (t_curve c)); [congruence|discriminate].
  - now rewrite !map_length.
  - apply Forall_map. revert P3. apply Forall_impl. intros k (H & _). exact H.
  - destruct (load_described a _ _ _ _ _ _ D1) as (x & L & C1 & C2 & C3 & C4). exists x. split; [exact L|]. split; [exact C1|]. split; [rewrite C2; exact D3|].
    destruct (curves x) as [|y [|]] eqn:Ey; try (cbn in C3; lia). exists y. split; [reflexivity|]. specialize (C4 0 y eq_refl). destruct C4 as (K1 & K2 & K3 & K4 & K5).
    destruct (w_rest _ _ _ _ _ _ _ _ _ _ D2) as (R1 & R2 & R3). rewrite R1 in K3. rewrite R2 in K4. rewrite R3 in K5. split; [|auto].
    split; [rewrite K1, <- (Forall2_len _ _ _ (w_times _ _ _ _ _ _ _ _ _ _ D2)); exact Hl|].
    intros j code k k' Hc Hk Hk'. apply (key_back _ _ _ _ _ _ _ _ _ _ D2 0 j code k k'); auto.
    + rewrite Nat.mul_1_r, Nat.add_0_r. exact Hk.
    + rewrite nth_error_map, Hk. reflexivity.
    + rewrite Forall_forall in P3. apply P3. eapply nth_error_In. exact Hk.
Qed.
Lemma forall2_at {A B} (P : A -> B -> Prop) l l' : Forall2 P l l' -> forall j y, nth_error l' j = Some y -> exists x, nth_error l j = Some x /\ P x y.
Proof. induction 1 as [|u v l l' H _ IH]; intros [|j] y Hj; try discriminate; cbn in Hj |- *; [injection Hj as <-; eauto|auto]. Qed.
Lemma cells_nth (dim : nat) : forall ks, Forall (fun k => List.length (m_cells k) = dim) ks ->
  List.length (flat_map m_cells ks) = List.length ks * dim /\
  forall j i k, nth_error ks j = Some k -> i < dim -> nth_error (flat_map m_cells ks) (j * dim + i) = nth_error (m_cells k) i.
Proof.
  induction 1 as [|y ks Hy _ IH]; [split; [reflexivity|intros [|j] i k H; discriminate]|]. destruct IH as (I1 & I2). cbn [flat_map]. split; [rewrite app_length, I1; cbn; lia|].
  intros [|j] i k H Hi; cbn [nth_error] in H.
  - injection H as <-. apply nth_error_app1. lia.
  - rewrite nth_error_app2 by lia. rewrite Hy. replace (S j * dim + i - dim) with (j * dim + i) by lia. now apply I2.
Qed.
Lemma multi_back a eps base pointer qualifiers memory m t ch parents : machine_eps eps -> plain base -> proper_multi pointer memory m ->
  texts_of eps (map m_input (m_keys m)) (flat_map m_cells (m_keys m)) t -> 
  (forall n id, In n (Elem (tx "sampler") [(tx "id", base ++ tx "-sampler")] (sampler_inputs base (flat_map m_cells (m_keys m))) :: multi_sources base qualifiers memory m t) ->
     with_id id n -> proper_id id -> refers (ch :: parents) id n) ->
  exists x, LoadAnimationChannel a (ch :: parents) (channel_node base pointer (m_element m) []) = Some (Some x) /\ multi_kept eps pointer memory m x.
Proof.
  intros He Hb (P1 & P2 & P3 & P4 & P5 & P6 & P7 & P8 & P9) Ht Hr. unfold multi_sources in Hr. rewrite (proj2 (Nat.eqb_neq (dimension m) 0)) in Hr by lia.
  assert (Hl : Forall (fun k => List.length (m_cells k) = dimension m) (m_keys m)) by (revert P5; apply Forall_impl; intros k (H & _); exact H).
  destruct (cells_nth (dimension m) (m_keys m) Hl) as (L1 & L2). pose proof (map_length m_input (m_keys m)) as Hn.
  assert (Hc : Forall (fun k => exists j, In k (m_cells j) /\ In j (m_keys m)) (flat_map m_cells (m_keys m))).
  { apply Forall_forall. intros k Hk. apply in_flat_map in Hk as (j & Hj & Hk). eauto. }
  destruct (channel_described eps base (dimension m) (map m_input (m_keys m)) (map m_interpolation (m_keys m)) memory (flat_map m_cells (m_keys m))
    (if dimension m =? 16 then None else Some (map skip_dot qualifiers)) (Some [tx "X"; tx "Y"; tx "Z"; tx "W"]) (m_pre m) (m_post m) t None pointer (m_element m) [] ch parents) as (d & q & D1 & D2 & D3); auto; try lia.
  - destruct (m_keys m); [congruence|discriminate].
  - now rewrite !map_length.
  - apply Forall_map, Forall_forall. intros k Hk. rewrite Forall_forall in P5. destruct (P5 k Hk) as (E & H). destruct (m_cells k) as [|y r] eqn:Ey; [cbn in E; lia|].
    inversion H as [|? ? ((H1 & _) & H2 & _) _]; subst. rewrite <- H2. exact H1.
  - revert Hc. apply Forall_impl. intros k (j & H1 & H2). rewrite Forall_forall in P5. destruct (P5 j H2) as (_ & H). rewrite Forall_forall in H. apply (H k H1).
  - exact I.
  - cbn [drv_input]. rewrite app_nil_r. exact Hr.
  - destruct (load_described a _ _ _ _ _ _ D1) as (x & L & C1 & C2 & C3 & C4). exists x. split; [exact L|]. split; [exact C1|]. split; [rewrite C2; exact D3|]. split; [exact C3|].
    intros i y Hy. assert (Hi : i < dimension m) by (rewrite <- C3; apply nth_error_Some; congruence). specialize (C4 i y Hy). destruct C4 as (K1 & K2 & K3 & K4 & K5).
    destruct (w_rest _ _ _ _ _ _ _ _ _ _ D2) as (R1 & R2 & R3). rewrite R1 in K3. rewrite R2 in K4. rewrite R3 in K5. split; [exact K3|]. split; [exact K4|]. split; [exact K5|].
    assert (Hks : exists ks, dimension_of m i ks).
    { unfold dimension_of. clear - Hl Hi. induction Hl as [|k l H _ IH]; [exists []; constructor|]. destruct IH as (ks & IH). destruct (nth_error (m_cells k) i) as [z|] eqn:E.
      - exists (z :: ks). now constructor.
      - apply nth_error_None in E. lia. }
    destruct Hks as (ks & Hks). exists ks. split; [exact Hks|].
    split; [rewrite K1, <- (Forall2_len _ _ _ (w_times _ _ _ _ _ _ _ _ _ _ D2)), Hn; apply (Forall2_len _ _ _ Hks)|].
    intros j code k k' Hcd Hk Hk'.
    destruct (forall2_at _ _ _ Hks j k Hk) as (mk & M1 & M2).
    rewrite Forall_forall in P5. destruct (P5 mk (nth_error_In _ _ M1)) as (_ & H). rewrite Forall_forall in H. destruct (H k (nth_error_In _ _ M2)) as (H1 & H2 & H3).
    apply (key_back _ _ _ _ _ _ _ _ _ _ D2 i j code k k'); auto.
    + rewrite (L2 j i mk M1 Hi). exact M2.
    + rewrite nth_error_map, M1. cbn. now rewrite H2.
Qed.

(** *** Animations *)
Fixpoint load_subs (a : arith) (scopes : list (list xml)) (l : list xml) : option (list animation) :=
  match l with
  | [] => Some []
  | c :: r => if named c "animation" then match LoadAnimation a scopes c, load_subs a scopes r with Some x, Some y => Some (x :: y) | _, _ => None end else load_subs a scopes r
  end.
Lemma load_animation_eq a parents nm at' ch : LoadAnimation a parents (Elem nm at' ch) =
  match load_channels a (ch :: parents) true (filter (fun c => named c "channel") ch) with
  | None => None
  | Some (st, cs) => option_map (Animation st cs) (load_subs a (ch :: parents) ch)
  end.
Proof.
  cbn [LoadAnimation]. destruct (load_channels _ _ _ _) as [[st cs]|]; [|reflexivity]. f_equal. set (sc := ch :: parents) at 2. change (ch :: parents) with sc. clearbody sc.
  induction ch as [|c r IH]; [reflexivity|]. cbn [load_subs]. destruct (named c "animation"); [|exact IH]. rewrite IH. reflexivity.
Qed.
Lemma load_channels_app a sc : forall l1 l2 c1 c2, load_channels a sc true l1 = Some (true, c1) -> load_channels a sc true l2 = Some (true, c2) -> load_channels a sc true (l1 ++ l2) = Some (true, c1 ++ c2).
Proof.
  assert (F : forall l s cs, load_channels a sc false l = Some (s, cs) -> s = false).
  { induction l as [|c l IH]; intros s cs H; cbn in H; [congruence|]. destruct (LoadAnimationChannel a sc c); [|discriminate]. destruct (load_channels a sc false l) as [[s' cs']|] eqn:E; [|discriminate].
    injection H as <- _. eapply IH; eauto. }
  induction l1 as [|c l1 IH]; intros l2 c1 c2 H1 H2; cbn [load_channels app] in *.
  - injection H1 as <-. exact H2.
  - destruct (LoadAnimationChannel a sc c) as [[o|]|]; [| |discriminate]; cbn [andb] in *.
    + destruct (load_channels a sc true l1) as [[s cs]|] eqn:E; [|discriminate]. injection H1 as -> <-. rewrite (IH l2 cs c2 eq_refl H2). reflexivity.
    + destruct (load_channels a sc false l1) as [[s cs]|] eqn:E; [|discriminate]. injection H1 as -> _. apply F in E. discriminate.
Qed.
Lemma filter_map_all {A B} (p : B -> bool) (f : A -> B) b l : (forall x, p (f x) = b) -> filter p (map f l) = if b then map f l else [].
Proof. intro H. induction l as [|x l IH]; cbn; [destruct b; reflexivity|]. rewrite H, IH. destruct b; reflexivity. Qed.
Lemma sources_other k base dim times interps memory cells ps tps pre post t : k = "channel"%string \/ k = "animation"%string ->
  filter (fun c => named c k) (sources base dim times interps memory cells ps tps pre post t) = [].
Proof. intros [-> | ->]; unfold sources; destruct (has_tangents cells), (has_tcb cells); reflexivity. Qed.
Lemma flat_filter {A} (p : xml -> bool) (f : A -> list xml) l : (forall x, filter p (f x) = []) -> filter p (flat_map f l) = [].
Proof. intro H. induction l as [|x l IH]; cbn; [reflexivity|]. now rewrite filter_app, H, IH. Qed.
Lemma track_back a eps id t out ch parents : machine_eps eps -> WriteAnimationChannel eps id t out -> proper_track t -> distinct_ids ch -> incl out ch ->
  filter (fun c => named c "animation") out = [] /\ exists cs, load_channels a (ch :: parents) true (filter (fun c => named c "channel") out) = Some (true, cs) /\ track_kept eps t cs.
Proof.
  intros He Hw Hp Hd Hi. destruct t as [pointer cs|pointer qualifiers memory m]; cbn [WriteAnimationChannel proper_track track_kept] in *.
  - destruct Hw as (ts & H2 & ->). unfold channel_elements in *. set (base := base_id id pointer) in *. clearbody base. rewrite !filter_app.
    rewrite !flat_filter by (intro x; apply sources_other; auto).
    rewrite !(filter_map_all _ _ false) by reflexivity. rewrite (filter_map_all _ _ true) by reflexivity. split; [reflexivity|]. cbn [app].
    assert (G : forall x, In x (combine cs ts) -> incl (curve_sources (curve_id base (fst x)) (qualifier (fst x)) (AnimModel.memory (fst x)) (t_curve (fst x)) (snd x)) ch /\ In (curve_sampler (curve_id base (fst x)) (t_curve (fst x))) ch).
    { intros x Hx. split.
      - intros y Hy. apply Hi. apply in_or_app. left. apply in_flat_map. eauto.
      - apply Hi. apply in_or_app. right. apply in_or_app. left. apply in_map_iff. eauto. }
    clear Hi. revert Hp G. induction H2 as [|c t cs ts Ht _ IH]; intros Hp G; [exists []; split; [reflexivity|constructor]|].
    inversion Hp as [|? ? P1 P2]; subst. destruct IH as (l & L1 & L2); [exact P2|intros x Hx; apply G; right; exact Hx|]. destruct (G (c, t) (or_introl eq_refl)) as (G1 & G2). cbn [fst snd] in *.
    destruct (curve_back a eps (curve_id base c) pointer c t (Some [skip_dot (qualifier c)]) ch parents) as (x & X1 & X2); auto; [apply clean_plain|intros y id' [<- |Hy] Hid Hpr; apply refers_in; auto|]. exists (x :: l). cbn [combine map load_channels fst snd].
    rewrite X1. cbn [andb]. rewrite L1. split; [reflexivity|]. now constructor.
  - destruct Hw as (t & Ht & ->). unfold multi_elements in *. set (base := base_id id pointer) in *. assert (Hb : plain base) by apply clean_plain. clearbody base. rewrite !filter_app.
    destruct (multi_back a eps base pointer qualifiers memory m t ch parents) as (x & X1 & X2); auto.
    + intros y id' [<- |Hy] Hid Hpr; apply refers_in; auto; apply Hi, in_or_app; [right; left; reflexivity|now left].
    + assert (E : forall k, k = "channel"%string \/ k = "animation"%string -> filter (fun c => named c k) (multi_sources base qualifiers memory m t) = []).
      { intros k Hk. unfold multi_sources. destruct (dimension m =? 0); [reflexivity|]. now apply sources_other. }
      rewrite !E by auto. split; [reflexivity|]. exists [x]. split; [|exists x; auto]. change (filter (fun c : xml => named c "channel") _) with [channel_node base pointer (m_element m) []].
      cbn [app load_channels]. now rewrite X1.
Qed.
Section TreeInd.
Variable P : tree -> Prop.
Hypothesis H : forall id tracks subs, Forall P subs -> P (Tree id tracks subs).
Fixpoint tree_induction (t : tree) : P t :=
  match t with
  | Tree id tracks subs => H id tracks subs ((fix go l : Forall P l := match l with [] => Forall_nil P | x :: r => Forall_cons x (tree_induction x) (go r) end) subs)
  end.
End TreeInd.
Lemma written_animation eps t n : WriteAnimation eps t n -> named n "channel" = false /\ named n "animation" = true.
Proof. intros []. auto. Qed.
Lemma load_subs_skip a sc : forall l l', filter (fun c => named c "animation") l = [] -> load_subs a sc (l ++ l') = load_subs a sc l'.
Proof. induction l as [|c l IH]; intros l' E; [reflexivity|]. cbn in E |- *. destruct (named c "animation"); [discriminate|]. auto. Qed.
Lemma filter_concat {A} (p : A -> bool) l : filter p (List.concat l) = List.concat (map (filter p) l).
Proof. induction l as [|x l IH]; cbn; [reflexivity|]. now rewrite filter_app, IH. Qed.
Theorem tree_back a eps : machine_eps eps -> forall t n parents, WriteAnimation eps t n -> proper_tree t -> clear_ids n -> exists an, LoadAnimation a parents n = Some an /\ tree_kept eps t an.
Proof.
  intro He. induction t as [id tracks subs IH] using tree_induction. intros n parents Hw Hp Hc. inversion Hw as [? ? ? attrs outs nodes W1 W2]; subst. inversion Hp as [? ? ? P1 P2]; subst.
  inversion Hc as [? ? ? Hd Hsub]; subst. rewrite load_animation_eq. set (ch := List.concat outs ++ nodes) in *.
  assert (Hin : forall o, In o outs -> incl o ch) by (intros o Ho x Hx; apply in_or_app; left; apply in_concat; eauto).
  assert (Hnode : forall o, In o nodes -> In o ch) by (intros o Ho; apply in_or_app; now right). unfold ch at 2 4. clearbody ch.
  assert (T : exists groups, Forall2 (track_kept eps) tracks groups /\ filter (fun c => named c "animation") (List.concat outs) = [] /\
     load_channels a (ch :: parents) true (filter (fun c => named c "channel") (List.concat outs)) = Some (true, List.concat groups)).
  { clear - He W1 P1 Hd Hin. revert P1 Hin. induction W1 as [|t o ts os H _ IH]; intros P1 Hin; [exists []; split; [constructor|split; reflexivity]|].
    inversion P1 as [|? ? Q1 Q2]; subst. destruct IH as (gs & G1 & G2 & G3); [exact Q2|intros x Hx; apply Hin; right; exact Hx|].
    destruct (track_back a eps id t o ch parents He H Q1 Hd (Hin o (or_introl eq_refl))) as (F & cs & C1 & C2). exists (cs :: gs). split; [now constructor|]. cbn [List.concat]. rewrite !filter_app.
    split; [now rewrite F, G2|]. now apply load_channels_app. }
  destruct T as (groups & G1 & G2 & G3). rewrite filter_app.
  assert (N : filter (fun c => named c "channel") nodes = []).
  { clear - W2. induction W2 as [|t n l l' H _ IH]; [reflexivity|]. cbn. destruct (written_animation _ _ _ H) as (-> & _). exact IH. }
  rewrite N, app_nil_r, G3. rewrite (load_subs_skip _ _ _ _ G2).
  assert (U : exists anims, load_subs a (ch :: parents) nodes = Some anims /\ Forall2 (tree_kept eps) subs anims).
  { clear - IH W2 P2 Hsub Hnode. revert IH P2 Hnode. induction W2 as [|t n l l' H _ IHs]; intros IH P2 Hnode; [exists []; split; [reflexivity|constructor]|].
    inversion IH as [|? ? I1 I2]; subst. inversion P2 as [|? ? Q1 Q2]; subst. destruct IHs as (anims & A1 & A2); auto; [intros o Ho; apply Hnode; now right|].
    destruct (I1 n (ch :: parents) H Q1) as (x & X1 & X2).
    { apply Hsub; [apply Hnode; now left|]. inversion H; subst. eexists _, _. reflexivity. }
    exists (x :: anims). cbn [load_subs]. destruct (written_animation _ _ _ H) as (_ & ->). rewrite X1, A1. split; [reflexivity|]. now constructor. }
  destruct U as (anims & U1 & U2). rewrite U1. cbn [option_map]. eexists. split; [reflexivity|]. now constructor.
Qed.
(** Every tree can be written. *)
Lemma texts_exist eps times cells : machine_eps eps -> exists t, texts_of eps times cells t.
Proof.
  intro He. destruct (floats_writable eps times He) as (t1 & H1). destruct (floats_writable eps (map output cells) He) as (t2 & H2). destruct (floats_writable eps (flat_map in_numbers cells) He) as (t3 & H3).
  destruct (floats_writable eps (flat_map out_numbers cells) He) as (t4 & H4). destruct (floats_writable eps (flat_map tcb_numbers cells) He) as (t5 & H5).
  destruct (floats_writable eps (flat_map ease_numbers cells) He) as (t6 & H6). exists (Texts t1 t2 t3 t4 t5 t6). repeat split; assumption.
Qed.
Lemma forall2_exists {A B} (P : A -> B -> Prop) l : (forall x, In x l -> exists y, P x y) -> exists l', Forall2 P l l'.
Proof.
  induction l as [|x l IH]; intro H; [exists []; constructor|]. destruct (H x (or_introl eq_refl)) as (y & Hy). destruct IH as (l' & Hl); [intros z Hz; apply H; now right|]. exists (y :: l'). now constructor.
Qed.
Theorem tree_writable eps : machine_eps eps -> forall t, exists n, WriteAnimation eps t n.
Proof.
  intro He. induction t as [id tracks subs IH] using tree_induction.
  destruct (forall2_exists (WriteAnimationChannel eps id) tracks) as (outs & Ho).
  { intros t _. destruct t as [pointer cs|pointer qualifiers memory m]; cbn.
    - destruct (forall2_exists (fun c t => texts_of eps (map input (keys (t_curve c))) (keys (t_curve c)) t) cs) as (ts & Hts); [intros c _; now apply texts_exist|]. eexists. exists ts. split; [exact Hts|reflexivity].
    - destruct (texts_exist eps (map m_input (m_keys m)) (flat_map m_cells (m_keys m)) He) as (t & Ht). eexists. exists t. split; [exact Ht|reflexivity]. }
  destruct (forall2_exists (WriteAnimation eps) subs) as (nodes & Hn); [intros x Hx; rewrite Forall_forall in IH; now apply IH|].
  exists (Elem (tx "animation") [] (List.concat outs ++ nodes)). now constructor.
Qed.
