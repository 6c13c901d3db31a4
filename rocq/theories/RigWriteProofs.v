(** A written skin is a <skin> element with the data of the skin. *)
From Coq Require Import List ZArith QArith Qabs Qpower Bool String Permutation Lia Lqa.
From Verif Require Import TextModel TextSpec TextProofs StringModel StringProofs XmlModel FloatModel FloatSpec FloatProofs FloatProps SkinModel DaeModel DaeSpec DaeProofs RigModel RigSpec RigTextProofs RigProofs.
Import ListNotations.
Local Open Scope nat_scope.
Local Open Scope list_scope.

(** *** Texts of numbers *)
Definition char_ok (c : Z) : Prop := (48 <= c <= 57)%Z \/ In c [32; 45; 46; 69; 101]%Z.
Lemma char_valid c : char_ok c -> valid xmlValidityTable c = true.
Proof.
  intros [H|H].
  - assert (E : (c = 48 \/ c = 49 \/ c = 50 \/ c = 51 \/ c = 52 \/ c = 53 \/ c = 54 \/ c = 55 \/ c = 56 \/ c = 57)%Z) by lia.
    repeat (destruct E as [-> | E]; [reflexivity|]). rewrite E. reflexivity.
  - cbn in H. repeat (destruct H as [<- | H]; [reflexivity|]). destruct H.
Qed.
Lemma content_same t : Forall char_ok t -> AddContent t = t.
Proof.
  unfold AddContent, encode. induction 1 as [|c t Hc _ IH]; cbn; auto. unfold encode_char at 1. rewrite (char_valid c Hc). cbn. now f_equal.
Qed.
Lemma digits_ok ds : Forall is_digit ds -> Forall char_ok ds.
Proof. apply Forall_impl. intros c H. left. exact H. Qed.
Lemma mantissa_ok t m : mantissa t m -> Forall char_ok t.
Proof.
  intros [ds H _|ds fs H1 H2]; [now apply digits_ok|]. apply Forall_app. split; [now apply digits_ok|]. constructor; [right; cbn; auto|now apply digits_ok].
Qed.
Lemma exponent_ok t x : exponent t x -> Forall char_ok t.
Proof.
  assert (He : forall c, (c = 101 \/ c = 69)%Z -> char_ok c) by (intros c [-> | ->]; right; cbn; auto 10).
  assert (Hm : char_ok 45) by (right; cbn; auto 10).
  intros [|c xs Hc H _ _|c xs Hc H _ _].
  - constructor.
  - constructor; [now apply He|now apply digits_ok].
  - constructor; [now apply He|]. constructor; [exact Hm|now apply digits_ok].
Qed.
Lemma float_ok t q : float_text t q -> Forall char_ok t.
Proof.
  intros [tm m tx' x Hm Hx|tm m tx' x Hm Hx].
  - apply Forall_app. split; [now apply (mantissa_ok _ m)|now apply (exponent_ok _ x)].
  - constructor; [right; cbn; auto|]. apply Forall_app. split; [now apply (mantissa_ok _ m)|now apply (exponent_ok _ x)].
Qed.
Lemma blank_ok : char_ok 32. Proof. right. cbn. auto. Qed.
Lemma float_head t q : float_text t q -> begins_not blank_or_cr t /\ t <> [].
Proof.
  intro H. destruct (text_head t q H) as (c & u & -> & Hc). split; [|discriminate]. cbn. intro Hb. apply ws4_iff in Hb. congruence.
Qed.
Lemma begins_app P t u : begins_not P t -> t <> [] -> begins_not P (t ++ u).
Proof. destruct t; [congruence|]. auto. Qed.
Lemma floats_written eps vs : machine_eps eps -> Forall finite vs -> forall t, ToString_floats eps [] (map Fin vs) t ->
  exists rs, numbers_of float_text t rs /\ Forall2 (remains eps) vs rs /\ Forall char_ok t.
Proof.
  intros He Hr. induction Hr as [|q vs Hq Hr IH]; intros t Ht.
  - inversion Ht; subst. exists []. repeat constructor.
  - cbn [map] in Ht. inversion Ht as [|v vs' t1 u H1 H2]; subst. clear Ht. cbn [app].
    destruct (appends_text eps q t1 He Hq H1) as (r & Hrt & Hk).
    destruct vs as [|w vs]; inversion H2 as [|v' vs' t2 u' H3 H4 E1 E2]; subst.
    + exists [r]. split; [|split; [constructor; [exact Hk|constructor]|rewrite app_nil_r; now apply (float_ok _ r)]].
      apply (N_cons float_text [] t1 r [] [] []); [constructor|exact Hrt| |constructor]. split; [constructor|]. split; [auto|exact I].
    + assert (Ht2 : ToString_floats eps [] (map Fin (w :: vs)) (t2 ++ u')) by (apply (TS_cons eps [] (Fin w) (map Fin vs) t2 u'); auto).
      destruct (IH _ Ht2) as (rs & Hn & Hk2 & Hok). exists (r :: rs). split; [|split; [constructor; auto|]].
      * apply (N_cons float_text [] t1 r [32%Z] (t2 ++ u') rs); [constructor|exact Hrt| |exact Hn]. split; [repeat constructor|]. split; [discriminate|].
        inversion Hr as [|? ? Hw Hr']; subst. destruct (appends_text eps w t2 He Hw H3) as (r2 & Hrt2 & _).
        destruct (float_head t2 r2 Hrt2) as (A1 & A2). now apply begins_app.
      * apply Forall_app. split; [now apply (float_ok _ r)|]. constructor; [now apply blank_ok|exact Hok].
Qed.
Lemma rest_app eps l1 u1 l2 u2 : appends_rest eps l1 u1 -> appends_rest eps l2 u2 -> appends_rest eps (l1 ++ l2) (u1 ++ u2).
Proof. induction 1 as [|v vs t u H1 _ IH]; intro H2; cbn; auto. rewrite <- app_assoc. constructor; auto. Qed.
Lemma floats_rest eps l t : l <> [] -> ToString_floats eps [] l t -> appends_rest eps l (32%Z :: t).
Proof. intros Hl H. inversion H as [|v vs t1 u H1 H2]; subst; [congruence|]. cbn [app]. now constructor. Qed.
Lemma order_components m : matrix_order (fun i j => Fin (m i j)) = map Fin (components m). Proof. reflexivity. Qed.
Lemma matrices_rest_floats eps ms u : matrices_rest eps ms u -> appends_rest eps (map Fin (flat_map components ms)) u.
Proof.
  induction 1 as [|m ms t u H1 _ IH]; [constructor|]. cbn [flat_map]. rewrite map_app.
  change (32%Z :: t ++ u) with ((32%Z :: t) ++ u). apply rest_app; auto. apply floats_rest; [discriminate|]. exact H1.
Qed.
Lemma matrices_floats eps ms t : matrices_text eps ms t -> ToString_floats eps [] (map Fin (flat_map components ms)) t.
Proof.
  intros [|m ms' t1 u H1 H2]; [constructor|]. unfold ToString_matrix in H1. rewrite order_components in H1. cbn [flat_map]. rewrite map_app.
  assert (Hne : map Fin (components m) <> []) by discriminate. destruct (map Fin (components m)) as [|v vs]; [congruence|].
  inversion H1 as [|v' vs' t2 u2 H3 H4]; subst. cbn [app] in *. rewrite <- app_assoc.
  apply (TS_cons eps [] v (vs ++ map Fin (flat_map components ms')) t2 (u2 ++ u)); auto. apply rest_app; auto. now apply matrices_rest_floats.
Qed.
Lemma Forall2_split_flat eps : forall ms rs, Forall2 (remains eps) (flat_map components ms) rs ->
  exists ps, rs = flat_map components ps /\ Forall2 (matrix_remains eps) ms ps.
Proof.
  induction ms as [|m ms IH]; intros rs H; cbn [flat_map] in H.
  - inversion H; subst. exists []. split; [reflexivity|constructor].
  - apply Forall2_app_l in H as (l1 & l2 & -> & H1 & H2). destruct (IH _ H2) as (ps & -> & Hps).
    pose proof (Forall2_len _ _ _ H1) as L. rewrite components_length in L. symmetry in L.
    exists (of_list identity_matrix l1 :: ps). split.
    + cbn [flat_map]. f_equal. clear - L. do 16 (destruct l1 as [|? l1]; [discriminate|]). destruct l1; [reflexivity|discriminate].
    + constructor; auto. intros i j Hi Hj. unfold of_list. rewrite (proj2 (Nat.ltb_lt i 4)), (proj2 (Nat.ltb_lt j 4)) by lia. cbn [andb].
      rewrite <- (components_nth m i j Hi Hj). assert (Hk : 4 * j + i < List.length (components m)) by (rewrite components_length; lia).
      revert H1 Hk. generalize (components m) as c. generalize (4 * j + i) as k. clear. intros k c H. revert k.
      induction H; intros [|k] Hk; cbn in *; try lia; auto. apply IHForall2. lia.
Qed.
(** *** Words *)
Lemma words_skip lead t l : Forall blank_or_cr lead -> words_of t l -> words_of (lead ++ t) l.
Proof.
  intros Hl H. destruct H as [t Ht|ld w rest ws H1 H2 H3 H4 H5]; [apply W_nil; apply Forall_app; auto|].
  rewrite app_assoc. apply W_cons; auto. apply Forall_app. auto.
Qed.
Lemma blank_32 : blank_or_cr 32. Proof. left. left. reflexivity. Qed.
Lemma words_join a la b lb : words_of a la -> words_of b lb -> words_of (a ++ 32%Z :: b) (la ++ lb).
Proof.
  intros Ha Hb. induction Ha as [a Ha|lead w rest ws H1 H2 H3 H4 H5 IH].
  - cbn. change (32%Z :: b) with ([32%Z] ++ b). rewrite app_assoc. apply words_skip; auto. apply Forall_app. split; auto. repeat constructor; apply blank_32.
  - rewrite <- !app_assoc. cbn [app]. apply W_cons; auto. destruct rest; cbn in *; [|exact H4]. intro H. apply H. apply blank_32.
Qed.
Lemma joined_words l wss : Forall2 (fun (j : list Z * mat) ws => words_of (fst j) ws) l wss -> words_of (strings_text (map fst l)) (List.concat wss).
Proof.
  intro H. assert (G : forall w l, Forall2 (fun (j : list Z * mat) ws => words_of (fst j) ws) l w -> forall a la, words_of a la ->
    words_of (a ++ flat_map (fun v => 32%Z :: v) (map fst l)) (la ++ List.concat w)).
  { clear. intros wss l H. induction H as [|j ws l wss Hj _ IH]; intros a la Ha; cbn; [now rewrite !app_nil_r|].
    specialize (IH (a ++ 32%Z :: fst j) (la ++ ws) (words_join _ _ _ _ Ha Hj)). rewrite <- !app_assoc in IH. exact IH. }
  destruct H as [|j ws l wss Hj H]; [apply W_nil; constructor|]. cbn. now apply G.
Qed.
Lemma word_words w : word w -> words_of w [w].
Proof.
  intros (Hw & Hc). rewrite <- (app_nil_r w) at 1. apply (W_cons [] w [] []); auto; [|exact I|].
  - revert Hc. apply Forall_impl. intros c (_ & H). exact H.
  - apply W_nil. constructor.
Qed.
(** *** Numbers *)
Lemma dec_char n : (0 <= n)%Z -> Forall char_ok (dec n) /\ dec n <> [] /\ begins_not blank_or_cr (dec n).
Proof.
  intro H. destruct (dec_spec n H) as (H1 & H2 & _). split.
  - revert H2. apply Forall_impl. intros c Hc. left. now apply digit_range in Hc.
  - split; auto. destruct (dec n) as [|c t]; [exact I|]. inversion H2; subst. cbn. intro Hb. apply ws4_iff in Hb. destruct (digit_not_ws c H4). congruence.
Qed.
Lemma int_char n : Forall char_ok (append_i32 n) /\ append_i32 n <> [] /\ begins_not blank_or_cr (append_i32 n).
Proof.
  unfold append_i32. destruct (Z.ltb_spec n 0).
  - destruct (dec_char (- n) ltac:(lia)) as (H1 & _). split; [constructor; auto; right; cbn; auto|]. split; [discriminate|].
    cbn. intros [[E|[E|E]]|E]; discriminate.
  - apply dec_char. lia.
Qed.
Lemma counts_written l : Forall (fun n => 0 <= n)%Z l -> let t := flat_map (fun n => append_u32 n ++ [32%Z]) l in
  numbers_of unsigned t l /\ Forall char_ok t /\ begins_not blank_or_cr t.
Proof.
  cbv zeta. induction 1 as [|n l Hn _ (IH1 & IH2 & IH3)]; [split; [constructor|split; [constructor|exact I]]|].
  destruct (dec_char n Hn) as (H1 & H2 & H3). cbn [flat_map]. unfold append_u32 at 1 3 5. split; [|split].
  - rewrite <- app_assoc. apply (N_cons unsigned [] (dec n) n [32%Z] _ l); [constructor|now apply dec_decimal| |exact IH1].
    split; [repeat constructor|]. split; [discriminate|exact IH3].
  - apply Forall_app. split; auto. apply Forall_app. split; auto. constructor; [apply blank_ok|constructor].
  - rewrite <- app_assoc. now apply begins_app.
Qed.
Lemma matches_written l : let t := removelast (flat_map (fun n => append_i32 n ++ [32%Z]) l) in
  numbers_of integer t l /\ Forall char_ok t /\ begins_not blank_or_cr t.
Proof.
  cbv zeta. induction l as [|n l (IH1 & IH2 & IH3)]; [split; [constructor|split; [constructor|exact I]]|].
  destruct (int_char n) as (H1 & H2 & H3). destruct l as [|m l].
  - cbn [flat_map]. rewrite app_nil_r, removelast_last. split; [|auto]. rewrite <- (app_nil_r (append_i32 n)).
    apply (N_cons integer [] (append_i32 n) n [] [] []); [constructor|apply append_i32_decimal| |constructor]. split; [constructor|]. split; [auto|exact I].
  - set (u := flat_map (fun n => append_i32 n ++ [32%Z]) (m :: l)) in *.
    change (flat_map (fun n => append_i32 n ++ [32%Z]) (n :: m :: l)) with ((append_i32 n ++ [32%Z]) ++ u).
    assert (Hu : u <> []) by (unfold u; cbn [flat_map]; destruct (int_char m) as (_ & Hm & _); destruct (append_i32 m); [congruence|discriminate]).
    rewrite removelast_app by exact Hu. split; [|split].
    + rewrite <- app_assoc. apply (N_cons integer [] (append_i32 n) n [32%Z] (removelast u) (m :: l)); [constructor|apply append_i32_decimal| |exact IH1].
      split; [repeat constructor|]. split; [discriminate|exact IH3].
    + apply Forall_app. split; auto. apply Forall_app. split; auto. constructor; [apply blank_ok|constructor].
    + rewrite <- app_assoc. now apply begins_app.
Qed.

(** *** Rows *)
Fixpoint row_numbers (ps : list pair) (k : nat) : list (Z * Z) :=
  match ps with
  | [] => []
  | p :: r => if near (weight p) 1 then (joint p, 0%Z) :: row_numbers r k else (joint p, Z.of_nat k) :: row_numbers r (S k)
  end.
Fixpoint all_rows (l : list (list pair)) (k : nat) : list (list (Z * Z)) :=
  match l with [] => [] | ps :: r => row_numbers ps k :: all_rows r (k + List.length (other_weights ps)) end.
Lemma match_row : forall ps k, match_numbers ps k = flat_map (order true) (row_numbers ps k).
Proof. induction ps as [|p ps IH]; intro k; cbn; auto. destruct (near (weight p) 1); cbn; now rewrite IH. Qed.
Lemma numbers_rows : forall l k, all_numbers l k = flat_map (order true) (List.concat (all_rows l k)).
Proof. induction l as [|ps l IH]; intro k; cbn; auto. now rewrite flat_map_app, match_row, IH. Qed.
Lemma row_length : forall ps k, List.length (row_numbers ps k) = List.length ps.
Proof. induction ps as [|p ps IH]; intro k; cbn; auto. destruct (near (weight p) 1); cbn; now rewrite IH. Qed.
Lemma rows_length : forall l k, map (fun r => Z.of_nat (List.length r)) (all_rows l k) = map (fun ps => Z.of_nat (List.length ps)) l /\ List.length (all_rows l k) = List.length l.
Proof. induction l as [|ps l IH]; intro k; cbn; auto. destruct (IH (k + List.length (other_weights ps))) as (E1 & E2). now rewrite row_length, E1, E2. Qed.
Lemma other_length ps : List.length (other_weights ps) <= List.length ps.
Proof. unfold other_weights. induction ps as [|p ps IH]; cbn; auto. destruct (near (weight p) 1); cbn; lia. Qed.
Lemma table_length l : List.length (flat_map other_weights l) <= List.length (List.concat l).
Proof. induction l as [|ps l IH]; cbn; auto. rewrite !app_length. pose proof (other_length ps). lia. Qed.
Definition numbered (T : list Q) (p : pair) (x : Z * Z) : Prop :=
  fst x = joint p /\
  (near (weight p) 1 = true -> snd x = 0%Z) /\
  (near (weight p) 1 = false -> (0 <= snd x < Z.of_nat (List.length T))%Z /\ nth_error T (Z.to_nat (snd x)) = Some (weight p)).
Lemma row_spec : forall ps (pre post : list Q), Forall2 (numbered (pre ++ other_weights ps ++ post)) ps (row_numbers ps (List.length pre)).
Proof.
  unfold other_weights. induction ps as [|p ps IH]; intros pre post; cbn [row_numbers map filter]; [constructor|].
  destruct (near (weight p) 1) eqn:E; cbn [negb].
  - constructor; [|apply IH]. split; [reflexivity|]. split; [reflexivity|congruence].
  - constructor.
    + split; [reflexivity|]. split; [congruence|]. intros _. cbn [snd]. rewrite Nat2Z.id. split.
      * rewrite !app_length. cbn. lia.
      * rewrite nth_error_app2 by lia. now rewrite Nat.sub_diag.
    + specialize (IH (pre ++ [weight p]) post). rewrite <- app_assoc in IH. cbn in IH. rewrite app_length, Nat.add_1_r in IH. exact IH.
Qed.
Lemma rows_spec : forall l (pre post : list Q), Forall2 (Forall2 (numbered (pre ++ flat_map other_weights l ++ post))) l (all_rows l (List.length pre)).
Proof.
  induction l as [|ps l IH]; intros pre post; cbn [all_rows flat_map]; constructor.
  - rewrite <- app_assoc. apply row_spec.
  - specialize (IH (pre ++ other_weights ps) post). rewrite <- app_assoc, app_length in IH. rewrite <- app_assoc. exact IH.
Qed.

(** *** The element *)
Lemma tx_length : List.length (tx "-joints") = 7. Proof. reflexivity. Qed.
Lemma joints_poses id : id ++ tx "-joints" <> id ++ tx "-bind_poses". Proof. intro H. apply app_inv_head in H. discriminate. Qed.
Lemma joints_weights id : id ++ tx "-joints" <> id ++ tx "-weights". Proof. intro H. apply app_inv_head in H. discriminate. Qed.
Lemma poses_weights id : id ++ tx "-bind_poses" <> id ++ tx "-weights". Proof. intro H. apply app_inv_head in H. discriminate. Qed.
Lemma plain_app a b : plain a -> plain b -> plain (a ++ b).
Proof. intros (H1 & H2) (H3 & H4). split; [apply Forall_app; auto|]. rewrite in_app_iff. tauto. Qed.
Lemma proper_suffix id k : plain id -> In k ["-joints"; "-bind_poses"; "-weights"; "-targets"; "-morph_weights"]%string -> proper_id (id ++ tx k).
Proof.
  intros Hp Hk. split.
  - apply plain_app; auto. cbn in Hk. repeat (destruct Hk as [<- | Hk]; [cbn; split; [repeat (apply Forall_cons; [lia|]); apply Forall_nil|cbn; intuition discriminate]|]). destruct Hk.
  - cbn in Hk. repeat (destruct Hk as [<- | Hk]; [destruct id; discriminate|]). destruct Hk.
Qed.
Lemma content_has_text name attrs t : has_text (Elem name attrs (content t)) t.
Proof. exists name, attrs, (content t). split; auto. destruct t as [|c t]; [left|right]; cbn; eauto. Qed.

Lemma input_written id sem o : id <> [] -> tx sem <> [] -> exists i, AddInput id (tx sem) o (-1) = [i] /\ is_elem "input" i /\
  input_is i sem id (if (0 <=? o)%Z then Some o else None).
Proof.
  intros H1 H2. unfold AddInput. destruct id as [|c id]; [congruence|]. destruct (tx sem) as [|c2 t] eqn:E; [congruence|]. rewrite <- E in *. clear E.
  eexists. split; [reflexivity|]. split; [eexists; eexists; reflexivity|]. split; [|split].
  - eexists _, _, [], _. split; [reflexivity|constructor].
  - eexists _, _, [_], _. split; [reflexivity|]. constructor; [discriminate|constructor].
  - cbn [Z.leb Z.compare]. destruct (0 <=? o)%Z eqn:E.
    + exists (append_i32 o). split; [|apply append_i32_decimal]. eexists _, _, [_; _], _. split; [reflexivity|].
      constructor; [discriminate|]. constructor; [discriminate|constructor].
    + intros name attrs ch E2. injection E2 as _ <- _. constructor; [discriminate|]. constructor; [discriminate|constructor].
Qed.
Lemma source_id id arr t a b c d e : with_id id (AddSource id arr t a b c d e).
Proof. eexists _, _, [], []. split; [reflexivity|constructor]. Qed.
Lemma source_other id id' arr t a b c d e : id <> id' -> ~ with_id id' (AddSource id arr t a b c d e).
Proof.
  intros Hn (nm & ch & pre & post & E & Hp). unfold AddSource in E. injection E as _ E _.
  destruct pre as [|x pre]; cbn in E; [injection E as E _; congruence|]. injection E as <- E. inversion Hp as [|? ? H _]; subst. apply H. reflexivity.
Qed.
Lemma no_id_other name attrs ch id : (forall v, ~ In (tx "id", v) attrs) -> ~ with_id id (Elem name attrs ch).
Proof. intros H (nm & ch' & pre & post & E & Hp). injection E as _ -> _. apply (H id). apply in_app_iff. right. left. reflexivity. Qed.
Lemma first_here {P : xml -> Prop} c r : P c -> first_child (c :: r) P c.
Proof. intro H. exists [], r. auto. Qed.
Lemma first_skip {P : xml -> Prop} c d r : ~ P d -> first_child r P c -> first_child (d :: r) P c.
Proof. intros H (pre & post & -> & Hc & Hp). exists (d :: pre), post. auto. Qed.
Lemma source_array id arr t a b c d e : exists nm at' ch x, AddSource id arr t a b c d e = Elem nm at' ch /\ has_text x t /\ first_child ch (is_elem arr) x.
Proof.
  eexists _, _, _, _. split; [reflexivity|]. split; [apply content_has_text|]. apply first_here. eexists _, _. reflexivity.
Qed.
Lemma not_elem k name attrs ch : tx k <> name -> ~ is_elem k (Elem name attrs ch).
Proof. intros H (a & c & E). injection E as E _ _. congruence. Qed.
Lemma matrices_finite l : Forall (fun x : list Z * mat => forall i j, finite (snd x i j)) l -> Forall finite (flat_map components (map snd l)).
Proof.
  induction 1 as [|x l Hx _ IH]; [constructor|]. cbn [map flat_map]. apply Forall_app. split; auto.
  unfold components. cbn [flat_map map app]. repeat (apply Forall_cons; [apply Hx|]). apply Forall_nil.
Qed.
Lemma one_finite : finite 1. Proof. unfold finite. change (Qabs 1) with 1%Q. vm_compute. discriminate. Qed.
Lemma table_finite l : Forall (Forall (fun p => finite (weight p))) l -> Forall finite (flat_map other_weights l).
Proof.
  induction 1 as [|ps l Hp _ IH]; [constructor|]. cbn [flat_map]. apply Forall_app. split; auto. unfold other_weights.
  induction Hp as [|p ps Hp _ IHp]; cbn; [constructor|]. destruct (near (weight p) 1); cbn; auto.
Qed.
Lemma matrix_written eps (m : mat) t : machine_eps eps -> (forall i j, finite (m i j)) -> ToString_matrix eps (fun i j => Fin (m i j)) t ->
  exists m', numbers_of float_text t (components m') /\ matrix_remains eps m m' /\ Forall char_ok t.
Proof.
  intros He Hf Ht. unfold ToString_matrix in Ht. rewrite order_components in Ht.
  destruct (floats_written eps (components m) He) with (t := t) as (rs & Hn & Hr & Hc); auto.
  { unfold components. cbn [flat_map map app]. repeat (apply Forall_cons; [apply Hf|]). apply Forall_nil. }
  rewrite <- (app_nil_r (components m)) in Hr. destruct (Forall2_split_flat eps [m] rs Hr) as (ps & -> & Hps).
  inversion Hps as [|? m' ? l H1 H2]; subst. inversion H2; subst. cbn [flat_map] in Hn. rewrite app_nil_r in Hn. eauto.
Qed.
Lemma numbered_fst T l rows : Forall2 (Forall2 (numbered T)) l rows ->
  forall P, Forall (Forall (fun p => P (joint p))) l -> Forall (fun x => P (fst x)) (List.concat rows).
Proof.
  intros H P. induction H as [|ps r l rows Hr _ IH]; intro Hp; cbn; [constructor|]. inversion Hp as [|? ? H1 H2]; subst. apply Forall_app. split; auto.
  clear - Hr H1. induction Hr as [|p x ps r (E & _) _ IH]; [constructor|]. inversion H1; subst. constructor; auto. now rewrite E.
Qed.
Lemma numbered_snd T l rows : Forall2 (Forall2 (numbered T)) l rows -> T <> [] -> Forall (fun x => 0 <= snd x < Z.of_nat (List.length T))%Z (List.concat rows).
Proof.
  intros H HT. assert (HL : (0 < Z.of_nat (List.length T))%Z) by (destruct T; [congruence|cbn; lia]).
  induction H as [|ps r l rows Hr _ IH]; cbn; [constructor|]. apply Forall_app. split; auto.
  clear - Hr HL. induction Hr as [|p x ps r (_ & E1 & E2) _ IH]; [constructor|]. constructor; auto.
  destruct (near (weight p) 1); [rewrite E1 by reflexivity; lia|apply E2; reflexivity].
Qed.
Lemma row_small l : (Z.of_nat (List.length (List.concat l)) < 2147483599)%Z -> Forall (fun ps : list pair => (Z.of_nat (List.length ps) < 4294967296)%Z) l.
Proof. induction l as [|ps l IH]; intro H; [constructor|]. cbn in H. rewrite app_length in H. constructor; [lia|]. apply IH. lia. Qed.
Lemma counts_text (l : list (list pair)) : flat_map (fun ps => append_u32 (Z.of_nat (List.length ps)) ++ [32%Z]) l = flat_map (fun n => append_u32 n ++ [32%Z]) (map (fun ps => Z.of_nat (List.length ps)) l).
Proof. induction l as [|ps l IH]; cbn [flat_map map]; [reflexivity|]. rewrite IH. reflexivity. Qed.
Theorem written_holds eps id s wss n : machine_eps eps -> plain id -> proper_skin s -> Forall2 (fun j ws => words_of (fst j) ws) (joints s) wss ->
  (Z.of_nat (List.length (List.concat wss)) < 2147483600)%Z -> WriteSkinController eps id s n ->
  exists d, holds n d true /\ d_names d = List.concat wss /\ Forall2 (matrix_remains eps) (map snd (joints s)) (d_poses d) /\
    matrix_remains eps (bind_shape s) (d_shape d) /\ Forall2 (remains eps) (weight_table s) (d_weights d) /\ d_rows d = all_rows (influences s) 1.
Proof.
  intros He Hid [(Hf1 & Hf2 & Hf3) Hj (S1 & S2 & S3)] Hn Hnl (tb & tp & tw & Tb & Tp & Tw & ->).
  destruct (matrix_written eps _ tb He Hf1 Tb) as (m' & Nb & Rb & Cb).
  destruct (floats_written eps (flat_map components (map snd (joints s))) He (matrices_finite _ Hf2) tp (matrices_floats _ _ _ Tp)) as (rp & Np & Rp & Cp).
  apply Forall2_split_flat in Rp as (ps & -> & Rp).
  destruct (floats_written eps (weight_table s) He) with (t := tw) as (rw & Nw & Rw & Cw); auto.
  { constructor; [apply one_finite|now apply table_finite]. }
  pose proof (joined_words (joints s) wss Hn) as Hwd.
  exists (SkinData (List.concat wss) ps rw m' (all_rows (influences s) 1)).
  pose proof (rows_spec (influences s) [1%Q] []) as Hrows. rewrite app_nil_r in Hrows. change ([1%Q] ++ flat_map other_weights (influences s)) with (weight_table s) in Hrows.
  change (List.length [1%Q]) with 1 in Hrows. destruct (rows_length (influences s) 1) as (RL1 & RL2).
  pose proof (table_length (influences s)) as TL. assert (WL : List.length (weight_table s) = S (List.length (flat_map other_weights (influences s)))) by reflexivity.
  pose proof (Forall2_len _ _ _ Rw) as RwL.
  split; [|cbn; auto 10].
  assert (PJ : proper_id (id ++ tx "-joints")) by (apply proper_suffix; cbn; auto).
  assert (PB : proper_id (id ++ tx "-bind_poses")) by (apply proper_suffix; cbn; auto).
  assert (PW : proper_id (id ++ tx "-weights")) by (apply proper_suffix; cbn; auto).
  constructor; cbn [d_names d_poses d_weights d_shape d_rows].
  - exists [], (children_of (skin_element id s tb tp tw)), (id ++ tx "-joints"), (id ++ tx "-bind_poses"), (id ++ tx "-weights").
    unfold skin_element. cbn [children_of]. eexists _, _. split; [reflexivity|]. split; [exact PJ|]. split; [exact PB|]. split; [exact PW|].
    split; [|split; [|split; [|split; [|split; [|split; [|split; [|split]]]]]]].
    + intros c v Hc Hv. cbn in Hc. destruct Hc as [<- | [<- | [<- | [<- | [<- | [<- | []]]]]]];
        try (exfalso; revert Hv; apply no_id_other; cbn; intuition discriminate).
      * destruct (list_eq_dec Z.eq_dec v (id ++ tx "-joints")) as [-> | Hne]; [apply PJ|]. exfalso. revert Hv. apply (source_other (id ++ tx "-joints")). intro Ev. apply Hne. symmetry. exact Ev.
      * destruct (list_eq_dec Z.eq_dec v (id ++ tx "-bind_poses")) as [-> | Hne]; [apply PB|]. exfalso. revert Hv. apply (source_other (id ++ tx "-bind_poses")). intro Ev. apply Hne. symmetry. exact Ev.
      * destruct (list_eq_dec Z.eq_dec v (id ++ tx "-weights")) as [-> | Hne]; [apply PW|]. exfalso. revert Hv. apply (source_other (id ++ tx "-weights")). intro Ev. apply Hne. symmetry. exact Ev.
    + left. eexists _, tb. split; [apply first_here; eexists _, _; reflexivity|]. rewrite (content_same tb Cb). split; [apply content_has_text|exact Nb].
    + eexists. split.
      * apply first_skip; [apply no_id_other; cbn; tauto|]. apply first_here. apply source_id.
      * destruct (source_array (id ++ tx "-joints") "Name_array" (strings_text (map fst (joints s))) (List.length (joints s)) (List.length (joints s)) 1 (Some [tx "JOINT"]) (tx "Name"))
          as (nm & at' & ch & x & E & Hx & Hc). rewrite E. exists nm, at', ch, x, (strings_text (map fst (joints s))). auto.
    + eexists. split.
      * apply first_skip; [apply no_id_other; cbn; tauto|]. apply first_skip; [apply source_other, joints_poses|]. apply first_here. apply source_id.
      * destruct (source_array (id ++ tx "-bind_poses") "float_array" tp (List.length (joints s) * 16) (List.length (joints s)) 16 None (tx "float4x4"))
          as (nm & at' & ch & x & E & Hx & Hc). rewrite E. exists nm, at', ch, x, tp. auto.
    + eexists. split.
      * apply first_skip; [apply no_id_other; cbn; tauto|]. apply first_skip; [apply source_other, joints_weights|].
        apply first_skip; [apply source_other, poses_weights|]. apply first_here. apply source_id.
      * destruct (source_array (id ++ tx "-weights") "float_array" tw (List.length (weight_table s)) (List.length (weight_table s)) 1 (Some [tx "WEIGHT"]) (tx "float"))
          as (nm & at' & ch & x & E & Hx & Hc). rewrite E. exists nm, at', ch, x, tw. auto.
    + do 4 (apply first_skip; [apply not_elem; discriminate|]). apply first_here. eexists _, _. reflexivity.
    + destruct (input_written (id ++ tx "-joints") "JOINT" (-1) (proj2 PJ) ltac:(discriminate)) as (i1 & -> & Ei1 & Hi1).
      destruct (input_written (id ++ tx "-bind_poses") "INV_BIND_MATRIX" (-1) (proj2 PB) ltac:(discriminate)) as (i2 & -> & Ei2 & Hi2).
      exists [i1; i2], [i1; i2], i1, i2. cbn in Hi1, Hi2. split; [reflexivity|]. split; [repeat (apply I_keep; auto); constructor|].
      split; [apply Permutation_refl|auto].
    + do 5 (apply first_skip; [apply not_elem; discriminate|]). apply first_here. eexists _, _. reflexivity.
    + destruct (input_written (id ++ tx "-joints") "JOINT" 0 (proj2 PJ) ltac:(discriminate)) as (i1 & -> & Ei1 & Hi1).
      destruct (input_written (id ++ tx "-weights") "WEIGHT" 1 (proj2 PW) ltac:(discriminate)) as (i2 & -> & Ei2 & Hi2). cbn in Hi1, Hi2.
      destruct (counts_written (map (fun ps => Z.of_nat (List.length ps)) (influences s))) as (V1 & V2 & _).
      { apply Forall_forall. intros z Hz. apply in_map_iff in Hz as (ps0 & <- & _). lia. }
      destruct (matches_written (all_numbers (influences s) 1)) as (M1 & M2 & _).
      assert (EV : vertexCounts s = flat_map (fun n => append_u32 n ++ [32%Z]) (map (fun ps => Z.of_nat (List.length ps)) (influences s))).
      { apply counts_text. }
      rewrite <- EV in V1, V2. change (removelast (flat_map (fun n => append_i32 n ++ [32%Z]) (all_numbers (influences s) 1))) with (vertexMatches s) in M1, M2.
      rewrite (content_same _ V2), (content_same _ M2).
      eexists [i1; i2], _, [], _, [], [i1; i2], i1, i2, _, _, _.
      split; [reflexivity|]. split.
      { destruct Ei1 as (? & ? & ->), Ei2 as (? & ? & ->). repeat (apply Forall_cons; [split; apply not_elem; discriminate|]). apply Forall_nil. }
      split; [repeat (apply I_keep; auto); constructor|]. split; [apply Permutation_refl|]. split; [exact Hi1|]. split; [exact Hi2|].
      split; [eexists _, _; reflexivity|]. split; [constructor|]. split; [eexists _, _; reflexivity|].
      split; [eexists _, _, [], []; split; [reflexivity|constructor]|].
      split; [rewrite RL2; unfold append_u64, u32; rewrite Z.mod_small by lia; apply dec_decimal; lia|]. split; [apply content_has_text|]. split; [rewrite RL1; exact V1|]. split; [apply content_has_text|].
      rewrite numbers_rows in M1. exact M1.
  - destruct rw; [discriminate|discriminate].
  - split; [lia|]. split; [lia|]. split; [lia|]. split.
    + apply Forall_forall. intros r Hr. apply (in_map (fun r => Z.of_nat (List.length r))) in Hr. rewrite RL1 in Hr. apply in_map_iff in Hr as (ps0 & <- & Hps0).
      pose proof (row_small _ S3) as Hrs. rewrite Forall_forall in Hrs. now apply Hrs.
    + pose proof (numbered_snd _ _ _ Hrows ltac:(discriminate)) as N2.
      pose proof (numbered_fst _ _ _ Hrows (fun z => -1 <= z < Z.of_nat (List.length (joints s)))%Z Hj) as N1.
      rewrite Forall_forall in *. intros x Hx. specialize (N1 x Hx). specialize (N2 x Hx). cbn beta in N1, N2. lia.
Qed.

(** *** What is kept *)
Lemma six_one : six_digits 1.
Proof. exists 100000%Z, 0%Z. split; [lia|]. vm_compute. reflexivity. Qed.
Lemma eps_one eps : machine_eps eps -> (eps <= 1)%Q.
Proof. intros [-> | ->]; vm_compute; discriminate. Qed.
Lemma close6_eq q r r' : close6 q r -> (r' == r)%Q -> close6 q r'.
Proof. intros (H1 & H2) E. split; [rewrite E; exact H1|]. intro H. rewrite E. auto. Qed.
Lemma remains_eq eps q r r' : remains eps q r -> (r' == r)%Q -> remains eps q r'.
Proof. intros (H1 & H2) E. split; intro H; [rewrite E; auto|]. apply (close6_eq q r); auto. Qed.
Lemma remains_one eps r : machine_eps eps -> remains eps 1 r -> (r == 1)%Q.
Proof. intros He (_ & H). destruct H as (_ & H); [change (Qabs 1) with 1%Q; now apply eps_one|]. apply H. apply six_one. Qed.
Lemma remains_nth eps l rs : Forall2 (remains eps) l rs -> forall k q, nth_error l k = Some q -> remains eps q (nth k rs 0%Q) /\ k < List.length rs.
Proof.
  induction 1 as [|v r l rs Hv _ IH]; intros [|k] q E; cbn in *; try discriminate.
  - injection E as <-. split; [auto|lia].
  - destruct (IH k q E). split; [auto|lia].
Qed.
Lemma pair_kept eps T d p x r : machine_eps eps -> hd_error T = Some 1%Q -> Forall2 (remains eps) T (d_weights d) ->
  (-1 <= joint p < Z.of_nat (List.length (d_names d)))%Z -> numbered T p x -> stands_for d x r ->
  fst r = joint p /\ weight_remains eps (weight p) (snd r).
Proof.
  intros He HT Hw Hj (E1 & E2 & E3) (S1 & _ & S3 & _). split; [rewrite S1; rewrite E1; auto|].
  assert (H0 : (snd x = 0%Z -> snd r == 1)%Q).
  { intro Ex. destruct T as [|q T]; [discriminate|]. injection HT as ->. inversion Hw as [|? r0 ? rs H1 H2 E E']; subst. rewrite Ex, <- E' in S3.
    rewrite S3 by (cbn; lia). cbn. now apply (remains_one eps). }
  split; intro H; [apply H0, E2, near_iff, H|]. apply near_not in H. destruct (E3 H) as (B & N). destruct (remains_nth eps _ _ Hw _ _ N) as (R & L).
  apply (remains_eq eps _ _ _ R). apply S3. lia.
Qed.
Lemma vertex_kept eps T d ps row : machine_eps eps -> hd_error T = Some 1%Q -> Forall2 (remains eps) T (d_weights d) ->
  Forall (fun p => -1 <= joint p < Z.of_nat (List.length (d_names d)))%Z ps -> Forall2 (numbered T) ps row ->
  forall ps', vertex_of d row ps' -> vertex_remains eps ps ps'.
Proof.
  intros He HT Hw Hj Hr ps' (raw & H1 & H2 & H3).
  assert (H : map fst raw = map joint ps /\ Forall2 (weight_remains eps) (map weight ps) (map snd raw)).
  { clear H2 H3 ps'. revert raw H1. induction Hr as [|p x ps row Hx Hr IH]; intros raw H1; inversion H1 as [|? r ? raw' H2 H3]; subst; [cbn; split; [reflexivity|constructor]|].
    inversion Hj as [|? ? Hp Hj']; subst. destruct (pair_kept eps T d p x r He HT Hw Hp Hx H2) as (A1 & A2). destruct (IH Hj' raw' H3) as (A3 & A4).
    cbn. split; [congruence|constructor; auto]. }
  destruct H as (A1 & A2). split; [congruence|]. exists (map snd raw). auto.
Qed.
Lemma matrix_kept eps m p m' : matrix_remains eps m p -> same_matrix p m' -> matrix_remains eps m m'.
Proof. intros H E i j Hi Hj. apply (remains_eq eps _ _ _ (H i j Hi Hj)). now apply E. Qed.
Lemma matrices_kept eps : forall l ps ms, Forall2 (matrix_remains eps) l ps -> Forall2 same_matrix ps ms -> Forall2 (matrix_remains eps) l ms.
Proof.
  intros l ps ms H. revert ms. induction H as [|m p l ps H1 _ IH]; intros ms Hm; inversion Hm; subst; constructor; auto. apply (matrix_kept eps m p); auto.
Qed.
Theorem written_read a eps id s n : machine_eps eps -> plain id -> proper_skin s -> Forall (fun j => word (fst j)) (joints s) -> WriteSkinController eps id s n ->
  exists s' b, LoadSkinController a n = Some (LoadedSkin true s' b) /\ skin_remains eps s s'.
Proof.
  intros He Hid Hs Hword Hw.
  assert (Hwss : exists wss, Forall2 (fun j ws => words_of (fst j) ws) (joints s) wss /\ List.concat wss = map fst (joints s)).
  { exists (map (fun j => [fst j]) (joints s)). split.
    - clear - Hword. induction Hword; cbn; constructor; auto. now apply word_words.
    - clear. induction (joints s); cbn; congruence. }
  destruct Hwss as (wss & Hws & Ews).
  destruct (written_holds eps id s wss n He Hid Hs Hws) as (d & Hd & D1 & D2 & D3 & D4 & D5); [rewrite Ews, map_length; apply (p_small s Hs)|exact Hw|].
  rewrite Ews in D1. pose proof (Forall2_len _ _ _ D2) as LP. rewrite map_length in LP.
  assert (EN : List.length (d_names d) = List.length (d_poses d)) by (rewrite D1, map_length; exact LP).
  destruct (load_described a n d true (conj Hd (Nat.eq_le_incl _ _ EN))) as (s' & b & El & (K1 & K2 & K3 & K4)). rewrite EN, firstn_all in K2.
  exists s', b. split; auto. split; [congruence|].
  split; [apply (matrices_kept eps _ (d_poses d)); auto|]. split; [apply (matrix_kept eps _ (d_shape d)); auto|].
  rewrite D5 in K4. pose proof (rows_spec (influences s) [1%Q] []) as Hrows. rewrite app_nil_r in Hrows.
  change ([1%Q] ++ flat_map other_weights (influences s)) with (weight_table s) in Hrows. change (List.length [1%Q]) with 1 in Hrows.
  pose proof (p_joints s Hs) as Hj. assert (EL : List.length (joints s) = List.length (d_names d)) by (rewrite D1, map_length; reflexivity). rewrite EL in Hj.
  assert (HT : hd_error (weight_table s) = Some 1%Q) by reflexivity. clear - He D4 K4 Hrows Hj HT. set (T := weight_table s) in *. clearbody T.
  revert Hrows K4. generalize (all_rows (influences s) 1) as rows. generalize (influences s') as out. induction Hj as [|ps l Hp Hj IH]; intros out rows H1 H2.
  - inversion H1; subst. inversion H2; subst. constructor.
  - inversion H1 as [|? row ? rows' A1 A2]; subst. inversion H2 as [|? ps' ? out' B1 B2]; subst. constructor; [|eapply IH; eauto].
    eapply vertex_kept; eauto.
Qed.
(** Every skin can be written. *)
Lemma floats_writable eps l : machine_eps eps -> exists t, floats_text eps l t.
Proof.
  intro He. assert (H : forall l, exists u, appends_rest eps (map Fin l) u).
  { induction l0 as [|q l0 (u & IH)]; [exists []; constructor|]. destruct (C78_writable eps (Fin q) He) as (t & Ht). exists (32%Z :: t ++ u). cbn. now constructor. }
  unfold floats_text. destruct l as [|q l]; [exists []; constructor|]. destruct (C78_writable eps (Fin q) He) as (t & Ht). destruct (H l) as (u & Hu).
  exists (t ++ u). cbn. apply (TS_cons eps []); auto.
Qed.
Lemma matrix_writable eps (m : mat) : machine_eps eps -> exists t, ToString_matrix eps (fun i j => Fin (m i j)) t.
Proof. intro He. unfold ToString_matrix. rewrite order_components. apply (floats_writable eps (components m) He). Qed.
Lemma matrices_writable eps l : machine_eps eps -> exists t, matrices_text eps l t.
Proof.
  intro He. assert (H : forall l, exists u, matrices_rest eps l u).
  { induction l0 as [|q l0 (u & IH)]; [exists []; constructor|]. destruct (matrix_writable eps q He) as (t & Ht). eexists. constructor; eauto. }
  destruct l as [|q l]; [exists []; constructor|]. destruct (matrix_writable eps q He) as (t & Ht). destruct (H l) as (u & Hu). eexists. constructor; eauto.
Qed.
Theorem skin_writable eps id s : machine_eps eps -> exists n, WriteSkinController eps id s n.
Proof.
  intro He. destruct (matrix_writable eps (bind_shape s) He) as (tb & H1). destruct (matrices_writable eps (map snd (joints s)) He) as (tp & H2).
  destruct (floats_writable eps (weight_table s) He) as (tw & H3). exists (skin_element id s tb tp tw), tb, tp, tw. auto.
Qed.
(** *** Skins that are kept exactly *)
Lemma exact_remains eps q r : (q == 0 \/ eps <= Qabs q /\ six_digits q)%Q -> (0 < eps)%Q -> remains eps q r -> (r == q)%Q.
Proof.
  intros [H | (H1 & H2)] He (R1 & R2).
  - rewrite R1, H; [reflexivity|]. rewrite H. change (Qabs 0) with 0%Q. exact He.
  - apply R2; auto.
Qed.
