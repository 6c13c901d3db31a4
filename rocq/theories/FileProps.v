(** Property C50: file-name helpers and the root-path stack. *)
From Coq Require Import List ZArith Bool Lia String.
From Verif Require Import TextModel FileModel.
Import ListNotations.
Local Open Scope Z_scope.

Definition separator (c : Z) : Prop := c = 47 \/ c = 92.

Lemma strrchr_none : forall s c, ~ In c s -> strrchr s c = None.
Proof.
  induction s as [|x s IH]; intros c H; [reflexivity|]. cbn [strrchr]. rewrite IH by (cbn in H; tauto).
  destruct (Z.eqb_spec x c); auto. exfalso. apply H. left. auto.
Qed.
Lemma strrchr_app : forall p c t, ~ In c t -> strrchr (p ++ c :: t) c = Some (List.length p).
Proof.
  induction p as [|x p IH]; intros c t H; cbn [app strrchr List.length].
  - rewrite strrchr_none by auto. rewrite Z.eqb_refl. reflexivity.
  - rewrite IH by auto. reflexivity.
Qed.
Lemma strrchr_lt : forall s c i, strrchr s c = Some i -> (i < List.length s)%nat.
Proof.
  induction s as [|x s IH]; intros c i H; cbn in *; [discriminate|].
  destruct (strrchr s c) as [j|] eqn:E; [injection H as <-; apply IH in E; lia|].
  destruct (x =? c); [|discriminate]. injection H as <-. lia.
Qed.
Lemma strrchr_before : forall p c d t, ~ In d (c :: t) ->
  match strrchr (p ++ c :: t) d with Some i => (i < List.length p)%nat | None => True end.
Proof.
  intros p c d t H. destruct (strrchr (p ++ c :: t) d) as [i|] eqn:E; auto.
  revert i E. induction p as [|x p IH]; intros i E; cbn [app] in E.
  - rewrite strrchr_none in E by auto. discriminate.
  - cbn [strrchr] in E. destruct (strrchr (p ++ c :: t) d) as [j|] eqn:Ej.
    + injection E as <-. specialize (IH j eq_refl). cbn. lia.
    + destruct (x =? d); [|discriminate]. injection E as <-. cbn. lia.
Qed.
Lemma last_separator : forall p c t, separator c -> (forall d, In d t -> ~ separator d) ->
  ptr_max (strrchr (p ++ c :: t) 47) (strrchr (p ++ c :: t) 92) = Some (List.length p).
Proof.
  intros p c t Hc Ht.
  assert (H47 : ~ In 47 t) by (intro H; apply (Ht _ H); left; auto).
  assert (H92 : ~ In 92 t) by (intro H; apply (Ht _ H); right; auto).
  destruct Hc as [-> | ->].
  - rewrite strrchr_app by auto.
    pose proof (strrchr_before p 47 92 t) as H. destruct (strrchr (p ++ 47 :: t) 92); [|reflexivity].
    cbn. f_equal. apply Nat.max_l. enough (n < List.length p)%nat by lia. apply H.
    cbn. intros [|]; [discriminate|auto].
  - rewrite (strrchr_app p 92 t) by auto.
    pose proof (strrchr_before p 92 47 t) as H. destruct (strrchr (p ++ 92 :: t) 47); [|reflexivity].
    cbn. f_equal. apply Nat.max_r. enough (n < List.length p)%nat by lia. apply H.
    cbn. intros [|]; [discriminate|auto].
Qed.
Lemma no_separator : forall s, (forall d, In d s -> ~ separator d) ->
  ptr_max (strrchr s 47) (strrchr s 92) = None.
Proof.
  intros s H. rewrite !strrchr_none; auto; intro Hin; apply (H _ Hin); [right|left]; auto.
Qed.

(** Full statement refuted: without a separator the whole name is returned (the folder part is empty), and
    names longer than the buffer are cut. *)
Theorem C50_strip_refuted :
  ~ (forall folder file, (folder = [] \/ exists p c, folder = p ++ [c] /\ separator c) ->
     (forall d, In d file -> ~ separator d) -> StripFileFromPath (folder ++ file) = folder) /\
  StripFileFromPath (tx "model.dae") = tx "model.dae" /\
  (forall folder file, (List.length folder > 1024)%nat -> StripFileFromPath (folder ++ file) <> folder) /\
  GetFileExtension (repeat 97 1023 ++ tx ".dae") = [].
Proof.
  split; [|split; [reflexivity|split; [|vm_compute; reflexivity]]].
  - intro H. specialize (H [] (tx "a") (or_introl eq_refl)).
    assert (StripFileFromPath ([] ++ tx "a") = []) as E; [|discriminate].
    apply H. cbn. intros d [<-|[]]. intros [E|E]; discriminate.
  - intros folder file Hl E. apply (f_equal (@List.length Z)) in E. unfold StripFileFromPath in E.
    assert (Hn : (List.length (firstn MAX_PATH (folder ++ file)) <= 1024)%nat) by apply firstn_le_length.
    destruct (ptr_max _ _).
    + pose proof (firstn_le_length (S n) (firstn MAX_PATH (folder ++ file))) as H1.
      rewrite firstn_length in E. lia.
    + lia.
Qed.
Print Assumptions C50_strip_refuted.

(** What holds: a name with a folder part, up to 1024 characters, loses exactly its last segment; the
    extension of any name shorter than 1024 characters is the lower-cased text after the last period of
    its last segment, or nothing.  Missing: names without separator, longer names (refuted). *)
Theorem C50_names_partial :
  (forall p c file, separator c -> (forall d, In d file -> ~ separator d) ->
     (List.length (p ++ c :: file) <= 1024)%nat ->
     StripFileFromPath (p ++ c :: file) = p ++ [c]) /\
  (forall folder base ext, (folder = [] \/ exists p c, folder = p ++ [c] /\ separator c) ->
     (forall d, In d (base ++ ext) -> ~ separator d) -> ~ In 46 ext ->
     (List.length (folder ++ base ++ 46%Z :: ext) < 1024)%nat ->
     GetFileExtension (folder ++ base ++ 46 :: ext) = map tolower ext) /\
  (forall folder file, (folder = [] \/ exists p c, folder = p ++ [c] /\ separator c) ->
     (forall d, In d file -> ~ separator d) -> ~ In 46 file ->
     (List.length (folder ++ file) < 1024)%nat -> GetFileExtension (folder ++ file) = []).
Proof.
  split; [|split].
  - intros p c file Hc Hf Hl. unfold StripFileFromPath. rewrite firstn_all2 by exact Hl.
    rewrite last_separator by auto.
    replace (p ++ c :: file) with ((p ++ [c]) ++ file) by (rewrite <- app_assoc; reflexivity).
    replace (S (List.length p)) with (List.length (p ++ [c]) + 0)%nat by (rewrite app_length; cbn; lia).
    rewrite firstn_app_2. cbn. apply app_nil_r.
  - intros folder base ext Hfo Hsep Hext Hl. unfold GetFileExtension.
    rewrite firstn_all2 by (unfold MAX_PATH; lia).
    assert (Hp : strrchr (folder ++ base ++ 46 :: ext) 46 = Some (List.length (folder ++ base))).
    { rewrite app_assoc. apply strrchr_app; auto. }
    rewrite Hp.
    assert (Hsk : skipn (S (List.length (folder ++ base))) (folder ++ base ++ 46 :: ext) = ext).
    { rewrite app_assoc. replace ((folder ++ base) ++ 46 :: ext) with (((folder ++ base) ++ [46]) ++ ext) by (rewrite <- app_assoc; reflexivity).
      replace (S (List.length (folder ++ base))) with (List.length ((folder ++ base) ++ [46%Z])) by (rewrite app_length; cbn; lia).
      rewrite skipn_app, skipn_all, Nat.sub_diag. reflexivity. }
    rewrite Hsk.
    assert (Htail : forall d, In d (base ++ 46 :: ext) -> ~ separator d).
    { intros d Hd. apply in_app_iff in Hd. destruct Hd as [Hd|[<-|Hd]].
      - apply Hsep. apply in_app_iff; auto.
      - intros [E|E]; discriminate.
      - apply Hsep. apply in_app_iff; auto. }
    destruct Hfo as [->|(p & c & -> & Hc)].
    + cbn [app]. rewrite no_separator by auto. reflexivity.
    + rewrite <- app_assoc. cbn [app]. rewrite last_separator by auto.
      rewrite (proj2 (Nat.ltb_ge _ _)); auto. rewrite !app_length. cbn. lia.
  - intros folder file Hfo Hsep Hdot Hl. unfold GetFileExtension.
    rewrite firstn_all2 by (unfold MAX_PATH; lia).
    destruct Hfo as [->|(p & c & -> & Hc)].
    + cbn [app]. rewrite strrchr_none by auto. reflexivity.
    + rewrite <- app_assoc. cbn [app].
      assert (Hb : ~ In 46 (c :: file)).
      { intros [->|]; [|auto]. destruct Hc; discriminate. }
      pose proof (strrchr_before p c 46 file Hb) as Hs.
      destruct (strrchr (p ++ c :: file) 46) as [i|]; auto.
      rewrite last_separator by auto. rewrite (proj2 (Nat.ltb_lt _ _)) by auto. reflexivity.
Qed.
Print Assumptions C50_names_partial.
Example C50_demo : StripFileFromPath (tx "/home/me\models/duck.dae") = tx "/home/me\models/" /\
  GetFileExtension (tx "/home/me.d/Duck.tar.DAE") = tx "dae" /\ GetFileExtension (tx "/home/me.d/Duck") = [].
Proof. repeat split; reflexivity. Qed.

(** The stack of root paths: once the working directory is known, no sequence of pushes and pops empties
    it or fails, the initial root stays at the bottom, and a pop undoes a push. *)
Theorem C50_root_stack : forall (uri : Type) (make_absolute : uri -> list Z -> uri) cwd ops,
  exists st, fold_left (run_op uri make_absolute) ops (Some (initial uri (Some cwd))) = Some st /\
    st <> [] /\ last st cwd = cwd /\
    forall path, exists st', push_root uri make_absolute st path = Some st' /\ pop_root uri st' = st.
Proof.
  intros uri ma cwd ops. cbn [initial].
  assert (H : forall st, st <> [] -> last st cwd = cwd ->
     exists st', fold_left (run_op uri ma) ops (Some st) = Some st' /\ st' <> [] /\ last st' cwd = cwd).
  { induction ops as [|o ops IH]; intros st Hne Hl; [exists st; auto|]. cbn [fold_left run_op].
    destruct o as [p|].
    - destruct st as [|cur st]; [congruence|]. cbn [push_root]. apply IH; [discriminate|]. exact Hl.
    - apply IH.
      + destruct st as [|x [|y st]]; cbn; auto; discriminate.
      + destruct st as [|x [|y st]]; cbn in *; auto. }
  destruct (H [cwd]) as (st & E & Hne & Hl); [discriminate|reflexivity|].
  exists st. split; auto. split; auto. split; auto. intros path.
  destruct st as [|cur st]; [congruence|]. eexists. split; [reflexivity|]. reflexivity.
Qed.
Print Assumptions C50_root_stack.
Example C50_demo_stack :
  fold_left (run_op nat (fun cur _ => S cur)) [Pop; Push []; Push []; Pop; Pop; Pop] (Some [7%nat]) = Some [7%nat].
Proof. reflexivity. Qed.
