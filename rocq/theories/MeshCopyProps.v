(** Property C117: the copy of a mesh is the same mesh. *)
From Coq Require Import String List ZArith QArith Bool Arith Lia Permutation Sorted.
From Verif Require Import TextModel StringModel XmlModel EnumModel FloatModel PolyModel TriModel DaeModel RigModel DaeSpec MeshModel MeshCopyModel.
From Verif Require DaeProofs DaeInputProofs PolyProofs MeshWriteProofs MeshReadProofs MeshProps.
Import ListNotations.
Local Open Scope nat_scope.
Local Open Scope list_scope.

(** *** What is asked of the mesh *)
(** A polygon set whose inputs use different sources of the mesh, with the per-vertex sources at offset 0 (as AddPolygons makes
    them) and one list of indices for each offset. *)
Definition orderly (m : gmesh) (d : dset) : Prop :=
  List.length (sets d) = List.length (pinputs (base d)) /\
  NoDup (map source (pinputs (base d))) /\
  (forall x, In x (pinputs (base d)) -> source x < List.length (gm_sources m)) /\
  (forall v, In v (gm_vertex m) -> exists x, In x (pinputs (base d)) /\ source x = v /\ offset x = 0) /\
  (forall i j x y, nth_error (pinputs (base d)) i = Some x -> nth_error (pinputs (base d)) j = Some y ->
     offset x = offset y -> owns x = true -> owns y = true -> i = j).
(** The per-vertex sources are sources of the mesh, each once. *)
Definition orderly_mesh (m : gmesh) : Prop :=
  NoDup (gm_vertex m) /\ (forall v, In v (gm_vertex m) -> v < List.length (gm_sources m)) /\ Forall (orderly m) (gm_sets m).
(** The copy c of the polygon set d: faces, holes, material and, up to their order, the inputs as a user sees them. *)
Definition copied (d c : dset) : Prop :=
  pcounts (base c) = pcounts (base d) /\ pholes (base c) = pholes (base d) /\ material c = material d /\ Permutation (view c) (view d).

(** *** Proofs *)
Definition table := nat -> PolyModel.input Z * Z.
Definition update (e : table) (s : nat) (p : PolyModel.input Z * Z) (k : nat) := if k =? s then p else e k.

Lemma find_input_map (e : table) K s j : (forall k, In k K -> source (fst (e k)) = k) -> NoDup K -> nth_error K j = Some s -> find_input (map (fun k => fst (e k)) K) s = Some j.
Proof.
  revert j. induction K as [|k K IH]; intros j He HN Hj; [destruct j; discriminate|].
  cbn [map find_input]. rewrite (He k (or_introl eq_refl)). inversion HN as [|k0 K0 Hk HN2]; subst k0 K0. destruct j as [|j]; cbn in Hj.
  - injection Hj as ->. now rewrite Nat.eqb_refl.
  - destruct (Nat.eqb_spec k s) as [->|]; [exfalso; apply Hk; eapply nth_error_In; eauto|].
    rewrite (IH j); auto. intros k1 H1. apply He. now right.
Qed.
Lemma find_input_fresh (e : table) K s : (forall k, In k K -> source (fst (e k)) = k) -> ~ In s K -> find_input (map (fun k => fst (e k)) K) s = None.
Proof.
  induction K as [|k K IH]; intros He HN; [reflexivity|]. cbn [map find_input]. rewrite (He k (or_introl eq_refl)).
  destruct (Nat.eqb_spec k s) as [->|]; [exfalso; apply HN; now left|]. rewrite IH; auto; [|intro; apply HN; now right]. intros k1 H1. apply He. now right.
Qed.
Lemma set_nth_map_update {B} (f : PolyModel.input Z * Z -> B) (e : table) K s p j : NoDup K -> nth_error K j = Some s ->
  set_nth (map (fun k => f (e k)) K) j (f p) = map (fun k => f (update e s p k)) K.
Proof.
  revert j. induction K as [|k K IH]; intros j HN Hj; [destruct j; discriminate|].
  inversion HN as [|k0 K0 Hk HN2]; subst k0 K0. destruct j as [|j]; cbn in Hj |- *.
  - injection Hj as ->. unfold update at 1. rewrite Nat.eqb_refl. f_equal. apply map_ext_in. intros k Hin. unfold update.
    destruct (Nat.eqb_spec k s) as [->|]; [contradiction|reflexivity].
  - unfold update at 1. destruct (Nat.eqb_spec k s) as [->|]; [exfalso; apply Hk; eapply nth_error_In; eauto|]. f_equal. now apply IH.
Qed.
(** One input whose source already has an input without indices. *)
Lemma input_step ins zs c i x (e : table) K j z :
  nth_error ins i = Some x -> nth i zs (-1)%Z = z ->
  pinputs (base c) = map (fun k => fst (e k)) K -> sets c = map (fun k => snd (e k)) K -> NoDup K ->
  (forall k, In k K -> source (fst (e k)) = k) -> nth_error K j = Some (source x) -> fst (e (source x)) = Input (offset x) (source x) [] ->
  (owns x = true -> forall k, In k K -> offset (fst (e k)) = offset x -> owns (fst (e k)) = false) ->
  clone_input ins zs c i x = with_inputs c (map (fun k => fst (update e (source x) (x, z) k)) K) (map (fun k => snd (update e (source x) (x, z) k)) K).
Proof.
  intros Hx Hz Hi Hs HN He Hj Hf Ho. unfold clone_input. rewrite Hi, (find_input_map e K (source x) j) by auto. rewrite Hi, Hs, Hz.
  assert (Hn : nth_error (map (fun k => fst (e k)) K) j = Some (Input (offset x) (source x) [])) by (rewrite nth_error_map, Hj; cbn; now rewrite Hf).
  assert (E2 : set_nth (map (fun k => snd (e k)) K) j z = map (fun k => snd (update e (source x) (x, z) k)) K) by (now apply (set_nth_map_update snd e K (source x) (x, z) j)).
  rewrite E2. f_equal. destruct (owns x) eqn:Ox.
  - assert (Hg : get_indices ins i = indices x) by (unfold get_indices, find_indices; rewrite Hx, Ox; now rewrite Hx).
    rewrite Hg. unfold set_indices, find_indices. rewrite Hn. cbn [owns indices offset].
    assert (F : first_owner (map (fun k => fst (e k)) K) (offset x) = None).
    { destruct (first_owner _ _) as [q|] eqn:Q; [|reflexivity]. destruct (PolyProofs.first_owner_some _ _ _ Q) as (y & Y1 & Y2 & Y3).
      apply nth_error_In in Y1. apply in_map_iff in Y1. destruct Y1 as (k & <- & Hk). rewrite (Ho eq_refl k Hk Y3) in Y2. discriminate. }
    rewrite F, Hn. cbn [offset source]. rewrite <- (set_nth_map_update fst e K (source x) (x, z) j) by auto. cbn [fst]. f_equal. now destruct x.
  - rewrite <- (set_nth_map_update fst e K (source x) (x, z) j) by auto. cbn [fst]. symmetry. apply DaeInputProofs.set_nth_id.
    rewrite Hn. destruct x as [o s l]. cbn in Ox |- *. destruct l; [reflexivity|discriminate].
Qed.
Definition tab (l : list (PolyModel.input Z * Z)) : table :=
  fun k => match find (fun p => source (fst p) =? k) l with Some p => p | None => (Input 0 k [], (-1)%Z) end.
Definition keys (V : list nat) (l : list (PolyModel.input Z * Z)) : list nat :=
  V ++ filter (fun k => negb (existsb (Nat.eqb k) V)) (map (fun p => source (fst p)) l).
Lemma mem_iff V k : existsb (Nat.eqb k) V = true <-> In k V.
Proof. rewrite existsb_exists. split; [intros (y & H & E); apply Nat.eqb_eq in E; now subst|intro; exists k; split; [auto|apply Nat.eqb_refl]]. Qed.
Lemma mem_false V k : existsb (Nat.eqb k) V = false <-> ~ In k V.
Proof. rewrite <- mem_iff. destruct (existsb _ _); split; intro; congruence. Qed.
Lemma find_key_none l k : ~ In k (map (fun p : PolyModel.input Z * Z => source (fst p)) l) -> find (fun p => source (fst p) =? k) l = None.
Proof.
  induction l as [|p l IH]; intro H; [reflexivity|]. cbn [find]. destruct (Nat.eqb_spec (source (fst p)) k) as [E|]; [exfalso; apply H; left; exact E|].
  apply IH. intro; apply H; now right.
Qed.
Lemma tab_app l x z k : ~ In (source x) (map (fun p => source (fst p)) l) -> tab (l ++ [(x, z)]) k = update (tab l) (source x) (x, z) k.
Proof.
  intro H. unfold tab, update. destruct (Nat.eqb_spec k (source x)) as [->|N].
  - assert (E : find (fun p => source (fst p) =? source x) (l ++ [(x, z)]) = Some (x, z)); [|now rewrite E].
    clear -H. induction l as [|p l IH]; cbn [find app fst]; [now rewrite Nat.eqb_refl|].
    destruct (Nat.eqb_spec (source (fst p)) (source x)) as [E|]; [exfalso; apply H; left; exact E|]. apply IH. intro; apply H; now right.
  - assert (E : find (fun p => source (fst p) =? k) (l ++ [(x, z)]) = find (fun p => source (fst p) =? k) l); [|now rewrite E].
    clear -N. induction l as [|p l IH]; cbn [find app fst]; [destruct (Nat.eqb_spec (source x) k); congruence|]. now rewrite IH.
Qed.
Lemma tab_source l k : source (fst (tab l k)) = k.
Proof. unfold tab. destruct (find _ l) as [p|] eqn:E; [|reflexivity]. apply find_some in E. now apply Nat.eqb_eq. Qed.
Lemma tab_in l k : (In (tab l k) l) \/ tab l k = (Input 0 k [], (-1)%Z).
Proof. unfold tab. destruct (find _ l) as [p|] eqn:E; [left; now apply find_some in E|now right]. Qed.
Definition single_owner (l : list (PolyModel.input Z * Z)) : Prop :=
  forall i j p q, nth_error l i = Some p -> nth_error l j = Some q -> offset (fst p) = offset (fst q) -> owns (fst p) = true -> owns (fst q) = true -> i = j.
Definition state (V : list nat) (done : list (PolyModel.input Z * Z)) (c : dset) : Prop :=
  pinputs (base c) = map (fun k => fst (tab done k)) (keys V done) /\ sets c = map (fun k => snd (tab done k)) (keys V done).
Lemma keys_nodup V l : NoDup V -> NoDup (map (fun p : PolyModel.input Z * Z => source (fst p)) l) -> NoDup (keys V l).
Proof.
  intros HV HL. unfold keys. induction V as [|v V IH] using rev_ind; [cbn; now apply NoDup_filter|]. clear IH.
  revert HV. generalize (V ++ [v]). clear V v. intros V HV.
  assert (G : NoDup (filter (fun k => negb (existsb (Nat.eqb k) V)) (map (fun p => source (fst p)) l))) by now apply NoDup_filter.
  assert (D : forall k, In k (filter (fun k => negb (existsb (Nat.eqb k) V)) (map (fun p => source (fst p)) l)) -> ~ In k V).
  { intros k Hk Hv. apply filter_In in Hk. destruct Hk as [_ Hk]. apply mem_iff in Hv. rewrite Hv in Hk. discriminate. }
  revert G D. generalize (filter (fun k => negb (existsb (Nat.eqb k) V)) (map (fun p => source (fst p)) l)) as W. intros W G D.
  revert D. induction HV as [|v V Hv HV IH]; intros D; [exact G|]. cbn. constructor.
  - rewrite in_app_iff. intros [H|H]; [contradiction|apply (D v H); now left].
  - apply IH. intros k Hk Hi. apply (D k Hk). now right.
Qed.
Lemma nodup_left {A} (l r : list A) : NoDup (l ++ r) -> NoDup l.
Proof. induction l as [|a l IH]; intro H; [constructor|]. inversion H as [|a0 l0 H1 H2]; subst. constructor; [intro; apply H1; apply in_or_app; now left|auto]. Qed.
Lemma clone_loop n V ins zs : NoDup V -> forall todo done c,
  ins = map fst (done ++ todo) -> zs = map snd (done ++ todo) -> NoDup (map (fun p => source (fst p)) (done ++ todo)) -> single_owner (done ++ todo) ->
  (forall p, In p todo -> source (fst p) < n) -> (forall p, In p todo -> In (source (fst p)) V -> offset (fst p) = 0) -> state V done c ->
  exists c', clone_inputs n ins zs c (List.length done) (map fst todo) = Some c' /\ state V (done ++ todo) c' /\
    ptype (base c') = ptype (base c) /\ pcounts (base c') = pcounts (base c) /\ pholes (base c') = pholes (base c) /\ material c' = material c.
Proof.
  intros HV. induction todo as [|[x z] todo IH]; intros done c Hi Hz HN Ho Hn H0 Hs.
  - exists c. rewrite app_nil_r. cbn. repeat split; apply Hs.
  - cbn [map fst clone_inputs]. assert (Hx : source x <? n = true) by (apply Nat.ltb_lt; apply (Hn (x, z)); now left). rewrite Hx.
    assert (Nx : nth_error ins (List.length done) = Some x) by (rewrite Hi, map_app; rewrite nth_error_app2 by (rewrite map_length; lia); rewrite map_length, Nat.sub_diag; reflexivity).
    assert (Nz : nth (List.length done) zs (-1)%Z = z) by (rewrite Hz, map_app; rewrite app_nth2 by (rewrite map_length; lia); rewrite map_length, Nat.sub_diag; reflexivity).
    assert (HD : ~ In (source x) (map (fun p => source (fst p)) done)).
    { rewrite map_app in HN. cbn in HN. apply NoDup_remove_2 in HN. intro H. apply HN. apply in_or_app. now left. }
    assert (Ht : tab done (source x) = (Input 0 (source x) [], (-1)%Z)) by (unfold tab; now rewrite find_key_none).
    assert (Kd : NoDup (keys V done)) by (apply keys_nodup; auto; rewrite map_app in HN; now apply nodup_left in HN).
    assert (Own : owns x = true -> forall k, offset (fst (tab done k)) = offset x -> owns (fst (tab done k)) = false).
    { intros Ox k Hk. destruct (tab_in done k) as [H|H]; [|now rewrite H]. destruct (owns (fst (tab done k))) eqn:Ok; [|reflexivity]. exfalso.
      destruct (In_nth_error _ _ H) as (q & Hq). assert (q < List.length done) by (apply nth_error_Some; congruence).
      assert (q = List.length done); [|lia]. apply (Ho q (List.length done) (tab done k) (x, z)); auto.
      - now rewrite nth_error_app1.
      - rewrite nth_error_app2, Nat.sub_diag by lia. reflexivity. }
    assert (St : state V (done ++ [(x, z)]) (clone_input ins zs c (List.length done) x) /\
      ptype (base (clone_input ins zs c (List.length done) x)) = ptype (base c) /\ pcounts (base (clone_input ins zs c (List.length done) x)) = pcounts (base c) /\
      pholes (base (clone_input ins zs c (List.length done) x)) = pholes (base c) /\ material (clone_input ins zs c (List.length done) x) = material c).
    { destruct Hs as [S1 S2]. destruct (existsb (Nat.eqb (source x)) V) eqn:M.
      - assert (MV : In (source x) V) by now apply mem_iff.
        assert (Ik : In (source x) (keys V done)) by (unfold keys; apply in_or_app; now left).
        destruct (In_nth_error _ _ Ik) as (j & Hj).
        assert (Zx : offset x = 0) by (apply (H0 (x, z)); [now left|exact MV]).
        rewrite (input_step ins zs c (List.length done) x (tab done) (keys V done) j z); auto.
        + cbn. split; [|auto]. unfold state. cbn.
          assert (EK : keys V (done ++ [(x, z)]) = keys V done) by (unfold keys; rewrite map_app, filter_app; cbn; rewrite M; cbn; now rewrite app_nil_r).
          rewrite EK. split; apply map_ext; intro k; now rewrite tab_app.
        + intros k _. apply tab_source.
        + rewrite Ht, Zx. reflexivity.
      - assert (MV : ~ In (source x) V) by now apply mem_false.
        assert (Nk : ~ In (source x) (keys V done)).
        { unfold keys. rewrite in_app_iff. intros [H|H]; [contradiction|]. apply filter_In in H. destruct H as [H _]. contradiction. }
        set (e := update (tab done) (source x) (Input (offset x) (source x) [], (-1)%Z)).
        assert (Ee : forall k, In k (keys V done) -> e k = tab done k) by (intros k Hk; unfold e, update; destruct (Nat.eqb_spec k (source x)) as [->|]; [contradiction|reflexivity]).
        assert (Es : e (source x) = (Input (offset x) (source x) [], (-1)%Z)) by (unfold e, update; now rewrite Nat.eqb_refl).
        set (c1 := add_input c (source x) (offset x) (-1)%Z).
        assert (I1 : pinputs (base c1) = map (fun k => fst (e k)) (keys V done ++ [source x])).
        { unfold c1, add_input. cbn. rewrite S1, map_app. cbn. rewrite Es. cbn. f_equal. apply map_ext_in. intros k Hk. now rewrite Ee. }
        assert (I2 : sets c1 = map (fun k => snd (e k)) (keys V done ++ [source x])).
        { unfold c1, add_input. cbn. rewrite S2, map_app. cbn. rewrite Es. cbn. f_equal. apply map_ext_in. intros k Hk. now rewrite Ee. }
        assert (Es2 : forall k, source (fst (e k)) = k).
        { intro k. unfold e, update. destruct (Nat.eqb_spec k (source x)) as [->|]; [reflexivity|apply tab_source]. }
        assert (Kn : NoDup (keys V done ++ [source x])).
        { apply NoDup_Add with (a := source x) (l := keys V done); [|split; auto]. rewrite <- (app_nil_r (keys V done)) at 1. apply Add_app. }
        assert (Hj : nth_error (keys V done ++ [source x]) (List.length (keys V done)) = Some (source x)) by (rewrite nth_error_app2, Nat.sub_diag by lia; reflexivity).
        assert (EC : clone_input ins zs c (List.length done) x = clone_input ins zs c1 (List.length done) x).
        { assert (Q1 : find_input (pinputs (base c1)) (source x) = Some (List.length (keys V done))) by (rewrite I1; exact (find_input_map e _ (source x) _ (fun k _ => Es2 k) Kn Hj)).
          assert (Q2 : find_input (pinputs (base c)) (source x) = None) by (rewrite S1; apply (find_input_fresh (tab done)); auto using tab_source).
          assert (Q3 : List.length (pinputs (base c)) = List.length (keys V done)) by (rewrite S1; apply map_length).
          unfold clone_input. rewrite Q1, Q2, Q3. reflexivity. }
        rewrite EC. rewrite (input_step ins zs c1 (List.length done) x e (keys V done ++ [source x]) (List.length (keys V done)) z); auto.
        + cbn. split; [|auto]. unfold state. cbn.
          assert (EK : keys V (done ++ [(x, z)]) = keys V done ++ [source x]) by (unfold keys; rewrite map_app, filter_app; cbn; rewrite M; cbn; now rewrite app_assoc).
          rewrite EK.
          assert (EU : forall k, update e (source x) (x, z) k = tab (done ++ [(x, z)]) k).
          { intro k. rewrite tab_app by auto. unfold e, update. destruct (k =? source x); reflexivity. }
          split; apply map_ext; intro k; now rewrite EU.
        + now rewrite Es.
        + intros Ox k _ Hk. unfold e, update in Hk |- *. destruct (k =? source x) eqn:Q; [reflexivity|]. now apply Own. }
    destruct St as (St & F1 & F2 & F3 & F4).
    destruct (IH (done ++ [(x, z)]) (clone_input ins zs c (List.length done) x)) as (c' & C1 & C2 & C3 & C4 & C5 & C6); rewrite <- ?app_assoc; cbn [app]; auto.
    + intros p Hp. apply Hn. now right.
    + intros p Hp. apply H0. now right.
    + exists c'. rewrite app_length in C1. cbn in C1. rewrite Nat.add_1_r in C1. rewrite <- app_assoc in C2. cbn in C2.
      repeat split; congruence || apply C2 || auto.
Qed.

Definition owner_at (o : nat) (q : PolyModel.input Z * Z) : bool := (offset (fst q) =? o) && owns (fst q).
Definition effective (l : list (PolyModel.input Z * Z)) (p : PolyModel.input Z * Z) : list Z :=
  if owns (fst p) then indices (fst p) else match find (owner_at (offset (fst p))) l with Some q => indices (fst q) | None => [] end.
Lemma first_owner_find l o : (match first_owner (map fst l) o with Some j => nth_error l j | None => None end) = find (owner_at o) l.
Proof.
  induction l as [|p l IH]; [reflexivity|]. cbn [map first_owner find]. unfold owner_at at 1. destruct ((offset (fst p) =? o) && owns (fst p)); [reflexivity|].
  rewrite <- IH. now destruct (first_owner (map fst l) o).
Qed.
Lemma effective_get l i p : nth_error l i = Some p -> get_indices (map fst l) i = effective l p.
Proof.
  intro H. unfold get_indices, find_indices, effective. rewrite nth_error_map, H. cbn [option_map]. destruct (owns (fst p)) eqn:O.
  - rewrite nth_error_map, H. reflexivity.
  - rewrite <- first_owner_find. destruct (first_owner (map fst l) (offset (fst p))) as [j|] eqn:F.
    + rewrite nth_error_map. now destruct (nth_error l j).
    + rewrite nth_error_map, H. cbn. unfold owns in O. destruct (indices (fst p)); [reflexivity|discriminate].
Qed.
Definition seen_of (l : list (PolyModel.input Z * Z)) (p : PolyModel.input Z * Z) : seen := Seen (source (fst p)) (offset (fst p)) (snd p) (effective l p).
Lemma map_seq_nth {A B} (f : nat -> B) (g : A -> B) l : (forall i a, nth_error l i = Some a -> f i = g a) -> map f (seq 0 (List.length l)) = map g l.
Proof.
  revert f. induction l as [|a l IH]; intros f H; [reflexivity|]. cbn. rewrite (H 0 a eq_refl). f_equal. rewrite <- seq_shift, map_map. apply IH.
  intros i b Hb. apply (H (S i) b Hb).
Qed.
Lemma view_pairs d l : pinputs (base d) = map fst l -> sets d = map snd l -> view d = map (seen_of l) l.
Proof.
  intros H1 H2. unfold view. rewrite H1, H2, map_length. apply map_seq_nth. intros i p Hp.
  rewrite nth_error_map, Hp. cbn [option_map]. rewrite (effective_get l i p Hp). unfold seen_of. f_equal.
  apply nth_error_nth. rewrite nth_error_map, Hp. reflexivity.
Qed.
Lemma find_perm {A} (f : A -> bool) l l' : (forall q q', In q l -> In q' l -> f q = true -> f q' = true -> q = q') -> Permutation l l' -> find f l = find f l'.
Proof.
  intros U P. destruct (find f l) as [q|] eqn:E; destruct (find f l') as [q'|] eqn:E'; auto.
  - apply find_some in E. apply find_some in E'. f_equal. apply U; try easy. apply Permutation_in with l'; [now apply Permutation_sym|easy].
  - exfalso. apply find_some in E. assert (H : f q = false) by (apply (find_none _ _ E'); apply Permutation_in with l; easy). destruct E. congruence.
  - exfalso. apply find_some in E'. assert (H : f q' = false) by (apply (find_none _ _ E); apply Permutation_in with l'; [now apply Permutation_sym|easy]). destruct E'. congruence.
Qed.
Lemma views_perm l l' : single_owner l -> Permutation l l' -> Permutation (map (seen_of l') l') (map (seen_of l) l).
Proof.
  intros S P. assert (E : forall p, seen_of l' p = seen_of l p).
  { intro p. unfold seen_of, effective. destruct (owns (fst p)); [reflexivity|]. rewrite (find_perm (owner_at (offset (fst p))) l l'); auto.
    intros q q' Hq Hq' F F'. unfold owner_at in F, F'. apply andb_prop in F, F'. destruct F as [F1 F2], F' as [F3 F4].
    apply Nat.eqb_eq in F1, F3. destruct (In_nth_error _ _ Hq) as (i & Hi). destruct (In_nth_error _ _ Hq') as (j & Hj).
    assert (i = j) by (eapply S; eauto; congruence). subst j. congruence. }
  rewrite (map_ext _ _ E). apply Permutation_map. now apply Permutation_sym.
Qed.
Lemma tab_known l p : NoDup (map (fun p => source (fst p)) l) -> In p l -> tab l (source (fst p)) = p.
Proof.
  intros HN Hp. unfold tab. assert (E : find (fun q => source (fst q) =? source (fst p)) l = Some p); [|now rewrite E].
  induction l as [|a l IH]; [contradiction|]. cbn [find]. cbn in HN. inversion HN as [|b l0 H1 H2]; subst. destruct Hp as [<-|Hp]; [now rewrite Nat.eqb_refl|].
  destruct (Nat.eqb_spec (source (fst a)) (source (fst p))) as [E|]; [|auto]. exfalso. apply H1. rewrite E. apply in_map_iff. exists p. auto.
Qed.
Lemma combine_maps {A B} (l : list A) (r : list B) : List.length r = List.length l -> map fst (combine l r) = l /\ map snd (combine l r) = r.
Proof. revert r. induction l as [|a l IH]; intros [|b r] H; try discriminate; [now split|]. cbn. destruct (IH r) as [-> ->]; [now injection H|now split]. Qed.
Lemma vertex_perm m : NoDup (gm_vertex m) -> (forall v, In v (gm_vertex m) -> v < List.length (gm_sources m)) -> Permutation (clone_vertex m) (gm_vertex m).
Proof.
  intros HN HV. apply NoDup_Permutation; [apply NoDup_filter, seq_NoDup|exact HN|]. intro k. unfold clone_vertex. rewrite filter_In, in_seq, mem_iff.
  split; [easy|]. intro H. split; [split; [lia|cbn; now apply HV]|exact H].
Qed.
Lemma set_cloned m clone d : orderly_mesh m -> orderly m d -> vertex_srcs clone = clone_vertex m ->
  exists c, CloneSet m clone d = Some c /\ ptype (base c) = POLYGONS /\ copied d c.
Proof.
  intros (N1 & N2 & _) (O1 & O2 & O3 & O4 & O5) HC. destruct d as [[t cs hs ins] zs mat]. cbn in *.
  destruct (combine_maps ins zs O1) as [C1 C2]. remember (combine ins zs) as L eqn:EL. clear EL.
  assert (VP := vertex_perm m N1 N2). set (V := clone_vertex m) in *.
  assert (SL : map (fun p => source (fst p)) L = map source ins) by (transitivity (map source (map fst L)); [now rewrite map_map|now rewrite C1]).
  assert (SO : single_owner L).
  { intros i j p q Hp Hq. apply O5; rewrite <- C1, nth_error_map; [now rewrite Hp|now rewrite Hq]. }
  assert (NL : NoDup (map (fun p => source (fst p)) L)) by now rewrite SL.
  assert (NV : NoDup V) by (apply NoDup_filter, seq_NoDup).
  assert (InL : forall p, In p L -> In (fst p) ins) by (intros p Hp; rewrite <- C1; now apply in_map).
  unfold CloneSet. cbn [base pcounts pholes pinputs ptype sets material AddPolygons]. rewrite HC. fold V.
  destruct (clone_loop (List.length (gm_sources m)) V ins zs NV L [] (DSet (PSet POLYGONS cs hs (map (fun s => Input 0 s []) V)) (map (fun _ => (-1)%Z) V) mat)) as (c & K1 & K2 & K3 & K4 & K5 & K6); auto.
  - intros p Hp HVp. destruct (O4 (source (fst p))) as (x & X1 & X2 & X3); [now apply (Permutation_in _ VP)|].
    assert (x = fst p); [|now subst]. apply In_nth_error in X1. destruct X1 as (i & Hi). assert (Hp2 := InL p Hp). apply In_nth_error in Hp2. destruct Hp2 as (j & Hj).
    assert (i = j); [|congruence]. rewrite NoDup_nth_error in O2. apply O2; [rewrite map_length; apply nth_error_Some; congruence|]. rewrite !nth_error_map, Hi, Hj. cbn. congruence.
  - unfold state, keys. cbn. rewrite app_nil_r. split; reflexivity.
  - exists c. rewrite C1 in K1. cbn in K1. split; [exact K1|]. split; [exact K3|]. unfold copied. cbn [base pcounts pholes material]. split; [exact K4|]. split; [exact K5|]. split; [exact K6|].
    destruct K2 as [S1 S2]. cbn [app] in S1, S2.
    set (L' := map (tab L) (keys V L)).
    rewrite (view_pairs c L') by (unfold L'; rewrite map_map; assumption).
    rewrite (view_pairs (DSet (PSet t cs hs ins) zs mat) L) by (cbn; congruence).
    apply views_perm; [exact SO|]. unfold L'. assert (E : L = map (tab L) (map source ins)).
    { rewrite <- SL, map_map. rewrite <- (map_id L) at 1. apply map_ext_in. intros p Hp. symmetry. now apply tab_known. }
    rewrite E at 1. apply Permutation_map. apply NoDup_Permutation; [exact O2|now apply keys_nodup|]. intro k. unfold keys. rewrite in_app_iff, filter_In, SL. split.
    + intro H. destruct (existsb (Nat.eqb k) V) eqn:M; [left; now apply mem_iff|right; now split].
    + intros [H|[H _]]; [|exact H]. destruct (O4 k) as (x & X1 & X2 & _); [now apply (Permutation_in _ VP)|]. subst k. now apply in_map.
Qed.
Lemma sets_cloned m clone : orderly_mesh m -> vertex_srcs clone = clone_vertex m -> forall l, Forall (orderly m) l ->
  exists cs, clone_sets m clone l = Some cs /\ Forall2 copied l cs /\ Forall (fun c => ptype (base c) = POLYGONS) cs.
Proof.
  intros HM HC. induction l as [|d l IH]; intro H; [exists []; repeat split; constructor|]. inversion H as [|d0 l0 H1 H2]; subst.
  destruct (set_cloned m clone d HM H1 HC) as (c & C1 & C2 & C3). destruct (IH H2) as (cs & D1 & D2 & D3). exists (c :: cs). cbn. rewrite C1, D1.
  repeat split; constructor; auto.
Qed.
Lemma clone_sources_same l : map CloneSource l = l.
Proof. rewrite <- (map_id l) at 2. apply map_ext. now intros []. Qed.
Lemma clone_mesh_sets id m c : CloneMesh id m = Some c ->
  gm_id c = id /\ gm_convex c = gm_convex m /\ gm_hull c = gm_hull m /\ gm_sources c = gm_sources m /\ gm_vertex c = clone_vertex m /\
  exists o, vertex_srcs o = clone_vertex m /\ clone_sets m o (gm_sets m) = Some (gm_sets c).
Proof.
  unfold CloneMesh. cbn zeta. destruct (clone_sets _ _ _) as [ds|] eqn:E; [|discriminate]. intro H. apply (f_equal (fun o => match o with Some x => x | None => c end)) in H. cbn iota in H. rewrite <- H. cbn. rewrite clone_sources_same.
  repeat split. eexists. split; [|exact E]. reflexivity.
Qed.
Lemma clone_sets_nth m o l cs : clone_sets m o l = Some cs -> Forall2 (fun d c => CloneSet m o d = Some c) l cs.
Proof.
  revert cs. induction l as [|d l IH]; intros cs H; cbn in H; [injection H as E; rewrite <- E; constructor|].
  destruct (CloneSet m o d) as [c|] eqn:E; [|discriminate]. destruct (clone_sets m o l) as [r|] eqn:R; [|discriminate]. injection H as <-. constructor; auto.
Qed.
Lemma nth_both {A B} (R : A -> B -> Prop) l r i a b : Forall2 R l r -> nth_error l i = Some a -> nth_error r i = Some b -> R a b.
Proof. intro H. revert i. induction H; intros [|i] Ha Hb; cbn in *; try discriminate; [congruence|eauto]. Qed.
Lemma set_nth_len {A} (l : list A) i a : List.length (set_nth l i a) = List.length l.
Proof. revert i. induction l as [|x l IH]; intros [|i]; cbn; auto. Qed.
Lemma set_indices_sources ins j l : map (@source Z) (set_indices ins j l) = map source ins.
Proof.
  unfold set_indices. destruct (find_indices ins j) as [k|]; [|reflexivity]. destruct (nth_error ins k) as [x|] eqn:E; [|reflexivity].
  apply (DaeProofs.set_nth_map source ins k _ x E). reflexivity.
Qed.
Lemma find_input_miss ins s : find_input ins s = None -> ~ In s (map (@source Z) ins).
Proof. apply MeshWriteProofs.find_input_none. Qed.
Lemma clone_inputs_frame n ins zs : forall l i c c', clone_inputs n ins zs c i l = Some c' -> NoDup (map source (pinputs (base c))) ->
  ptype (base c') = ptype (base c) /\ NoDup (map source (pinputs (base c'))).
Proof.
  induction l as [|x l IH]; intros i c c' H HN; cbn [clone_inputs] in H; [injection H as <-; auto|]. destruct (source x <? n); [|discriminate].
  assert (A : ptype (base (clone_input ins zs c i x)) = ptype (base c) /\ NoDup (map source (pinputs (base (clone_input ins zs c i x))))).
  { unfold clone_input. destruct (find_input (pinputs (base c)) (source x)) as [j|] eqn:F; cbn.
    - split; [reflexivity|]. destruct (owns x); [now rewrite set_indices_sources|exact HN].
    - split; [reflexivity|]. assert (G : NoDup (map source (pinputs (base c) ++ [Input (offset x) (source x) []]))).
      { rewrite map_app. cbn. apply NoDup_Add with (a := source x) (l := map source (pinputs (base c))); [|split; [exact HN|now apply find_input_miss]].
        rewrite <- (app_nil_r (map source (pinputs (base c)))) at 1. apply Add_app. }
      destruct (owns x); [now rewrite set_indices_sources|exact G]. }
  destruct A as [A1 A2]. destruct (IH _ _ _ H A2) as [B1 B2]. split; congruence || auto.
Qed.
Lemma clone_inputs_known n ins zs : forall l i c c', clone_inputs n ins zs c i l = Some c' -> forall x, In x l -> source x < n.
Proof.
  induction l as [|y l IH]; intros i c c' H x Hx; [contradiction|]. cbn [clone_inputs] in H.
  destruct (Nat.ltb_spec (source y) n); [|discriminate]. destruct Hx as [<-|Hx]; [assumption|]. now apply (IH _ _ _ H).
Qed.
Lemma clone_set_frame m o d c : vertex_srcs o = clone_vertex m -> CloneSet m o d = Some c -> ptype (base c) = POLYGONS /\ NoDup (map source (pinputs (base c))).
Proof.
  intros HV H. unfold CloneSet in H. destruct (clone_inputs_frame _ _ _ _ _ _ _ H) as [A B].
  - cbn. rewrite HV, map_map. cbn. rewrite map_id. apply NoDup_filter, seq_NoDup.
  - split; [exact A|exact B].
Qed.
Lemma view_sources d : map s_source (view d) = map source (pinputs (base d)).
Proof. unfold view. rewrite map_map. apply map_seq_nth. intros i x Hx. rewrite Hx. reflexivity. Qed.
Lemma clone_vertex_sorted m : StronglySorted lt (clone_vertex m).
Proof.
  unfold clone_vertex. generalize 0. induction (List.length (gm_sources m)) as [|n IH]; intro a; cbn [seq filter]; [constructor|].
  destruct (existsb _ _); [|apply IH]. constructor; [apply IH|]. apply Forall_forall. intros k Hk. apply filter_In in Hk. destruct Hk as [Hk _]. apply in_seq in Hk. lia.
Qed.
Lemma sorted_unique l : forall r, StronglySorted lt l -> StronglySorted lt r -> Permutation l r -> l = r.
Proof.
  induction l as [|a l IH]; intros r H1 H2 P; [now apply Permutation_nil in P|]. destruct r as [|b r]; [apply Permutation_sym, Permutation_nil in P; discriminate|].
  inversion H1 as [|a0 l0 S1 F1]; inversion H2 as [|b0 r0 S2 F2]; subst. rewrite Forall_forall in F1, F2.
  assert (a = b).
  { assert (Ia : In a (b :: r)) by (apply (Permutation_in _ P); now left). assert (Ib : In b (a :: l)) by (apply (Permutation_in _ (Permutation_sym P)); now left).
    destruct Ia as [|Ia]; [congruence|]. destruct Ib as [|Ib]; [congruence|]. apply F2 in Ia. apply F1 in Ib. lia. }
  subst b. f_equal. apply IH; auto. now apply Permutation_cons_inv in P.
Qed.

(** *** Theorems *)
(** C117: the copy has the same data, sources, per-vertex sources and, in order, polygon sets with the same faces, holes, material
    and inputs (source, offset, set and indices).  Missing from the full claim: the primitive type, the order of the per-vertex
    sources and of the inputs, and meshes outside of [orderly_mesh] (see the refutations). *)
Theorem C117_clone_partial id m : orderly_mesh m ->
  exists c, CloneMesh id m = Some c /\ gm_id c = id /\ gm_convex c = gm_convex m /\ gm_hull c = gm_hull m /\ gm_sources c = gm_sources m /\
    Permutation (gm_vertex c) (gm_vertex m) /\ Forall2 copied (gm_sets m) (gm_sets c).
Proof.
  intro H. assert (H2 := H). destruct H2 as (N1 & N2 & F).
  destruct (sets_cloned m (outline (GMesh id (gm_convex m) (gm_hull m) (map CloneSource (gm_sources m)) (clone_vertex m) [])) H eq_refl (gm_sets m) F) as (cs & C1 & C2 & _).
  unfold CloneMesh. cbn zeta. rewrite C1. eexists. split; [reflexivity|]. cbn. rewrite clone_sources_same. repeat split; auto. now apply vertex_perm.
Qed.
(** The per-vertex sources keep their order exactly when they are in the order of the sources. *)
Theorem C117_vertex_order id m c : NoDup (gm_vertex m) -> (forall v, In v (gm_vertex m) -> v < List.length (gm_sources m)) -> CloneMesh id m = Some c ->
  (gm_vertex c = gm_vertex m <-> StronglySorted lt (gm_vertex m)).
Proof.
  intros N1 N2 H. destruct (clone_mesh_sets id m c H) as (_ & _ & _ & _ & E & _). rewrite E. split.
  - intros <-. apply clone_vertex_sorted.
  - intro S. apply sorted_unique; auto using clone_vertex_sorted, vertex_perm.
Qed.
(** Refuted: no polygon set that is not of the type POLYGONS keeps its type (FCDGeometryPolygons.cpp:292-299). *)
Theorem C117_primitive_type_refuted id m c i d q : CloneMesh id m = Some c -> nth_error (gm_sets m) i = Some d -> nth_error (gm_sets c) i = Some q ->
  ptype (base d) <> POLYGONS -> ptype (base q) <> ptype (base d).
Proof.
  intros H Hd Hq N. destruct (clone_mesh_sets id m c H) as (_ & _ & _ & _ & _ & o & O1 & O2).
  assert (E := nth_both _ _ _ i d q (clone_sets_nth _ _ _ _ O2) Hd Hq). destruct (clone_set_frame m o d q O1 E) as [-> _]. congruence.
Qed.
(** Refuted: a source that two inputs of a polygon set use (say, for two sets of texture coordinates) has one input in the copy. *)
Theorem C117_shared_source_refuted id m c i d q : CloneMesh id m = Some c -> nth_error (gm_sets m) i = Some d -> nth_error (gm_sets c) i = Some q ->
  ~ NoDup (map s_source (view d)) -> NoDup (map s_source (view q)) /\ ~ Permutation (view q) (view d).
Proof.
  intros H Hd Hq N. destruct (clone_mesh_sets id m c H) as (_ & _ & _ & _ & _ & o & O1 & O2).
  assert (E := nth_both _ _ _ i d q (clone_sets_nth _ _ _ _ O2) Hd Hq). destruct (clone_set_frame m o d q O1 E) as [_ D].
  assert (D2 : NoDup (map s_source (view q))) by now rewrite view_sources. split; [exact D2|]. intro P. apply N.
  apply (Permutation_NoDup (Permutation_map s_source P) D2).
Qed.
(** Refuted: when the source of an input was released, the copy uses a NULL pointer (FCDGeometryPolygons.cpp:313). *)
Theorem C117_released_refuted id m d x : In d (gm_sets m) -> In x (pinputs (base d)) -> List.length (gm_sources m) <= source x -> CloneMesh id m = None.
Proof.
  intros Hd Hx Hn. destruct (CloneMesh id m) as [c|] eqn:H; [|reflexivity]. exfalso. destruct (clone_mesh_sets id m c H) as (_ & _ & _ & _ & _ & o & _ & O2).
  apply clone_sets_nth in O2. revert Hd. induction O2 as [|d0 c0 l r E _ IH]; intros Hd; [contradiction|]. destruct Hd as [->|Hd]; [|auto].
  unfold CloneSet in E. assert (L := clone_inputs_known _ _ _ _ _ _ _ E x Hx). lia.
Qed.
(** Refuted: when SetOffset has moved a per-vertex input to another offset than 0, the copy has it at offset 0 again; there it
    shares the list of another input, whose indices replace its own (FCDGeometryPolygons.cpp:321-332,
    FCDGeometryPolygonsInput.cpp:81-90). *)
Definition moved_set : dset := DSet (PSet POLYGONS [3] [] [Input 1 0 [3; 2; 1]%Z; Input 0 1 [0; 0; 0]%Z]) [-1; -1]%Z (tx "red").
Theorem C117_vertex_offset_refuted : exists c q, CloneMesh (tx "h") (MeshProps.quad 9 [0] [moved_set]) = Some c /\ gm_sets c = [q] /\
  view moved_set = [Seen 0 1 (-1) [3; 2; 1]%Z; Seen 1 0 (-1) [0; 0; 0]%Z] /\ view q = [Seen 0 0 (-1) [0; 0; 0]%Z; Seen 1 0 (-1) [0; 0; 0]%Z].
Proof.
  assert (H : option_map (fun c => map view (gm_sets c)) (CloneMesh (tx "h") (MeshProps.quad 9 [0] [moved_set])) = Some [[Seen 0 0 (-1) [0; 0; 0]%Z; Seen 1 0 (-1) [0; 0; 0]%Z]]) by (vm_compute; reflexivity).
  destruct (CloneMesh _ _) as [c|]; [|discriminate]. cbn [option_map] in H. destruct (gm_sets c) as [|q [|q2 r]] eqn:E; try discriminate. exists c, q.
  split; [reflexivity|]. split; [exact E|]. split; [vm_compute; reflexivity|]. cbn [map] in H. congruence.
Qed.

(** *** Cases *)
(** Two polygon sets; the per-vertex sources are 0 and 1, their inputs do not come first, and one list is shared. *)
Definition shown : gmesh := MeshProps.quad 9 [0; 1]
  [DSet (PSet POLYGONS [3] [] [Input 1 2 [5; 6; 7]%Z; Input 0 1 []; Input 0 0 [0; 1; 2]%Z]) [4; 0; 7]%Z (tx "red");
   DSet (PSet POLYGONS [3; 3] [1] [Input 0 0 []; Input 0 1 [0; 1; 2; 2; 1; 0]%Z]) [-1; 1]%Z (tx "blue")].
Lemma shown_orderly : orderly_mesh shown.
Proof.
  split; [repeat constructor; cbn; intuition discriminate|]. split; [intros v [<-|[<-|[]]]; cbn; lia|].
  apply Forall_cons; [|apply Forall_cons; [|apply Forall_nil]]; (split; [reflexivity|split; [repeat constructor; cbn; intuition discriminate|split; [|split]]]).
  - intros x Hx. cbn in Hx. intuition (subst; cbn; lia).
  - intros v [<-|[<-|[]]]; [exists (Input 0 0 [0; 1; 2]%Z)|exists (Input 0 1 [])]; cbn; tauto.
  - intros i j x y Hi Hj Ho Ox Oy. destruct i as [|[|[|i]]]; destruct j as [|[|[|j]]]; cbn in Hi, Hj; try reflexivity; try (destruct i; discriminate); try (destruct j; discriminate); injection Hi as <-; injection Hj as <-; cbn in *; discriminate.
  - intros x Hx. cbn in Hx. intuition (subst; cbn; lia).
  - intros v [<-|[<-|[]]]; [exists (Input 0 0 [])|exists (Input 0 1 [0; 1; 2; 2; 1; 0]%Z)]; cbn; tauto.
  - intros i j x y Hi Hj Ho Ox Oy. destruct i as [|[|i]]; destruct j as [|[|j]]; cbn in Hi, Hj; try reflexivity; try (destruct i; discriminate); try (destruct j; discriminate); injection Hi as <-; injection Hj as <-; cbn in *; discriminate.
Qed.
Example C117_demo : orderly_mesh shown /\ option_map (fun c => (gm_vertex c, map view (gm_sets c))) (CloneMesh (tx "h") shown) =
  Some ([0; 1], [[Seen 0 0 7 [0; 1; 2]%Z; Seen 1 0 0 [0; 1; 2]%Z; Seen 2 1 4 [5; 6; 7]%Z];
                 [Seen 0 0 (-1) [0; 1; 2; 2; 1; 0]%Z; Seen 1 0 1 [0; 1; 2; 2; 1; 0]%Z]]).
Proof. split; [exact shown_orderly|vm_compute; reflexivity]. Qed.
(** A line strip, a mesh whose per-vertex sources are not in order, a source used twice and an input without source. *)
Example C117_lost_demo :
  option_map (fun c => map (fun d => ptype (base d)) (gm_sets c)) (CloneMesh (tx "h") (MeshProps.quad 9 [0] [MeshProps.strip_set 2])) = Some [POLYGONS] /\
  option_map gm_vertex (CloneMesh (tx "h") (MeshProps.quad 9 [1; 0] [])) = Some [0; 1] /\
  option_map (fun c => map view (gm_sets c)) (CloneMesh (tx "h") (MeshProps.quad 9 []
    [DSet (PSet POLYGONS [3] [] [Input 0 2 [0; 1; 2]%Z; Input 1 2 [2; 1; 0]%Z]) [0; 1]%Z []])) = Some [[Seen 2 0 1 [2; 1; 0]%Z]] /\
  CloneMesh (tx "h") (MeshProps.quad 9 [] [DSet (PSet POLYGONS [3] [] [Input 0 8 [0; 1; 2]%Z]) [0]%Z []]) = None.
Proof. repeat split; vm_compute; reflexivity. Qed.

Print Assumptions C117_clone_partial.
Print Assumptions C117_vertex_order.
Print Assumptions C117_primitive_type_refuted.
Print Assumptions C117_shared_source_refuted.
Print Assumptions C117_released_refuted.
Print Assumptions C117_vertex_offset_refuted.
