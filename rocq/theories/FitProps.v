(** C36: splitting polygon sets to a maximum number of indices. *)
From Coq Require Import List Arith Bool Lia.
From Verif Require Import PolyModel PolySpec PolyProofs TriModel TriProps ReindexModel ReindexProofs FitModel.
Import ListNotations.

(** *** Specification *)
(** The indices of a polygon set for a source. *)
Definition seen (s : pset nat) (d : nat) : list nat :=
  match find_input (pinputs s) d with Some i => get_indices (pinputs s) i | None => [] end.
(** The sets [qs] together are the set [s]: the same faces and indices in order, each set within the limit and in step. *)
Definition split_of (max : nat) (s : pset nat) (qs : list (pset nat)) : Prop :=
  concat (map pcounts qs) = pcounts s /\
  (forall d, In d (map source (pinputs s)) -> concat (map (fun q => seen q d) qs) = seen s d) /\
  forall q, In q qs -> sum (pcounts q) <= max /\ (forall d, In d (map source (pinputs s)) -> length (seen q d) = sum (pcounts q)) /\ pholes q = pholes s /\ ptype q = ptype s.
(** The sets the theorem is about: polygons without holes, a list of the right length for every input, one list per
    offset, no source used twice, per-vertex sources at offset 0 (as AddVertexSource and AddPolygons make them). *)
Definition fit_ok (vertex : list nat) (s : pset nat) : Prop :=
  ptype s = POLYGONS /\ pholes s = [] /\ one_owner (pinputs s) /\ NoDup (map source (pinputs s)) /\
  (forall i, i < length (pinputs s) -> length (get_indices (pinputs s) i) = sum (pcounts s)) /\
  (forall x, In x (pinputs s) -> In (source x) vertex -> offset x = 0).

(** *** The inputs of a copy *)
Lemma get_nonempty_owner {X} (c : list (input X)) k y : nth_error c k = Some y -> (get_indices c k <> [] <-> exists z, In z c /\ owns z = true /\ offset z = offset y).
Proof.
  intro N. rewrite (get_nonempty c k y N). split.
  - intros [W|F]; [exists y; split; [eapply nth_error_In; eauto | auto]|]. destruct (first_owner c (offset y)) as [j|] eqn:E; [|congruence].
    destruct (first_owner_some _ _ _ E) as (z & Nz & Wz & Oz). exists z. split; [eapply nth_error_In; eauto | auto].
  - intros (z & I & W & O). right. apply In_nth_error in I as [j Nj]. destruct (first_owner_exists c j z Nj W) as (m & w & F & _). rewrite <- O, F. discriminate.
Qed.
(** Every owner of the copy has the part of a list of the old set at its offset. *)
Definition good (ins : list (input nat)) (a b : nat) (c : list (input nat)) : Prop :=
  forall y, In y c -> owns y = true -> exists j x, nth_error ins j = Some x /\ offset x = offset y /\ indices y = firstn (b - a) (skipn a (get_indices ins j)).
Lemma good_get ins a b c k y : good ins a b c -> nth_error c k = Some y -> get_indices c k <> [] ->
  exists j x, nth_error ins j = Some x /\ offset x = offset y /\ get_indices c k = firstn (b - a) (skipn a (get_indices ins j)).
Proof.
  intros G N Ne. unfold get_indices in *. unfold find_indices in *. rewrite N in *. destruct (owns y) eqn:W.
  - rewrite N in *. destruct (G y) as (j & x & A & B & C); auto; [eapply nth_error_In; eauto|]. exists j, x. auto.
  - destruct (first_owner c (offset y)) as [m|] eqn:F.
    + destruct (first_owner_some _ _ _ F) as (z & Nz & Wz & Oz). rewrite Nz in *. destruct (G z) as (j & x & A & B & C); auto; [eapply nth_error_In; eauto|]. exists j, x. split; auto. split; [congruence | auto].
    + rewrite N in Ne. unfold owns in W. destruct (indices y); [congruence | discriminate].
Qed.
Lemma find_input_app a b d : find_input (a ++ b) d = match find_input a d with Some i => Some i | None => option_map (Nat.add (length a)) (find_input b d) end.
Proof.
  induction a as [|x a IH]; cbn; [destruct (find_input b d); auto|]. destruct (Nat.eqb (source x) d); auto. rewrite IH. destruct (find_input a d); auto. destruct (find_input b d); auto.
Qed.
Lemma find_input_none a d : find_input a d = None <-> ~ In d (map source a).
Proof.
  induction a as [|x a IH]; cbn; [tauto|]. destruct (Nat.eqb_spec (source x) d) as [E|E]; [split; [discriminate | tauto]|]. destruct (find_input a d); cbn; split; try discriminate; intuition congruence.
Qed.
Lemma find_input_sources a b d : map source a = map source b -> find_input a d = find_input b d.
Proof.
  revert b. induction a as [|x a IH]; intros [|y b] E; cbn in *; try discriminate; auto. injection E as E1 E2. rewrite E1, (IH b E2). reflexivity.
Qed.
(** [fill] on an input: afterwards it sees indices; all other inputs keep theirs. *)
Lemma fill_spec ins j x a b c k y : nth_error ins j = Some x -> a < b -> b <= length (get_indices ins j) -> good ins a b c -> nth_error c k = Some y -> offset y = offset x ->
  exists c', fill c k (get_indices ins j) a b = Some c' /\ good ins a b c' /\ map source c' = map source c /\ map offset c' = map offset c /\ get_indices c' k <> [] /\
    forall i, i < length c -> get_indices c i <> [] -> get_indices c' i <> [].
Proof.
  intros Nx Hab Hl G Ny Oy. unfold fill. destruct (get_indices c k) as [|v w] eqn:Gk.
  - destruct (Nat.leb_spec b (length (get_indices ins j))); [|lia]. set (l := firstn (b - a) (skipn a (get_indices ins j))).
    assert (Nl : l <> []). { unfold l. intro E. apply (f_equal (@length nat)) in E. rewrite firstn_length, skipn_length in E. cbn in E. lia. }
    assert (No : owns y = false /\ first_owner c (offset y) = None).
    { assert (Ng : ~ (get_indices c k <> [])) by (rewrite Gk; auto). rewrite (get_nonempty c k y Ny) in Ng. destruct (owns y), (first_owner c (offset y)); auto; exfalso; apply Ng; auto; right; discriminate. }
    destruct No as [Wy Fy]. assert (Es : set_indices c k l = set_nth c k (Input (offset y) (source y) l)).
    { unfold set_indices, find_indices. rewrite Ny, Wy, Fy, Ny. reflexivity. }
    exists (set_indices c k l). split; auto. pose proof (set_indices_frame c k l) as Fr. split; [|split; [|split; [|split]]].
    + rewrite Es. intros z Iz Wz. apply set_nth_In in Iz as [->|Iz]; [|now apply G]. exists j, x. cbn. auto.
    + now apply frame_sources.
    + now destruct Fr.
    + rewrite set_get_same; auto. apply nth_error_Some. congruence.
    + intros i Hi Gi. destruct (nth_error c i) as [z|] eqn:Nz; [|apply nth_error_None in Nz; lia].
      assert (Ex : exists z', nth_error (set_indices c k l) i = Some z' /\ offset z' = offset z).
      { assert (Fr' : same_frame c (set_indices c k l)) by (destruct Fr; split; auto). destruct (frame_nth _ _ _ _ Fr' Nz) as (z' & A & B). exists z'. auto. }
      destruct Ex as (z' & Nz' & Oz'). apply (get_nonempty_owner _ _ _ Nz'). destruct (proj1 (get_nonempty_owner _ _ _ Nz) Gi) as (u & Iu & Wu & Ou).
      exists u. split; [|split; congruence]. rewrite Es. apply In_nth_error in Iu as [q Nq]. destruct (Nat.eq_dec k q) as [<-|Ne]; [congruence|]. apply nth_error_In with q. now rewrite set_nth_other.
  - exists c. split; auto. split; auto. split; auto. split; auto. rewrite Gk. split; [discriminate|]. auto.
Qed.
(** One input after the other: every source processed so far is found and sees indices. *)
Definition done (ins : list (input nat)) (n : nat) (c : list (input nat)) : Prop :=
  forall j x, j < n -> nth_error ins j = Some x -> exists k y, find_input c (source x) = Some k /\ nth_error c k = Some y /\ offset y = offset x /\ get_indices c k <> [].
Lemma copy_inputs_spec vertex ins a b : a < b -> (forall j, j < length ins -> b <= length (get_indices ins j)) -> NoDup (map source ins) ->
  (forall x, In x ins -> In (source x) vertex -> offset x = 0) ->
  forall r n c, n + r = length ins -> good ins a b c -> done ins n c ->
    (forall d, In d (map source c) <-> In d vertex \/ exists j x, j < n /\ nth_error ins j = Some x /\ source x = d) ->
    (forall y, In y c -> In (source y) vertex -> offset y = 0) ->
    exists c', copy_inputs vertex ins a b (seq n r) c = Some c' /\ good ins a b c' /\ done ins (length ins) c'.
Proof.
  intros Hab Hl Nd Hv. induction r as [|r IH]; intros n c En G D Sc Vc; cbn [seq copy_inputs].
  - exists c. replace n with (length ins) in D by lia. auto.
  - destruct (nth_error ins n) as [x|] eqn:Nx; [|apply nth_error_None in Nx; lia]. unfold copy_input. rewrite Nx.
    assert (Step : exists c1, (if existsb (Nat.eqb (source x)) vertex then match find_input c (source x) with Some k => fill c k (get_indices ins n) a b | None => Some c end
        else fill (c ++ [Input (offset x) (source x) []]) (length c) (get_indices ins n) a b) = Some c1 /\
        good ins a b c1 /\ done ins (S n) c1 /\ (forall d, In d (map source c1) <-> In d vertex \/ exists j x, j < S n /\ nth_error ins j = Some x /\ source x = d) /\
        (forall y, In y c1 -> In (source y) vertex -> offset y = 0)).
    { destruct (existsb (Nat.eqb (source x)) vertex) eqn:Ev.
      - assert (Iv : In (source x) vertex) by (apply existsb_exists in Ev as (d & Id & Ed); apply Nat.eqb_eq in Ed; now subst).
        destruct (find_input c (source x)) as [k|] eqn:Fk; [|exfalso; apply find_input_none in Fk; apply Fk; apply Sc; auto].
        destruct (find_input_some _ _ _ Fk) as (y & Ny & Sy).
        assert (Oy : offset y = offset x). { rewrite (Hv x), (Vc y); auto; [eapply nth_error_In; eauto | congruence | eapply nth_error_In; eauto]. }
        destruct (fill_spec ins n x a b c k y Nx Hab) as (c1 & E1 & G1 & S1 & O1 & N1 & K1); auto; [apply Hl; lia|]. exists c1. split; auto. split; auto.
        assert (Lc : length c1 = length c) by (rewrite <- (map_length source), S1, map_length; auto).
        assert (Of : forall i z z1, nth_error c i = Some z -> nth_error c1 i = Some z1 -> offset z1 = offset z /\ source z1 = source z).
        { intros i z z1 Nz Nz1. pose proof (map_nth_error offset i c Nz). pose proof (map_nth_error offset i c1 Nz1). pose proof (map_nth_error source i c Nz). pose proof (map_nth_error source i c1 Nz1). split; congruence. }
        split; [|split].
        + intros j z Hj Nz. destruct (Nat.eq_dec j n) as [->|Ne].
          * rewrite Nx in Nz. injection Nz as <-. rewrite (find_input_sources c1 c) by auto. exists k. destruct (nth_error c1 k) as [y1|] eqn:N1'; [|apply nth_error_None in N1'; assert (k < length c) by (apply nth_error_Some; congruence); lia].
            destruct (Of k y y1 Ny N1'). exists y1. split; auto. split; auto. split; [congruence | auto].
          * destruct (D j z ltac:(lia) Nz) as (k' & y' & F' & N' & O' & G'). rewrite (find_input_sources c1 c) by auto. exists k'. assert (Hk' : k' < length c) by (apply nth_error_Some; congruence).
            destruct (nth_error c1 k') as [y1|] eqn:N1'; [|apply nth_error_None in N1'; lia]. destruct (Of k' y' y1 N' N1'). exists y1. split; auto. split; auto. split; [congruence | auto].
        + intro d. rewrite S1, Sc. split; intros [|(j & z & Hj & Nz & Ez)]; auto; [right; exists j, z; auto|]. destruct (Nat.eq_dec j n) as [->|Ne]; [|right; exists j, z; split; [lia | auto]].
          rewrite Nx in Nz. injection Nz as <-. subst d. auto.
        + intros z Iz Vz. apply In_nth_error in Iz as [i Ni]. assert (Hi : i < length c) by (rewrite <- Lc; apply nth_error_Some; congruence).
          destruct (nth_error c i) as [z0|] eqn:N0; [|apply nth_error_None in N0; lia]. destruct (Of i z0 z N0 Ni) as [A B]. rewrite A. apply Vc; [eapply nth_error_In; eauto | congruence].
      - assert (Nv : ~ In (source x) vertex). { intro I. assert (existsb (Nat.eqb (source x)) vertex = true) by (apply existsb_exists; exists (source x); split; auto; apply Nat.eqb_refl). congruence. }
        assert (Nc : find_input c (source x) = None).
        { apply find_input_none. rewrite Sc. intros [|(j & z & Hj & Nz & Ez)]; [auto|]. assert (j = n). { apply (proj1 (NoDup_nth_error (map source ins)) Nd); [rewrite map_length; lia|]. rewrite (map_nth_error source j ins Nz), (map_nth_error source n ins Nx). congruence. } lia. }
        set (c0 := c ++ [Input (offset x) (source x) []]).
        assert (G0 : good ins a b c0). { intros y Iy Wy. apply in_app_iff in Iy as [Iy|[<-|[]]]; [now apply G | discriminate]. }
        assert (N0 : nth_error c0 (length c) = Some (Input (offset x) (source x) [])) by (unfold c0; rewrite nth_error_app2, Nat.sub_diag by lia; reflexivity).
        destruct (fill_spec ins n x a b c0 (length c) _ Nx Hab ltac:(apply Hl; lia) G0 N0 eq_refl) as (c1 & E1 & G1 & S1 & O1 & N1 & K1). exists c1. split; auto. split; auto.
        assert (L0 : length c0 = S (length c)) by (unfold c0; rewrite app_length; cbn; lia).
        assert (Lc : length c1 = length c0) by (rewrite <- (map_length source), S1, map_length; auto).
        assert (Of : forall i z z1, nth_error c0 i = Some z -> nth_error c1 i = Some z1 -> offset z1 = offset z /\ source z1 = source z).
        { intros i z z1 Nz Nz1. pose proof (map_nth_error offset i c0 Nz). pose proof (map_nth_error offset i c1 Nz1). pose proof (map_nth_error source i c0 Nz). pose proof (map_nth_error source i c1 Nz1). split; congruence. }
        split; [|split].
        + intros j z Hj Nz. rewrite (find_input_sources c1 c0) by auto. unfold c0 at 1. rewrite find_input_app. destruct (Nat.eq_dec j n) as [->|Ne].
          * rewrite Nx in Nz. injection Nz as <-. rewrite Nc. cbn. rewrite Nat.eqb_refl. cbn. rewrite Nat.add_0_r. exists (length c). destruct (nth_error c1 (length c)) as [y1|] eqn:N1'; [|apply nth_error_None in N1'; lia].
            destruct (Of (length c) _ y1 N0 N1') as [A B]. exists y1. split; auto.
          * destruct (D j z ltac:(lia) Nz) as (k' & y' & F' & N' & O' & G'). rewrite F'. exists k'. assert (Hk' : k' < length c) by (apply nth_error_Some; congruence).
            destruct (nth_error c1 k') as [y1|] eqn:N1'; [|apply nth_error_None in N1'; lia].
            assert (N0' : nth_error c0 k' = Some y') by (unfold c0; now rewrite nth_error_app1). destruct (Of k' y' y1 N0' N1'). exists y1. split; auto. split; auto. split; [congruence|].
            apply K1; [lia|]. apply (get_nonempty_owner _ _ _ N0'). destruct (proj1 (get_nonempty_owner _ _ _ N') G') as (u & Iu & Wu & Ou). exists u. split; [apply in_or_app; now left | auto].
        + intro d. rewrite S1. unfold c0. rewrite map_app, in_app_iff, Sc. cbn. split.
          * intros [[|(j & z & Hj & Nz & Ez)]|[<-|[]]]; [now left | right; exists j, z; auto | right; exists n, x; auto].
          * intros [|(j & z & Hj & Nz & Ez)]; [auto|]. destruct (Nat.eq_dec j n) as [->|Ne]; [right; left; congruence | left; right; exists j, z; split; [lia | auto]].
        + intros z Iz Vz. apply In_nth_error in Iz as [i Ni]. assert (Hi : i < length c0) by (rewrite <- Lc; apply nth_error_Some; congruence).
          destruct (nth_error c0 i) as [z0|] eqn:N0i; [|apply nth_error_None in N0i; lia]. destruct (Of i z0 z N0i Ni) as [A B]. rewrite A. apply nth_error_In in N0i. apply in_app_iff in N0i as [I0|[<-|[]]].
          * apply Vc; auto. congruence.
          * cbn in B. exfalso. apply Nv. congruence. }
    destruct Step as (c1 & E1 & G1 & D1 & S1 & V1). rewrite E1. apply (IH (S n) c1); auto. lia.
Qed.
(** The new set: every source of the old set sees the part of its list. *)
Lemma copy_seen vertex s a b : fit_ok vertex s -> a < b -> b <= sum (pcounts s) ->
  exists c, copy_inputs vertex (pinputs s) a b (seq 0 (length (pinputs s))) (vertex_inputs vertex) = Some c /\
    forall t cs hs d, In d (map source (pinputs s)) -> seen (PSet t cs hs c) d = firstn (b - a) (skipn a (seen s d)).
Proof.
  intros (_ & _ & U & Nd & Hl & Hv) Hab Hb.
  destruct (copy_inputs_spec vertex (pinputs s) a b Hab) with (r := length (pinputs s)) (n := 0) (c := vertex_inputs vertex) as (c & E & G & D); auto.
  - intros j Hj. now rewrite Hl.
  - intros y Iy Wy. unfold vertex_inputs in Iy. apply in_map_iff in Iy as (d & <- & _). discriminate.
  - intros j x Hj. lia.
  - intro d. unfold vertex_inputs. rewrite map_map. cbn. rewrite map_id. split; [auto | intros [|(j & x & Hj & _)]; [auto | lia]].
  - intros y Iy _. unfold vertex_inputs in Iy. apply in_map_iff in Iy as (d & <- & _). reflexivity.
  - exists c. split; auto. intros t cs hs d Id. apply in_map_iff in Id as (x & <- & Ix). apply In_nth_error in Ix as [i Ni].
    destruct (D i x) as (k & y & F & Ny & Oy & Gk); auto; [apply nth_error_Some; congruence|].
    unfold seen. cbn [pinputs]. rewrite F. rewrite (find_input_unique (pinputs s) (source x) i x Nd Ni eq_refl).
    destruct (good_get _ _ _ _ _ _ G Ny Gk) as (j & z & Nz & Oz & ->). f_equal. f_equal.
    (* inputs at the same offset see the same list *)
    assert (Hi : i < length (pinputs s)) by (apply nth_error_Some; congruence).
    assert (Hp : get_indices (pinputs s) i <> []) by (intro E0; specialize (Hl i Hi); rewrite E0 in Hl; cbn in Hl; lia).
    destruct (proj1 (get_nonempty_owner _ _ _ Ni) Hp) as (w & Iw & Ww & Ow). apply In_nth_error in Iw as [q Nq].
    rewrite (get_class (pinputs s) i q x w), (get_class (pinputs s) j q z w); auto; congruence.
Qed.

(** *** The loop *)
Lemma take_spec max : forall cs acc f v, take max acc cs = (f, v) -> f <= length cs /\ v = acc + sum (firstn f cs) /\ (acc <= max -> v <= max) /\
  (f < length cs -> max < v + nth f cs 0).
Proof.
  induction cs as [|c cs IH]; intros acc f v E; cbn [take] in E; [injection E as <- <-; cbn; repeat split; lia|].
  destruct (Nat.ltb_spec max (acc + c)) as [H|H]; [injection E as <- <-; cbn; repeat split; lia|].
  destruct (take max (acc + c) cs) as [f' v'] eqn:Et. injection E as <- <-. destruct (IH _ _ _ Et) as (A & B & C & D). cbn [length firstn nth sum fold_right]. fold (sum (firstn f' cs)).
  repeat split; lia.
Qed.
Lemma sum_firstn_skipn n l : sum (firstn n l) + sum (skipn n l) = sum l.
Proof. rewrite <- sum_app. now rewrite firstn_skipn. Qed.
Lemma firstn_add {A} n : forall m (l : list A), firstn (n + m) l = firstn n l ++ firstn m (skipn n l).
Proof. induction n as [|n IH]; intros m [|x l]; cbn; auto; [now rewrite firstn_nil | now rewrite IH]. Qed.
Lemma skipn_add {A} n : forall m (l : list A), skipn (n + m) l = skipn m (skipn n l).
Proof. induction n as [|n IH]; intros m [|x l]; cbn; auto. now rewrite skipn_nil. Qed.
Lemma nth_In_le l : forall n, n < length l -> nth n l 0 <= sum l.
Proof. induction l as [|x l IH]; intros [|n] H; cbn in *; try lia. fold (sum l). specialize (IH n). lia. Qed.
Lemma In_skipn {A} n : forall (l : list A) a, In a (skipn n l) -> In a l.
Proof. induction n as [|n IH]; intros [|x l] a I; cbn in *; auto. Qed.
Lemma seen_length vertex s d : fit_ok vertex s -> In d (map source (pinputs s)) -> length (seen s d) = sum (pcounts s).
Proof.
  intros (_ & _ & _ & Nd & Hl & _) I. apply in_map_iff in I as (x & <- & Ix). apply In_nth_error in Ix as [i Ni]. unfold seen. rewrite (find_input_unique _ _ i x Nd Ni eq_refl). apply Hl. apply nth_error_Some. congruence.
Qed.
Lemma pieces_spec vertex max s : fit_ok vertex s -> (forall c, In c (pcounts s) -> c <= max) ->
  forall fuel f, length (pcounts s) - f < fuel -> f <= length (pcounts s) -> (f < length (pcounts s) -> 0 < nth f (pcounts s) 0) ->
  exists qs, pieces fuel vertex max s f f (sum (firstn f (pcounts s))) (sum (firstn f (pcounts s))) = Done qs /\
    concat (map pcounts qs) = skipn f (pcounts s) /\
    (forall d, In d (map source (pinputs s)) -> concat (map (fun q => seen q d) qs) = skipn (sum (firstn f (pcounts s))) (seen s d)) /\
    forall q, In q qs -> sum (pcounts q) <= max /\ 0 < sum (pcounts q) /\ (forall d, In d (map source (pinputs s)) -> length (seen q d) = sum (pcounts q)) /\ pholes q = [] /\ ptype q = POLYGONS.
Proof.
  intros Ok Hc. induction fuel as [|fuel IH]; intros f Hf Hl Hp; [lia|]. cbn [pieces]. destruct (Nat.ltb_spec f (length (pcounts s))) as [Lt|Ge].
  - destruct (take max 0 (skipn f (pcounts s))) as [nf nv] eqn:Et. destruct (take_spec _ _ _ _ _ Et) as (A & B & C & D). rewrite skipn_length in A. cbn [Nat.add] in B.
    set (vs := sum (firstn f (pcounts s))) in *.
    assert (Nf : 0 < nf).
    { destruct nf; [|lia]. exfalso. cbn in B. rewrite skipn_length in D. specialize (D ltac:(lia)). rewrite B in D. cbn [Nat.add] in D.
      assert (I : In (nth 0 (skipn f (pcounts s)) 0) (pcounts s)). { apply (In_skipn f). apply nth_In. rewrite skipn_length. lia. } apply Hc in I. lia. }
    assert (Sp : sum (firstn (f + nf) (pcounts s)) = vs + nv) by (rewrite firstn_add, sum_app; lia).
    assert (Tot : vs + nv + sum (skipn (f + nf) (pcounts s)) = sum (pcounts s)) by (rewrite <- Sp; apply sum_firstn_skipn).
    assert (Hn : forall k l, 0 < k -> nth 0 l 0 <= sum (firstn k l)) by (intros [|k] [|y l] H; cbn; lia).
    assert (Nk : forall k l, nth 0 (skipn k l) 0 = nth k l 0) by (clear; intros k l; rewrite nth_skipn, Nat.add_0_r; reflexivity).
    assert (Hv : 0 < nv). { specialize (Hn nf (skipn f (pcounts s)) Nf). rewrite Nk in Hn. specialize (Hp Lt). lia. }
    destruct (Nat.ltb_spec vs (vs + nv)); [|lia]. destruct (Nat.ltb_spec f (f + nf)); [|lia]. cbn [andb].
      destruct (copy_seen vertex s vs (vs + nv) Ok) as (c & Ec & Sc); [lia | lia|]. rewrite Ec.
      destruct (IH (f + nf)) as (qs & Eq & Q1 & Q2 & Q3); [lia | lia| |].
      { intro H1. rewrite skipn_length in D. specialize (D ltac:(lia)). rewrite nth_skipn in D. lia. }
      rewrite Sp in Eq. rewrite Eq. eexists. split; [reflexivity|].
      replace (f + nf - f) with nf by lia. replace (vs + nv - vs) with nv in Sc by lia. split; [|split].
      * cbn. rewrite Q1, skipn_add. apply firstn_skipn.
      * intros d Id. cbn [map concat]. rewrite Sc, Q2 by auto. rewrite Sp, skipn_add. apply firstn_skipn.
      * intros q [<-|Iq]; [|auto]. cbn [pcounts pholes ptype]. rewrite <- B. split; [lia|]. split; [lia|]. split; auto.
        intros d Id. rewrite Sc by auto. rewrite firstn_length, skipn_length, (seen_length vertex s d Ok Id). lia.
  - exists []. split; [reflexivity|]. split; [cbn; rewrite skipn_all2; auto; lia|]. split; [|intros ? []].
    intros d Id. rewrite skipn_all2; auto. rewrite (seen_length vertex s d Ok Id), firstn_all2 by lia. lia.
Qed.

(** *** The original set *)
Lemma cut_amap n x : cut n x = if owns x then amap (fun l => firstn n l ++ repeat 0 (n - length l)) x else x.
Proof. unfold cut, amap. destruct (owns x); reflexivity. Qed.
Lemma head_seen vertex s n d : fit_ok vertex s -> 0 < n -> n <= sum (pcounts s) -> In d (map source (pinputs s)) ->
  forall t cs hs, seen (PSet t cs hs (map (cut n) (pinputs s))) d = firstn n (seen s d).
Proof.
  intros (_ & _ & U & Nd & Hl & _) Hn Hs Id t cs hs. unfold seen. cbn [pinputs].
  assert (Fs : map source (map (cut n) (pinputs s)) = map source (pinputs s)). { rewrite map_map. apply map_ext. intro x. unfold cut. destruct (owns x); reflexivity. }
  rewrite (find_input_sources _ (pinputs s)) by auto. apply in_map_iff in Id as (x & <- & Ix). apply In_nth_error in Ix as [i Ni].
  rewrite (find_input_unique _ _ i x Nd Ni eq_refl). assert (Hi : i < length (pinputs s)) by (apply nth_error_Some; congruence).
  assert (Hp : get_indices (pinputs s) i <> []) by (intro E0; specialize (Hl i Hi); rewrite E0 in Hl; cbn in Hl; lia).
  destruct (proj1 (get_nonempty_owner _ _ _ Ni) Hp) as (w & Iw & Ww & Ow). apply In_nth_error in Iw as [q Nq].
  rewrite (get_class (pinputs s) i q x w); auto.
  assert (Wc : forall y, owns (cut n y) = owns y).
  { intro y. unfold cut. destruct (owns y) eqn:Wy; auto. unfold owns in *. cbn [indices]. destruct (indices y) as [|v l]; [discriminate|]. destruct n; [lia | reflexivity]. }
  assert (Uc : one_owner (map (cut n) (pinputs s))).
  { intros a b y z Na Nb O Wy Wz. rewrite nth_error_map in Na, Nb. destruct (nth_error (pinputs s) a) as [y0|] eqn:Na0; [|discriminate]. destruct (nth_error (pinputs s) b) as [z0|] eqn:Nb0; [|discriminate].
    cbn in Na, Nb. injection Na as <-. injection Nb as <-. rewrite Wc in Wy, Wz. apply (U a b y0 z0); auto. unfold cut in O. rewrite Wy, Wz in O. exact O. }
  rewrite (get_class _ i q (cut n x) (cut n w)); auto.
  - unfold cut. rewrite Ww. cbn [indices]. assert (Lw : length (indices w) = sum (pcounts s)). { rewrite <- (get_class (pinputs s) i q x w); auto. }
    replace (n - length (indices w)) with 0 by lia. cbn. now rewrite app_nil_r.
  - now apply map_nth_error.
  - now apply map_nth_error.
  - unfold cut. destruct (owns x), (owns w); cbn; auto.
  - now rewrite Wc.
Qed.
Lemma fit_set_spec fuel vertex max s : fit_ok vertex s -> (forall c, In c (pcounts s) -> c <= max) -> length (pcounts s) < fuel ->
  exists h t, fit_set fuel vertex max s = Done (h, t) /\ split_of max s (h :: t).
Proof.
  intros Ok Hc Hf. pose proof Ok as (T & H & _ & _ & _ & _). unfold fit_set, is_points. rewrite T. destruct (take max 0 (pcounts s)) as [nf nv] eqn:Et.
  destruct (take_spec _ _ _ _ _ Et) as (A & B & C & D). cbn [Nat.add] in B. destruct (Nat.eqb_spec nf (length (pcounts s))) as [E|E].
  - exists s, []. split; auto. split; [cbn; apply app_nil_r|]. split; [intros; cbn; apply app_nil_r|]. intros q [<-|[]]. split.
    + rewrite <- (firstn_all (pcounts s)), <- E. lia.
    + split; auto. intros d Id. now apply (seen_length vertex).
  - assert (Lt : nf < length (pcounts s)) by lia. specialize (D Lt). assert (In (nth nf (pcounts s) 0) (pcounts s)) as I by now apply nth_In. apply Hc in I.
    destruct (pieces_spec vertex max s Ok Hc fuel nf) as (qs & Eq & Q1 & Q2 & Q3); [lia | lia | lia|]. rewrite B, Eq. rewrite <- B in *. eexists. eexists. split; [reflexivity|].
    assert (Sk := sum_firstn_skipn nf (pcounts s)). assert (Nv : 0 < nv) by lia. split; [|split].
    + cbn. rewrite Q1. apply firstn_skipn.
    + intros d Id. cbn [map concat]. rewrite Q2 by auto. rewrite (head_seen vertex s nv d Ok) by (auto; lia). apply firstn_skipn.
    + intros q [<-|Iq].
      * cbn [pcounts pholes ptype]. split; [lia|]. split; auto. intros d Id. rewrite (head_seen vertex s nv d Ok) by (auto; lia). rewrite firstn_length, (seen_length vertex s d Ok Id). lia.
      * destruct (Q3 q Iq) as (R1 & R2 & R3 & R4 & R5). rewrite H, T. auto.
Qed.
(** *** The theorem *)
(** If no face has more corners than the limit, the function ends; every original set is split into a set at its place
    and sets behind the original ones that keep all faces and indices in order. *)
Theorem C36_fit_partial : forall A (m : mesh A) max, (forall s, In s (sets m) -> fit_ok (vertex m) s /\ forall c, In c (pcounts s) -> c <= max) ->
  exists fuel0, forall fuel, fuel0 <= fuel -> exists m' heads tails, FitIndexBuffers fuel m max = Done m' /\ sources m' = sources m /\ vertex m' = vertex m /\
    sets m' = heads ++ concat tails /\ length heads = length (sets m) /\ length tails = length (sets m) /\
    forall p s h t, nth_error (sets m) p = Some s -> nth_error heads p = Some h -> nth_error tails p = Some t -> split_of max s (h :: t).
Proof.
  intros A m max Ok.
  assert (G : forall ss, (forall s, In s ss -> fit_ok (vertex m) s /\ forall c, In c (pcounts s) -> c <= max) ->
    exists fuel0, forall fuel, fuel0 <= fuel -> exists heads tails, fit_all fuel (vertex m) max ss = Done (heads, concat tails) /\ length heads = length ss /\ length tails = length ss /\
    forall p s h t, nth_error ss p = Some s -> nth_error heads p = Some h -> nth_error tails p = Some t -> split_of max s (h :: t)).
  { induction ss as [|s ss IH]; intro H.
    - exists 0. intros fuel _. exists [], []. cbn. split; [reflexivity|]. split; [reflexivity|]. split; [reflexivity|]. intros [|p]; discriminate.
    - destruct IH as [f0 IH]; [intros; apply H; now right|]. exists (S (length (pcounts s)) + f0). intros fuel Hf. destruct (IH fuel ltac:(lia)) as (hs & ts & E & L1 & L2 & P).
      destruct (H s (or_introl eq_refl)) as [Hs Hc]. destruct (fit_set_spec fuel (vertex m) max s Hs Hc ltac:(lia)) as (h & t & Es & Sp).
      exists (h :: hs), (t :: ts). cbn [fit_all]. rewrite Es, E. cbn [concat length]. split; [reflexivity|]. split; [lia|]. split; [lia|]. intros [|p] s' h' t' N1 N2 N3; cbn in *; [congruence | eauto]. }
  destruct (G (sets m) Ok) as [f0 F]. exists f0. intros fuel Hf. destruct (F fuel Hf) as (hs & ts & E & L1 & L2 & P). unfold FitIndexBuffers. rewrite E. eexists. exists hs, ts. split; [reflexivity|]. cbn. auto 10.
Qed.
Print Assumptions C36_fit_partial.
Example C36_demo : let s := PSet POLYGONS [3; 4; 3; 3] [] [Input 0 0 [0; 1; 2; 3; 4; 5; 6; 7; 8; 9; 10; 11; 12]; Input 1 1 [20; 21; 22; 23; 24; 25; 26; 27; 28; 29; 30; 31; 32]; Input 1 2 []] in
  let m := Mesh [[tt]; [tt]; [tt]] [0] [s] in
  fit_ok [0] s /\ FitIndexBuffers 9 m 7 = Done (Mesh [[tt]; [tt]; [tt]] [0]
    [PSet POLYGONS [3; 4] [] [Input 0 0 [0; 1; 2; 3; 4; 5; 6]; Input 1 1 [20; 21; 22; 23; 24; 25; 26]; Input 1 2 []];
     PSet POLYGONS [3; 3] [] [Input 0 0 [7; 8; 9; 10; 11; 12]; Input 1 1 [27; 28; 29; 30; 31; 32]; Input 1 2 []]]).
Proof.
  split; [|reflexivity]. split; auto. split; auto. split.
  { intros i j x y. cbn. destruct i as [|[|[|i]]], j as [|[|[|j]]]; cbn; intros H1 H2; try (injection H1 as <-); try (injection H2 as <-); cbn; try discriminate; auto; destruct i || destruct j; discriminate. }
  split; [repeat constructor; cbn; intuition discriminate|]. split.
  - intros i Hi. cbn in Hi. destruct i as [|[|[|i]]]; try reflexivity. lia.
  - intros x [<-|[<-|[<-|[]]]] I; cbn in *; auto; lia.
Qed.

(** Finding: with a face that is larger than the limit the loop never ends (and adds an empty set in every round). *)
Theorem C36_oversized_face_refuted : ~ forall A (m : mesh A) max, (forall s, In s (sets m) -> fit_ok (vertex m) s) -> exists fuel m', FitIndexBuffers fuel m max = Done m'.
Proof.
  intro H. destruct (H unit (Mesh [[tt]] [] [PSet POLYGONS [4] [] [Input 0 0 [0; 1; 2; 3]]]) 3) as (fuel & m' & E).
  - intros s [<-|[]]. split; auto. split; auto. split; [intros [|[|]] [|[|]] x y H1 H2; cbn in *; try discriminate; auto|]. split; [repeat constructor; cbn; tauto|].
    split; [intros [|i] Hi; cbn in *; [reflexivity | lia]|]. intros x [<-|[]] [].
  - assert (L : forall fuel, pieces fuel [] 3 (PSet POLYGONS [4] [] [Input 0 0 [0; 1; 2; 3]]) 0 0 0 0 = Fuel).
    { induction fuel0 as [|f IH]; auto. cbn [pieces pcounts length skipn]. change (take 3 0 [4]) with (0, 0). cbn [Nat.add Nat.ltb Nat.leb andb]. now rewrite IH. }
    unfold FitIndexBuffers in E. cbn [fit_all sets vertex] in E. unfold fit_set in E. cbn [is_points ptype pcounts] in E. change (take 3 0 [4]) with (0, 0) in E. cbn [length Nat.eqb] in E. rewrite L in E. discriminate.
Qed.
Print Assumptions C36_oversized_face_refuted.
(** Finding: the faces that move to a new set lose their primitive type: a set of triangle strips continues as polygons. *)
Theorem C36_primitive_type_refuted : ~ forall A (m m' : mesh A) max fuel, FitIndexBuffers fuel m max = Done m' ->
  forall s q, In s (sets m) -> length (sets m) = 1 -> In q (sets m') -> ptype q = ptype s.
Proof.
  intro H. specialize (H unit (Mesh [[tt]] [] [PSet TRIANGLE_STRIPS [4; 4] [] [Input 0 0 [0; 1; 2; 3; 4; 5; 6; 7]]]) _ 4 5 eq_refl _ (PSet POLYGONS [4] [] [Input 0 0 [4; 5; 6; 7]]) (or_introl eq_refl) eq_refl (or_intror (or_introl eq_refl))). discriminate.
Qed.
Print Assumptions C36_primitive_type_refuted.
(** Finding: holes stay with the first set: a hole in a part that moved away is no hole any more, and the first set keeps
    the number of an entry it no longer has. *)
Theorem C36_holes_refuted : ~ forall A (m m' : mesh A) max fuel, FitIndexBuffers fuel m max = Done m' ->
  forall s q h, In s (sets m) -> length (sets m) = 1 -> In q (sets m') -> In h (pholes q) -> h < length (pcounts q).
Proof.
  intro H. specialize (H unit (Mesh [[tt]] [] [PSet POLYGONS [4; 3; 3] [2] [Input 0 0 [0; 1; 2; 3; 4; 5; 6; 7; 8; 9]]]) _ 6 5 eq_refl _ (PSet POLYGONS [4] [2] [Input 0 0 [0; 1; 2; 3]]) 2 (or_introl eq_refl) eq_refl (or_introl eq_refl) (or_introl eq_refl)). cbn in H. lia.
Qed.
Print Assumptions C36_holes_refuted.
(** Finding: a per-vertex source at another offset than 0 is moved to offset 0 in the new sets and then shares the indices
    of the input that was at offset 0. *)
Theorem C36_vertex_offset_refuted : ~ forall A (m m' : mesh A) max fuel, FitIndexBuffers fuel m max = Done m' -> length (sets m) = 1 ->
  forall s q d, In s (sets m) -> In q (sets m') -> In d (map source (pinputs s)) -> exists a, seen q d = firstn (length (seen q d)) (skipn a (seen s d)).
Proof.
  intro H. destruct (H unit (Mesh [[tt]; [tt]] [1] [PSet POLYGONS [3; 3] [] [Input 0 0 [0; 1; 2; 3; 4; 5]; Input 1 1 [20; 21; 22; 23; 24; 25]]]) _ 3 5 eq_refl eq_refl _
    (PSet POLYGONS [3] [] [Input 0 1 []; Input 0 0 [3; 4; 5]]) 1 (or_introl eq_refl) (or_intror (or_introl eq_refl)) (or_intror (or_introl eq_refl))) as [a E].
  vm_compute in E. destruct a as [|[|[|[|[|[|[|a]]]]]]]; cbn in E; discriminate.
Qed.
Print Assumptions C36_vertex_offset_refuted.
