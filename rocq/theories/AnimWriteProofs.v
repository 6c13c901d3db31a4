(** Written channels are described channels. *)
From Coq Require Import String List ZArith NArith QArith Qabs Qpower Bool Lia Lqa.
From Verif Require Import TextModel TextSpec TextProofs StringModel StringProofs XmlModel FloatModel FloatSpec FloatProofs FloatProps DaeModel DaeSpec DaeProofs RigModel RigSpec
  RigTextProofs RigProofs RigWriteProofs CrcModel AnimModel AnimSpec AnimReadProofs AnimLoadProofs AnimChannelProofs.
From Verif Require IdModel.
Import ListNotations.
Local Open Scope nat_scope.
Local Open Scope list_scope.

(** *** Ids *)
Lemma has_attr_same n k v v' : has_attr n k v -> has_attr n k v' -> v = v'.
Proof.
  intros (nm & ch & pre & post & -> & H) (nm' & ch' & pre' & post' & E & H'). injection E as _ E _.
  pose proof (find_attr_some pre (tx k) v post H) as A. rewrite E, (find_attr_some pre' (tx k) v' post' H') in A. congruence.
Qed.
Lemma has_attr_find nm at' ch k v : has_attr (Elem nm at' ch) k v -> find_attr at' (tx k) = Some v.
Proof. intros (nm' & ch' & pre & post & E & H). injection E as _ -> _. now apply find_attr_some. Qed.
Lemma refers_in ch parents id c : distinct_ids ch -> In c ch -> with_id id c -> proper_id id -> refers (ch :: parents) id c.
Proof.
  intros (H1 & H2) Hc Hi Hp. split; [exact Hp|]. exists [], ch, parents. split; [reflexivity|]. split; [constructor|]. apply in_split in Hc as (l & r & E).
  assert (Hl : Forall (fun d => forall v, has_attr d "id" v -> CRC32 (bytes v) <> CRC32 (bytes id)) l).
  { rewrite Forall_forall. intros d Hd v Hv. apply in_split in Hd as (l1 & l2 & El). apply (H1 l1 d l2 c r v id); auto. rewrite E, El, <- app_assoc. reflexivity. }
  split.
  - exists l, r. split; [exact E|]. split; [exact Hi|]. revert Hl. apply Forall_impl. intros d H Hd. apply (H id Hd). reflexivity.
  - intros l' x [<- | []] Hx. split.
    + intros v Hv Ec. rewrite E in Hx. apply in_app_iff in Hx as [Hx|[<- |Hx]].
      * rewrite Forall_forall in Hl. exfalso. now apply (Hl x Hx v Hv).
      * apply (has_attr_same _ _ _ _ Hv Hi).
      * exfalso. apply in_split in Hx as (r1 & r2 & Er). apply (H1 l c r1 x r2 id v); auto. now rewrite E, Er.
    + intros _. apply (H2 c id); [rewrite E; apply in_or_app; right; left; reflexivity|exact Hi].
Qed.
Lemma clean_char_plain c : (1 <= IdModel.clean_id_char c <= 255)%Z /\ IdModel.clean_id_char c <> 37%Z.
Proof.
  unfold IdModel.clean_id_char. destruct (IdModel.alpha c || digit c || (c =? 95)%Z || (c =? 45)%Z || (c =? 46)%Z) eqn:E; [|lia].
  unfold IdModel.alpha, digit in E. repeat rewrite ?orb_true_iff, ?andb_true_iff, ?Z.leb_le, ?Z.eqb_eq in E. lia.
Qed.
Lemma clean_first_plain c : (1 <= IdModel.clean_first c <= 255)%Z /\ IdModel.clean_first c <> 37%Z.
Proof.
  unfold IdModel.clean_first. destruct (IdModel.alpha c || (c =? 95)%Z) eqn:E; [|lia].
  unfold IdModel.alpha in E. repeat rewrite ?orb_true_iff, ?andb_true_iff, ?Z.leb_le, ?Z.eqb_eq in E. lia.
Qed.
Lemma clean_plain t : plain (IdModel.CleanId t).
Proof.
  unfold IdModel.CleanId. destruct (firstn IdModel.MAX_ID_LENGTH t) as [|c r]; cbn [IdModel.clean_with]; [split; [constructor|intros []]|].
  split.
  - constructor; [apply clean_first_plain|]. apply Forall_map, Forall_forall. intros x _. apply clean_char_plain.
  - intros [E|H]; [now apply (proj2 (clean_first_plain c))|]. apply in_map_iff in H as (x & E & _). now apply (proj2 (clean_char_plain x)).
Qed.
Definition suffixes : list string := ["-input"; "-output"; "-interpolations"; "-intangents"; "-outtangents"; "-tcbs"; "-eases"; "-sampler"]%string.
Lemma suffix_proper base k : plain base -> In k suffixes -> proper_id (base ++ tx k).
Proof.
  intros Hp Hk. split.
  - apply plain_app; auto. cbn in Hk. repeat (destruct Hk as [<- | Hk]; [cbn; split; [repeat (apply Forall_cons; [lia|]); apply Forall_nil|cbn; intuition discriminate]|]). destruct Hk.
  - cbn in Hk. repeat (destruct Hk as [<- | Hk]; [destruct base; discriminate|]). destruct Hk.
Qed.

(** *** Sources *)
Lemma u64_dec n : (Z.of_nat n < 4294967296)%Z -> decimal (Z.of_nat n) (append_u64 (Z.of_nat n)).
Proof. intro H. unfold append_u64, u32. rewrite Z.mod_small by lia. apply dec_decimal. lia. Qed.
Lemma source_accessor id arr text len count stride ps ty rest : tx arr <> tx "technique_common" -> (Z.of_nat stride < 4294967296)%Z -> (Z.of_nat count < 4294967296)%Z ->
  accessor (Elem (tx "source") [(tx "id", id)] (AddArray (id ++ tx "-array") arr text len ::
     Elem (tx "technique_common") [] [AddAccessor (id ++ tx "-array") count stride ps ty] :: rest)) stride count.
Proof.
  intros Hn Hs Hc. eexists _, _, _, _. split; [apply first_skip; [apply not_elem; congruence|apply first_here; eexists _, _; reflexivity]|].
  split; [cbn [children_of]; apply first_here; eexists _, _; reflexivity|]. split; [eexists _, _, [_; _], []; split; [reflexivity|]; constructor; [discriminate|]; constructor; [discriminate|constructor]|].
  split; [now apply u64_dec|]. split; [eexists _, _, [_], _; split; [reflexivity|]; constructor; [discriminate|constructor]|]. split; [now apply u64_dec|]. auto.
Qed.
Lemma float_table id text len stride ps rows n : 0 < stride -> (Z.of_nat stride < 4294967296)%Z -> List.length rows = n -> (Z.of_nat n < 4294967296)%Z -> len = n * stride ->
  Forall (fun r => List.length r = stride) rows -> numbers_of float_text text (List.concat rows) -> table (AddSourceFloat id text len stride ps) stride n rows.
Proof.
  intros H0 Hs Hr Hn -> Hl Ht. unfold AddSourceFloat. rewrite (proj2 (Nat.eqb_neq stride 0)) by lia. rewrite Nat.div_mul by lia. split; [exact H0|].
  split; [apply source_accessor; [discriminate|exact Hs|exact Hn]|]. split; [exact Hl|].
  destruct (source_array id "float_array" text (n * stride) n stride ps (if stride =? 16 then tx "float4x4" else tx "float")) as (nm & at' & ch & x & E & Hx & Hf).
  exists nm, at', ch, x, text. auto.
Qed.
Lemma infinity_text z : proper_infinity z -> exists w, infinity_code w z /\ content (AddContent (InfinityToString z)) = content (tx w).
Proof.
  intro H. unfold proper_infinity in H. assert (E : (z = 0 \/ z = 1 \/ z = 2 \/ z = 3 \/ z = 4)%Z) by lia.
  destruct E as [-> |[-> |[-> |[-> | ->]]]]; eexists; (split; [cbn; intuition reflexivity|reflexivity]).
Qed.
Lemma time_source id text len ps pre post l : proper_infinity pre -> proper_infinity post -> numbers_of float_text text l ->
  float_source (with_infinities (AddSourceFloat id text len 1 ps) pre post) l /\ infinities (with_infinities (AddSourceFloat id text len 1 ps) pre post) pre post.
Proof.
  intros Hp Hq Ht. unfold AddSourceFloat, AddSource. cbn [Nat.eqb with_infinities app]. split.
  - eexists _, _, _, _, text. split; [reflexivity|]. split; [apply content_has_text|]. split; [exact Ht|]. apply first_here. eexists _, _. reflexivity.
  - destruct (infinity_text pre Hp) as (w1 & C1 & E1). destruct (infinity_text post Hq) as (w2 & C2 & E2). rewrite E1, E2. split.
    + cbn [children_of]. intros c v [<- |[<- |[<- |[]]]] H; apply has_attr_find in H; [discriminate|discriminate|]. injection H as <-.
      split; [repeat (apply Forall_cons; [cbn; lia|]); apply Forall_nil|]. cbn. intuition discriminate.
    + right. eexists _, _, _, w1, w2. cbn [children_of]. split.
      * apply first_skip; [intros ((a & c & E) & _); discriminate|]. apply first_skip; [intros ((a & c & E) & _); discriminate|]. apply first_here. split; [eexists _, _; reflexivity|].
        eexists _, _, [], []. split; [reflexivity|constructor].
      * split; [left; reflexivity|]. split; [eexists _, _; reflexivity|]. split; [apply content_has_text|]. split; [exact C1|]. split; [eexists _, _; reflexivity|].
        split; [apply content_has_text|exact C2].
Qed.
Lemma interpolation_word z : word (InterpolationToString z).
Proof.
  unfold InterpolationToString, EnumModel.ToString. cbn [EnumModel.cases EnumModel.fallback EnumModel.FUDaeInterpolation EnumModel.run_switch].
  assert (G : forall s, In s ["STEP"; "LINEAR"; "BEZIER"; "TCB"; "unknown"]%string -> word (tx s)).
  { intros s Hs. assert (B : forall c, (64 < c < 128)%Z -> (1 <= c <= 255)%Z /\ ~ blank_or_cr c) by (intros c Hc; split; [lia|]; unfold blank_or_cr, blank; lia).
    cbn in Hs. repeat (destruct Hs as [<- | Hs]; [split; [discriminate|]; repeat (apply Forall_cons; [apply B; cbn; lia|]); apply Forall_nil|]). destruct Hs. }
  repeat match goal with |- context [if ?b then _ else _] => destruct b end; apply G; cbn; tauto.
Qed.
Lemma words_written l : Forall word l -> words_of (strings_text l) l.
Proof.
  intro H. pose proof (joined_words (map (fun w => (w, unit_matrix)) l) (map (fun w => [w]) l)) as J. rewrite map_map in J. cbn [fst] in J. rewrite map_id in J.
  assert (E : List.concat (map (fun w : list Z => [w]) l) = l) by (clear; induction l; cbn; congruence). rewrite E in J. apply J.
  clear - H. induction H as [|w l Hw _ IH]; constructor; auto. now apply word_words.
Qed.
Lemma words_source id l : (Z.of_nat (List.length l) < 4294967296)%Z -> interpolation_source (AddSourceInterpolation id l) (map InterpolationToString l).
Proof.
  intro H. exists 1, (map InterpolationToString l). split; [lia|]. rewrite map_length. split; [apply source_accessor; [discriminate|lia|exact H]|]. split; [lia|].
  split; [intros i _; now rewrite Nat.mul_1_r|].
  eexists _, _, _, _, (strings_text (map InterpolationToString l)). split; [reflexivity|]. split; [apply content_has_text|].
  split; [apply first_here; eexists _, _; reflexivity|]. apply words_written. apply Forall_map, Forall_forall. intros z _. apply interpolation_word.
Qed.

(** *** Samplers *)
Definition inp (s : string * list Z) : xml := Elem (tx "input") [(tx "semantic", tx (fst s)); (tx "source", 35%Z :: snd s)] [].
Lemma add_input id sem : id <> [] -> tx sem <> [] -> AddInput id (tx sem) (-1) (-1) = [inp (sem, id)].
Proof. intros H1 H2. unfold AddInput, inp. cbn [fst snd]. destruct id; [congruence|]. destruct (tx sem); [congruence|]. reflexivity. Qed.
Fixpoint lookup (specs : list (string * list Z)) (sem : string) : option (list Z) :=
  match specs with [] => None | s :: r => if text_eq (tx (fst s)) (tx sem) then Some (snd s) else lookup r sem end.
Lemma inp_semantic s v : has_attr (inp s) "semantic" v -> v = tx (fst s).
Proof. intro H. apply (has_attr_same _ _ _ _ H). eexists _, _, [], _. split; [reflexivity|constructor]. Qed.
Lemma inp_attrs s : has_attr (inp s) "semantic" (tx (fst s)) /\ has_attr (inp s) "source" (35%Z :: snd s).
Proof. split; [eexists _, _, [], _; split; [reflexivity|constructor]|eexists _, _, [_], _; split; [reflexivity|]; constructor; [discriminate|constructor]]. Qed.
Lemma wired_lookup : forall specs sem, NoDup (map (fun s => tx (fst s)) specs) -> wired (map inp specs) sem (lookup specs sem).
Proof.
  assert (O : forall specs sem, ~ In (tx sem) (map (fun s : string * list Z => tx (fst s)) specs) -> Forall (fun i => ~ has_attr i "semantic" (tx sem)) (map inp specs)).
  { intros specs sem H. apply Forall_map, Forall_forall. intros s Hs Ha. apply inp_semantic in Ha. apply H. rewrite Ha. now apply (in_map (fun s : string * list Z => tx (fst s))). }
  induction specs as [|s specs IH]; intros sem Hn; [constructor|]. cbn [map lookup] in *. inversion Hn as [|? ? H1 H2]; subst. destruct (text_eq (tx (fst s)) (tx sem)) eqn:E.
  - apply text_eq_spec in E. exists [], (inp s), (map inp specs). split; [reflexivity|]. destruct (inp_attrs s) as (A & B). rewrite E in A. split; [exact A|]. split; [exact B|].
    cbn [app]. apply O. now rewrite <- E.
  - specialize (IH sem H2). destruct (lookup specs sem) as [id|]; cbn [wired] in *.
    + destruct IH as (l & i & r & El & A & B & C). exists (inp s :: l), i, r. split; [cbn; now rewrite El|]. split; [exact A|]. split; [exact B|]. cbn [app]. constructor; [|exact C].
      intro Ha. apply inp_semantic in Ha. rewrite Ha, text_eq_refl in E. discriminate.
    + constructor; [|exact IH]. intro Ha. apply inp_semantic in Ha. rewrite Ha, text_eq_refl in E. discriminate.
Qed.
Lemma inputs_map specs : inputs_among (map inp specs) (map inp specs).
Proof. induction specs as [|s specs IH]; [constructor|]. cbn [map]. apply I_keep; [eexists _, _; reflexivity|exact IH]. Qed.
