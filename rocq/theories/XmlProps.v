(** C18 (content), C19 (file names), C20 (sorted insertion), C62 (attributes), C63 (looking up children). *)
From Coq Require Import String List ZArith Lia Bool.
From Verif Require Import TextModel StringSpec StringModel StringProofs XmlModel XmlProofs.
Import ListNotations.
Local Open Scope Z_scope.
Local Notation length := List.length.

(** A C string: characters as unsigned bytes, none of them 0. *)
Definition c_string (s : list Z) : Prop := Forall (fun c => 1 <= c <= 255) s.

(** *** C18 *)
(** The full statement is [forall s, c_string s -> XmlToString (AddContent s) = s]. *)
Theorem C18_content_refuted :
  c_string (tx "50%41") /\ XmlToString (AddContent (tx "50%41")) = tx "50A" /\
  c_string (tx "100% sure") /\ XmlToString (AddContent (tx "100% sure")) = tx "100".
Proof. repeat split; try (apply Forall_forall; intros c Hc; vm_compute in Hc; intuition subst; lia); reflexivity. Qed.
Print Assumptions C18_content_refuted.
(** Exactly the texts without a percent sign survive; every byte the writer emits is a character that may
    stand in XML text: no '<', '>' or quotation mark, no control character besides line ends, no byte above
    126. *)
Theorem C18_content_round_trip_partial : forall s, c_string s ->
  (XmlToString (AddContent s) = s <-> ~ In 37 s) /\
  (forall d, In d (AddContent s) -> d <> 60 /\ d <> 62 /\ d <> 34 /\ d < 127 /\ (32 <= d \/ d = 10 \/ d = 13)).
Proof.
  intros s Hs. split; [split|].
  - intros E Hin. revert E. now apply percent_breaks.
  - intro N. apply round_trip_text; [exact Hs|]. intros c Hc _ ->. auto.
  - intros d Hd. pose proof (forallb_encode _ _ xml_safe_chars s Hs) as F.
    rewrite forallb_forall in F. specialize (F d Hd). cbv beta in F.
    rewrite !andb_true_iff, !negb_true_iff, !orb_true_iff, !Z.eqb_neq, Z.ltb_lt, Z.leb_le, !Z.eqb_eq in F. tauto.
Qed.
Print Assumptions C18_content_round_trip_partial.
Example C18_demo : let s := tx "a<b> ""caf" ++ [233; 10; 9] in
  c_string s /\ ~ In 37 s /\ AddContent s <> s /\ XmlToString (AddContent s) = s.
Proof.
  split; [apply Forall_forall; intros c Hc; vm_compute in Hc; intuition subst; lia|].
  split; [intro H; vm_compute in H; intuition discriminate|]. split; [vm_compute; discriminate | reflexivity].
Qed.

(** *** C19 *)
Theorem C19_filename_round_trip : forall s, c_string s ->
  XmlToString (ConvertFilename s) = s /\
  forall d, In d (ConvertFilename s) ->
    97 <= d <= 122 \/ 65 <= d <= 90 \/ 48 <= d <= 57 \/ In d (tx "-./:_%").
Proof.
  intros s Hs. split.
  - apply round_trip_text; [exact Hs|]. intros c _ Hv ->. vm_compute in Hv. discriminate.
  - intros d Hd. pose proof (forallb_encode _ _ filename_chars s Hs) as F.
    rewrite forallb_forall in F. specialize (F d Hd). unfold plain_char in F.
    rewrite !orb_true_iff, !andb_true_iff, !Z.leb_le, !Z.eqb_eq in F.
    change (tx "-./:_%") with [45; 46; 47; 58; 95; 37]. cbn [In]. lia.
Qed.
Print Assumptions C19_filename_round_trip.
Example C19_demo : let s := tx "C:\My 100% (1).dae" ++ [233] in c_string s /\
  ConvertFilename s = tx "C:%5CMy%20100%25%20%281%29.dae%E9" /\ XmlToString (ConvertFilename s) = s.
Proof. split; [apply Forall_forall; intros c Hc; vm_compute in Hc; intuition subst; lia|]. split; reflexivity. Qed.

(** *** C62 *)
(** AddAttribute followed by ReadNodeProperty.  The full statement is
    [forall s, c_string s -> XmlToString (AddAttribute s) = s]. *)
Theorem C62_attribute_refuted :
  c_string (tx "%20") /\ XmlToString (AddAttribute (tx "%20")) = tx " " /\
  c_string (tx "5%") /\ XmlToString (AddAttribute (tx "5%")) = tx "5".
Proof. repeat split; try (apply Forall_forall; intros c Hc; vm_compute in Hc; intuition subst; lia); reflexivity. Qed.
Print Assumptions C62_attribute_refuted.
Theorem C62_attribute_round_trip_partial : forall s, c_string s ->
  (XmlToString (AddAttribute s) = s <-> ~ In 37 s).
Proof.
  intros s Hs. unfold AddAttribute. rewrite <- (encode_all_valid s Hs) at 1. split.
  - intros E Hin. revert E. now apply percent_breaks.
  - intro N. apply round_trip_text; [exact Hs|]. intros c Hc _ ->. auto.
Qed.
Print Assumptions C62_attribute_round_trip_partial.
Example C62_demo : c_string (tx "my geometry-mesh") /\ ~ In 37 (tx "my geometry-mesh") /\
  XmlToString (AddAttribute (tx "my geometry-mesh")) = tx "my geometry-mesh".
Proof.
  split; [apply Forall_forall; intros c Hc; vm_compute in Hc; intuition subst; lia|].
  split; [intro H; vm_compute in H; intuition discriminate | reflexivity].
Qed.

(** *** C20 *)
(** The elements among the children are in non-decreasing order of their names ([lex] is the strict
    lexicographic order). *)
Definition ordered (l : list node) : Prop :=
  forall x a y b z m n, l = x ++ a :: y ++ b :: z -> what a = Element m -> what b = Element n -> ~ lex n m.
Definition element (id : Z) (name : string) : node := {| ident := id; what := Element (tx name) |}.
Definition text_node (id : Z) : node := {| ident := id; what := Other |}.
(** The full statement: insertion anywhere keeps [ordered]. *)
Theorem C20_sorted_refuted :
  let l := [text_node 1; element 2 "b"] in
  ordered l /\ AddChildSorted l 3 (tx "a") = [text_node 1; element 2 "b"; element 3 "a"] /\
  ~ ordered (AddChildSorted l 3 (tx "a")).
Proof.
  cbv zeta. split; [|split; [reflexivity|]].
  - intros x a y b z m n E Ha Hb.
    destruct x as [|? [|? [|? ?]]]; try discriminate E; cbn in E; injection E; intros; subst; try discriminate;
      destruct y; discriminate.
  - intro H. apply (H [text_node 1] (element 2 "b") [] (element 3 "a") [] (tx "b") (tx "a")); try reflexivity.
    change (lex [97] [98]). apply lex_head. lia.
Qed.
Print Assumptions C20_sorted_refuted.

Definition smaller_than_all (name : list Z) (l : list node) : Prop :=
  forall q m, In q l -> what q = Element m -> lex name m.
Definition has_element (l : list node) : Prop := exists q m, In q l /\ what q = Element m.
(** The new child is always inserted between two halves of the old list, after every child of the same
    name; and order is kept in every case except the one refuted: the list starts with a node that is no
    element, contains elements, and the new name is smaller than all of them. *)
Theorem C20_sorted_partial : forall children id name,
  (exists x y, children = x ++ y /\
     AddChildSorted children id name = x ++ {| ident := id; what := Element name |} :: y /\
     forall q, In q y -> what q <> Element name) /\
  (ordered children ->
   (ordered (AddChildSorted children id name) <->
    ~ (smaller_than_all name children /\ has_element children /\
       exists q r, children = q :: r /\ what q = Other))).
Proof.
  intros children id name.
  assert (irr : forall a, ~ lex a a).
  { induction a as [|c a IH]; intro H; inversion H; subst; [lia | auto]. }
  assert (tr : forall a b c, lex a b -> lex b c -> lex a c).
  { intros a b c H. revert c. induction H; intros c0 H'; inversion H'; subst;
      first [solve [apply lex_end] | solve [apply lex_head; lia] | solve [apply lex_tail; auto]]. }
  assert (tot : forall a b, ~ lex a b -> lex b a \/ a = b).
  { induction a as [|c a IH]; destruct b as [|d b]; intro H; [now right | exfalso; apply H; constructor | left; constructor|].
    destruct (Z.lt_trichotomy c d) as [L|[->|L]]; [exfalso; apply H; now constructor | | left; constructor; lia].
    destruct (IH b) as [| ->]; [intro; apply H; now constructor | left; now constructor | now right]. }
  destruct (add_sorted_shape children id name) as (x & y & E1 & E2 & Hy & Cases).
  split.
  { exists x, y. split; [assumption|]. split; [assumption|]. intros q Hq Hn. now apply (irr name), (Hy q). }
  intro Ho. rewrite E2.
  (* the new element breaks the order only if a bigger element stands before it *)
  assert (K : (forall p m, In p x -> what p = Element m -> ~ lex name m) ->
     ordered (x ++ {| ident := id; what := Element name |} :: y)).
  { intros Hx u a v b w m n E Ha Hb.
    assert (Eu : (exists t, x = u ++ a :: t /\ v ++ b :: w = t ++ {| ident := id; what := Element name |} :: y) \/
                 (u = x /\ a = {| ident := id; what := Element name |} /\ y = v ++ b :: w) \/
                 (exists t, y = t ++ a :: v ++ b :: w)).
    { clear - E. revert u E. induction x as [|c x IH]; intros u E; destruct u as [|d u]; cbn [app] in E.
      - injection E as Ea Eb. right. left. auto.
      - injection E as <- E. right. right. now exists u.
      - injection E as -> E. left. exists x. auto.
      - injection E as -> E. destruct (IH u E) as [(t & -> & Et)|[(-> & Et & Ey)|(t & Et)]].
        + left. exists t. auto.
        + right. left. auto.
        + right. right. eauto. }
    destruct Eu as [(t & Ex & Et)|[(_ & -> & Ey)|(t & Et)]].
    - assert (Ev : (exists s, t = v ++ b :: s) \/ b = {| ident := id; what := Element name |} \/
                   (exists s, y = s ++ b :: w)).
      { clear - Et. revert v Et. induction t as [|c t IH]; intros v E; destruct v as [|d v]; cbn [app] in E.
        - injection E as Ea Eb. auto.
        - injection E as _ E. right. right. now exists v.
        - injection E as -> E. left. now exists t.
        - injection E as -> E. destruct (IH v E) as [(s & ->)|[->|(s & ->)]]; [left; now exists s | auto | right; right; now exists s]. }
      destruct Ev as [(s & Ev)|[->|(s & Ev)]].
      + apply (Ho u a v b (s ++ y) m n); auto. rewrite E1, Ex, Ev, <- !app_assoc. cbn [app]; rewrite <- ?app_assoc; reflexivity.
      + injection Hb as <-. apply (Hx a m); auto. rewrite Ex. apply in_or_app. cbn. auto.
      + apply (Ho u a (t ++ s) b w m n); auto. rewrite E1, Ex, Ev, <- !app_assoc. cbn [app]; rewrite <- ?app_assoc; reflexivity.
    - injection Ha as <-. intro L.
      apply (irr name). apply tr with n; [apply (Hy b); [rewrite Ey; apply in_or_app; cbn; auto | auto] | exact L].
    - apply (Ho (x ++ t) a v b w m n); auto. rewrite E1, Et, <- app_assoc. reflexivity. }
  destruct Cases as [(p & n & Hp & Hn & Hl & x' & Ex')|[(-> & q & m & y' & Ey & Hq & Hall)|(-> & Hf & Hall)]].
  - split; [|intros _; apply K].
    + intros _ (Hs & _). apply Hl, (Hs p); [rewrite E1; apply in_or_app; auto | auto].
    + intros p' m Hp' Hm L. rewrite Ex' in Hp'. apply in_app_or in Hp'. destruct Hp' as [Hp'|[<-|[]]]; [|congruence].
      apply in_split in Hp'. destruct Hp' as (s & t & ->).
      apply (Ho s p' t p y m n); auto.
      { rewrite E1, Ex', <- !app_assoc. reflexivity. }
      destruct (tot name n Hl) as [L'|<-]; [now apply tr with name | exact L].
  - split; [|intros _; apply K; intros p m' []].
    intros _ (_ & _ & q' & r & E & Hw). cbn [app] in E1. rewrite E1, Ey in E. injection E as <- _. congruence.
  - rewrite app_nil_r in E1. subst x. split.
    + intros H (_ & (q & m & Hq & Hm) & _). apply in_split in Hq. destruct Hq as (s & t & Eq).
      apply (H s q t {| ident := id; what := Element name |} [] m name); auto.
      { rewrite Eq, <- app_assoc. reflexivity. }
      apply (Hall q); auto. rewrite Eq. apply in_or_app. cbn. auto.
    + intro N. apply K. intros p m Hp Hm _. apply N. split; [exact Hall|]. split; [now exists p, m|].
      destruct children as [|[i [nm|]] r]; [destruct Hp | exfalso; now apply (Hf {| ident := i; what := Element nm |} nm r)|].
      exists {| ident := i; what := Other |}, r. auto.
Qed.
Print Assumptions C20_sorted_partial.
Example C20_demo : let l := [element 1 "a"; text_node 2; element 3 "b"; element 4 "b"; element 5 "d"] in
  ~ (smaller_than_all (tx "b") l) /\
  AddChildSorted l 6 (tx "b") = [element 1 "a"; text_node 2; element 3 "b"; element 4 "b"; element 6 "b"; element 5 "d"] /\
  AddChildSorted l 6 (tx "a0") = [element 1 "a"; element 6 "a0"; text_node 2; element 3 "b"; element 4 "b"; element 5 "d"].
Proof.
  split; [|split; reflexivity]. intro H. specialize (H (element 1 "a") (tx "a") ltac:(cbn; auto) eq_refl). change (lex [98] [97]) in H.
  inversion H; subst; lia.
Qed.

(** *** C63 *)
(** FindChildByType returns the first element of that name, FindChildrenByType appends all of them in
    document order, AddChildOnce adds a child only if there is none and then finds the same one. *)
Theorem C63_children_by_name : forall children type,
  match FindChildByType children type with
  | Some c => exists x y, children = x ++ c :: y /\ what c = Element type /\ forall q, In q x -> what q <> Element type
  | None => forall q, In q children -> what q <> Element type
  end /\
  (forall nodes, exists found, FindChildrenByType children type nodes = nodes ++ found /\
     (forall q, In q found <-> In q children /\ what q = Element type) /\
     (forall x a y b z, found = x ++ a :: y ++ b :: z -> exists x' y' z', children = x' ++ a :: y' ++ b :: z')) /\
  (forall id, let '(children', c) := AddChildOnce children type id in
     what c = Element type /\ In c children' /\ (exists new, children' = children ++ new /\ (length new <= 1)%nat /\
        ((exists q, In q children /\ what q = Element type) -> new = [])) /\
     forall id', AddChildOnce children' type id' = (children', c)).
Proof.
  intros children type. pose proof (find_child_spec children type) as F.
  split; [exact F|]. split.
  - intro nodes. set (P := fun c => match what c with Element n => if list_eq_dec Z.eq_dec n type then true else false | Other => false end).
    exists (filter P children). split; [apply find_children_spec|].
    assert (HP : forall q, P q = true <-> what q = Element type).
    { intro q. unfold P. destruct (what q) as [n|]; [|split; discriminate].
      destruct (list_eq_dec Z.eq_dec n type) as [->|N]; split; congruence. }
    split; [intro q; rewrite filter_In, HP; tauto|].
    assert (One : forall l a z x, filter P l = x ++ a :: z -> exists x' z', l = x' ++ a :: z' /\ filter P z' = z).
    { induction l as [|c l IH]; intros a z x E; [destruct x; discriminate|]. cbn [filter] in E. destruct (P c).
      - destruct x as [|d x]; cbn [app] in E; injection E as -> E; [exists [], l; auto|].
        destruct (IH _ _ _ E) as (x' & z' & -> & Ez). exists (d :: x'), z'. auto.
      - destruct (IH _ _ _ E) as (x' & z' & -> & Ez). exists (c :: x'), z'. auto. }
    intros x a y b z E. destruct (One _ _ _ _ E) as (x' & w & -> & Ew).
    destruct (One _ _ _ _ Ew) as (y' & z' & -> & _). now exists x', y', z'.
  - intro id. unfold AddChildOnce at 1. destruct (FindChildByType children type) as [c|] eqn:Ef.
    + destruct F as (x & y & E & Hc & Hx). split; [assumption|]. split; [rewrite E; apply in_or_app; cbn; auto|].
      split; [exists []; rewrite app_nil_r; cbn; repeat split; auto|].
      intro id'. unfold AddChildOnce. now rewrite Ef.
    + split; [reflexivity|]. split; [apply in_or_app; cbn; auto|]. split.
      * exists [{| ident := id; what := Element type |}]. split; [reflexivity|]. split; [cbn; lia|].
        intros (q & Hq & Hw). exfalso. now apply (F q).
      * intro id'. unfold AddChildOnce.
        replace (FindChildByType (children ++ [{| ident := id; what := Element type |}]) type)
          with (Some {| ident := id; what := Element type |}); [reflexivity|].
        clear Ef. induction children as [|c r IH]; cbn [app FindChildByType what].
        { replace (text_eq type type) with true; [reflexivity|]. symmetry. now apply text_eq_spec. }
        assert (Fr : forall q, In q r -> what q <> Element type) by (intros q Hq; apply F; cbn; auto).
        destruct (what c) as [n|] eqn:Ec; [|now apply IH].
        destruct (text_eq n type) eqn:Et; [|now apply IH].
        apply text_eq_spec in Et. exfalso. apply (F c); [cbn; auto | congruence].
Qed.
Print Assumptions C63_children_by_name.
Example C63_demo : let l := [element 1 "a"; text_node 2; element 3 "b"; element 4 "a"] in
  FindChildByType l (tx "b") = Some (element 3 "b") /\ FindChildrenByType l (tx "a") [] = [element 1 "a"; element 4 "a"] /\
  AddChildOnce l (tx "b") 9 = (l, element 3 "b") /\ fst (AddChildOnce l (tx "c") 9) = l ++ [element 9 "c"].
Proof. repeat split; reflexivity. Qed.
