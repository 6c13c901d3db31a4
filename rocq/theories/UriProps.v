(** C17 (resolving and relativising paths), C59 (escaping), C61 (printing and parsing URIs). *)
From Coq Require Import String List ZArith Lia Bool.
From Verif Require Import TextModel StringSpec StringModel StringProofs UriSpec UriModel UriProofs.
Import ListNotations.
Local Open Scope Z_scope.
Local Notation length := List.length.

(** *** C17 *)
(** Resolving the text [s] against the document [b] gives [r]. *)
Definition resolves (a : arith) (b s r : list Z) : Prop :=
  exists u, parse a b = Some u /\ MakeAbsolute a u s = Some r.
(** The form of [p] relative to the document [b] is [r]. *)
Definition relative_form (a : arith) (b p r : list Z) : Prop :=
  exists u, parse a b = Some u /\ MakeRelative a u p = Some r.

Lemma char_ok : forall s, forallb (fun c => negb (existsb (Z.eqb c) [0; 47; 92; 58; 63; 35; 124])) s = true ->
  Forall plain_char s.
Proof.
  intros s H. apply Forall_forall. intros c Hc Hin. rewrite forallb_forall in H. specialize (H c Hc).
  apply negb_true_iff in H. assert (E : existsb (Z.eqb c) [0; 47; 92; 58; 63; 35; 124] = true); [|congruence].
  apply existsb_exists. exists c. split; [exact Hin | apply Z.eqb_refl].
Qed.
Lemma name_ok : forall s, s <> [] ->
  forallb (fun c => negb (existsb (Z.eqb c) [0; 47; 92; 58; 63; 35; 124])) s = true -> name s.
Proof. intros. split; [assumption | now apply char_ok]. Qed.

Theorem C17_resolve_refuted :
  (* no ".." is left in a resolved path: neither for a target that is absolute ... *)
  ~ (forall a d f t r, Forall ordinary d -> Forall plain_char f -> Forall name t -> t <> [] ->
       resolves a (path_of d ++ 47 :: f) (path_of t) r -> exists l, names r l /\ ~ In dotdot l) /\
  (* ... nor for a relative target and a base that contains one *)
  ~ (forall a d f t r, Forall name d -> Forall plain_char f -> ordinary t ->
       resolves a (path_of d ++ 47 :: f) t r -> exists l, names r l /\ ~ In dotdot l) /\
  (* a reference to an element of the document itself resolves to the document *)
  ~ (forall a d f i, Forall ordinary d -> ordinary f -> name i ->
       resolves a (path_of d ++ 47 :: f) (35 :: i) (path_of d ++ 47 :: f)) /\
  (* the root, reached with "..", is "/" *)
  ~ (forall a n f, ordinary n -> ordinary f -> resolves a (path_of [n] ++ 47 :: f) dotdot [47]) /\
  (* every absolute path has a relative form: undefined for a document in the root folder, *)
  ~ (forall a f p, ordinary f -> ordinary p -> exists r, relative_form a (path_of [] ++ 47 :: f) (path_of [p]) r) /\
  (* and it resolves to the path again: the final '/' of a folder is lost *)
  ~ (forall a d f t r, Forall ordinary d -> d <> [] -> Forall plain_char f -> Forall ordinary t -> t <> [] ->
       relative_form a (path_of d ++ 47 :: f) (path_of t ++ [47]) r ->
       resolves a (path_of d ++ 47 :: f) r (path_of t ++ [47])).
Proof.
  assert (O : forall s, s <> [] -> s <> dot -> s <> dotdot ->
    forallb (fun c => negb (existsb (Z.eqb c) [0; 47; 92; 58; 63; 35; 124])) s = true -> ordinary s).
  { intros s H1 H2 H3 H4. split; [now apply name_ok | auto]. }
  assert (OA : ordinary [97]) by (apply O; first [discriminate | reflexivity]).
  assert (OB : ordinary [98]) by (apply O; first [discriminate | reflexivity]).
  assert (NU : name dotdot) by (apply name_ok; first [discriminate | reflexivity]).
  repeat split; intro H.
  - destruct (H Wrapping [[97]] [98] [[97]; dotdot; [98]] (path_of [[97]; dotdot; [98]])) as (l & Hl & N);
      [ auto | now apply char_ok
      | apply Forall_cons; [apply OA|]; apply Forall_cons; [exact NU|]; apply Forall_cons; [apply OB | constructor]
      | discriminate | eexists; split; reflexivity |].
    apply stack_names in Hl. vm_compute in Hl. injection Hl as <-. apply N. cbn. auto.
  - destruct (H Wrapping [[97]; dotdot] [98] [98] (path_of [[97]; dotdot; [98]])) as (l & Hl & N); auto.
    { constructor; [now apply name_ok|]. constructor; [exact NU | constructor]. }
    { apply char_ok. reflexivity. }
    { eexists. split; reflexivity. }
    apply stack_names in Hl. vm_compute in Hl. injection Hl as <-. apply N. cbn. auto.
  - destruct (H Wrapping [[97]] [98] [99]) as (u & E & R); auto.
    { now apply name_ok. }
    vm_compute in E. injection E as <-. vm_compute in R. discriminate.
  - destruct (H Wrapping [97] [98]) as (u & E & R); auto.
    vm_compute in E. injection E as <-. vm_compute in R. discriminate.
  - destruct (H Wrapping [97] [98]) as (r & u & E & R); auto.
    vm_compute in E. injection E as <-. vm_compute in R. discriminate.
  - destruct (H Wrapping [[97]] [98] [[97]; [98]] [46; 47; 98]) as (u & E & R); auto; try discriminate.
    { apply char_ok. reflexivity. }
    { eexists. split; reflexivity. }
    vm_compute in E. injection E as <-. vm_compute in R. discriminate.
Qed.
Print Assumptions C17_resolve_refuted.

(** A relative target made of names and slashes, with any number of "." and "..", resolved against a
    document in a folder without dots: the result is the path reached by the walk, it exists, contains
    no dot name, and the walk never climbs above the root. *)
Theorem C17_resolve_partial : forall a d f s l, Forall ordinary d -> Forall plain_char f ->
  names s l -> s <> [] -> hd 0 s <> 47 ->
  exists r, walk d l r /\ resolves a (path_of d ++ 47 :: f) s (path_of r) /\ Forall ordinary r.
Proof.
  intros a d f s l Hd Hf Hs Hn Hh. exists (fold_left step l d).
  pose proof (fold_walk l d (names_names _ _ Hs)) as W. split; [exact W|]. split.
  - eexists. split; [apply parse_base; [now apply ordinary_names | exact Hf]|].
    apply resolve_relative; auto. now apply ordinary_names.
  - eapply walk_ordinary; eauto.
Qed.
Print Assumptions C17_resolve_partial.
(** The walk determines the result. *)
Theorem C17_walk_deterministic_partial : forall d l r r', walk d l r -> walk d l r' -> r = r'.
Proof. intros d l r r' H H'. now rewrite (walk_fun _ _ _ H), (walk_fun _ _ _ H'). Qed.
Print Assumptions C17_walk_deterministic_partial.

(** The relative form of an absolute path resolves to that path, whatever part of the folders is common. *)
Theorem C17_round_trip_partial : forall a d f t, Forall ordinary d -> d <> [] -> Forall plain_char f ->
  Forall ordinary t -> t <> [] ->
  exists r, relative_form a (path_of d ++ 47 :: f) (path_of t) r /\
            resolves a (path_of d ++ 47 :: f) r (path_of t).
Proof.
  intros a d f t Hd Hdn Hf Ht Htn. destruct (round_trip a d f t Hd Hdn Hf Ht Htn) as (r & A & B).
  exists r. split; eexists; (split; [apply parse_base; [now apply ordinary_names | exact Hf] | eassumption]).
Qed.
Print Assumptions C17_round_trip_partial.
Example C17_demo :
  resolves Strict (tx "/home/me/scene.dae") (tx "../you/./../../tex/a.png") (tx "/tex/a.png") /\
  relative_form Strict (tx "/home/me/scene.dae") (tx "/home/you/b.png") (tx "../you/b.png") /\
  relative_form Strict (tx "/home/me/scene.dae") (tx "/home/me/x/b.png") (tx "./x/b.png").
Proof. repeat split; eexists; split; vm_compute; reflexivity. Qed.

(** *** C59 *)
(** Escape yields nothing: whatever the input, the text of the result is empty.  So a text that needs no
    escaping is not returned unchanged, and distinct texts are not kept apart. *)
Theorem C59_escape_refuted :
  (forall number junk p r, Escape number junk p = Some r -> c_text r = []) /\
  ~ (forall number junk s, text s -> Forall (fun c => IsAlphaNumeric c = true) s ->
       exists r, Escape number junk (str_of s) = Some r /\ c_text r = s).
Proof.
  assert (A : forall number junk p r, Escape number junk p = Some r -> c_text r = []).
  { intros number junk p r E. unfold Escape in E.
    destruct (escape_loop_empty number junk p str_default r) as (H & L); auto.
    destruct r as [|c r]; [reflexivity|]. cbn in H. subst c. reflexivity. }
  split; [exact A|]. intro H.
  destruct (H append_i32 (fun _ => 0) [97]) as (r & E & R).
  - repeat constructor; lia.
  - repeat constructor.
  - apply A in E. congruence.
Qed.
Print Assumptions C59_escape_refuted.
Example C59_demo : Escape append_i32 (fun _ => 0) (str_of (tx "a b")) <> None.
Proof. vm_compute. discriminate. Qed.

(** *** C61 *)
(** Parsing what GetAbsoluteUri prints does not give the same URI: folders gain a '/' each time, and a
    query followed by a fragment gains a '#'. *)
Theorem C61_uri_print_parse_refuted :
  ~ (forall a s x, text s -> parse a s = Some x -> scheme x <> NONE -> parse a (GetAbsoluteUri x) = Some x) /\
  (exists x, parse Strict (tx "file:///dir/") = Some x /\ GetAbsoluteUri x = tx "file:///dir//") /\
  (exists x, parse Strict (tx "http://h/a?q#f") = Some x /\ GetAbsoluteUri x = tx "http://h/a?q##f").
Proof.
  split; [|split; eexists; split; vm_compute; reflexivity].
  intro H. specialize (H Strict (tx "file:///d/")).
  destruct (parse Strict (tx "file:///d/")) as [x|] eqn:E; [|vm_compute in E; discriminate].
  specialize (H x). vm_compute in E. injection E as <-.
  specialize (H ltac:(apply Forall_forall; intros c Hc; cbn in Hc; lia) eq_refl ltac:(discriminate)). vm_compute in H. discriminate.
Qed.
Print Assumptions C61_uri_print_parse_refuted.
(** For a file (not a folder) on any host and port, with a query or a fragment but not both, it does. *)
Theorem C61_uri_print_parse_partial : forall a sch h p t q f, sch <> NONE -> Forall plain_char h ->
  0 <= p <= 2147483599 -> Forall name t -> t <> [] -> text q -> text f ->
  ~ In 92 q -> ~ In 35 q -> ~ In 92 f -> ~ In 63 f -> (q = [] \/ f = []) ->
  let x := {| scheme := sch; delim := tx "://"; host := h; port := p; path := path_of t; query := q; fragment := f |} in
  parse a (GetAbsoluteUri x) = Some x.
Proof. exact print_parse. Qed.
Print Assumptions C61_uri_print_parse_partial.
Example C61_demo :
  GetAbsoluteUri {| scheme := HTTPS; delim := tx "://"; host := tx "example.org"; port := 8080;
                    path := path_of [tx "a"; tx ".."; tx "b.dae"]; query := []; fragment := tx "node/x:1" |}
  = tx "https://example.org:8080/a/../b.dae#node/x:1".
Proof. vm_compute. reflexivity. Qed.
