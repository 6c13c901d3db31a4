(** C60: fm::string behaves like a mathematical text. *)
From Coq Require Import List ZArith Lia Bool.
From Verif Require Import StringSpec StringModel StringProofs.
Import ListNotations.
Local Open Scope Z_scope.

(** [holds b s]: the object [b] stands for the text [s], with a terminator or without any cell.  Each
    line below is one expectation that fails. *)
Theorem C60_string_refuted :
  (* adding a character with push_back, as with any container *)
  ~ (forall s c, text s -> text [c] -> holds (str_push_back (str_of s) c) (s ++ [c])) /\
  (* appending a character to any object holding a text *)
  ~ (forall b s c, text s -> text [c] -> holds b s ->
       exists r, str_append_char b c = Some r /\ holds r (s ++ [c])) /\
  (* removing the last character, or nothing if there is none *)
  ~ (forall b s, text s -> holds b s -> exists r, str_pop_back b = Some r /\ holds r (removelast s)) /\
  (* growing to a length with a given character *)
  ~ (forall b s n c, text s -> text [c] -> holds b s -> (length s <= n)%nat ->
       holds (str_resize_with b n c) (s ++ repeat c (n - length s))) /\
  (* searching a character *)
  ~ (forall b s c, text s -> text [c] -> holds b s ->
       is_first (fun i => nth_error s i = Some c) 0 (str_find_char b c 0)) /\
  (* searching any of a set of characters, forwards and backwards *)
  ~ (forall b s set, text s -> text set -> holds b s -> set <> [] ->
       is_first (fun i => exists x, nth_error s i = Some x /\ In x set) 0 (str_find_first_of b set 0)) /\
  ~ (forall b s set, text s -> text set -> holds b s -> set <> [] -> (length set <= length s)%nat ->
       is_last (fun i => exists x, nth_error s i = Some x /\ In x set) 0
         (option_map Z.to_nat (str_find_last_of b set 0))) /\
  (* the order is the lexicographic one *)
  ~ (forall s t, text s -> text t -> (str_lt (str_of s) (str_of t) = true <-> lex s t)).
Proof.
  assert (T : forall l, forallb (fun c => negb (c =? 0) && (-128 <=? c) && (c <=? 127)) l = true -> text l).
  { intros l H. apply Forall_forall. rewrite forallb_forall in H. intros x Hx. specialize (H x Hx).
    rewrite !andb_true_iff, negb_true_iff, Z.eqb_neq, !Z.leb_le in H. lia. }
  repeat split; intro H.
  - destruct (H [97] 98) as [E | (E & _)]; try (apply T; reflexivity); discriminate.
  - destruct (H [] [] 98) as (r & E & _); try (apply T; reflexivity); [now right | discriminate].
  - destruct (H [0] []) as (r & E & _); try (apply T; reflexivity); [now left | discriminate].
  - destruct (H [97; 0] [97] 3%nat 98) as [E | (E & _)]; try (apply T; reflexivity);
      [now left | cbn; lia | discriminate | discriminate].
  - specialize (H [-23; 0] [-23] (-23)). cbn in H.
    apply (H ltac:(now apply T) ltac:(now apply T) ltac:(now left) O); [lia | reflexivity].
  - specialize (H [97; 0] [97] [97; 98; 99]). cbn -[In] in H.
    apply (H ltac:(now apply T) ltac:(now apply T) ltac:(now left) ltac:(discriminate) O); [lia|].
    exists 97. split; [reflexivity | cbn; auto].
  - specialize (H [97; 47; 98; 0] [97; 47; 98] [47; 92]).
    destruct (H ltac:(now apply T) ltac:(now apply T) ltac:(now left) ltac:(discriminate) ltac:(cbn; lia))
      as (_ & (x & E & Hin) & _).
    vm_compute in E. injection E as <-. cbn in Hin. lia.
  - specialize (H [] [-23]). destruct H as (_ & H); try (apply T; reflexivity).
    specialize (H ltac:(constructor)). discriminate.
Qed.
Print Assumptions C60_string_refuted.

(** Everything else the class offers agrees with texts, whatever the freshly allocated memory holds. *)
Theorem C60_string_partial :
  (* construction *)
  (forall s, text s -> holds (str_of s) s /\ c_text (str_of s) = s) /\
  (forall s n, holds (str_of_n s n) (firstn (npos_or n (length s)) s)) /\
  (forall n c, holds (str_fill n c) (repeat c n)) /\
  (* observation *)
  (forall b s, text s -> holds b s ->
     str_length b = length s /\ (str_empty b = true <-> s = []) /\ c_text b = s /\
     (forall u c, s = u ++ [c] -> str_back b = Some c)) /\
  (* parts *)
  (forall b s start count, text s -> holds b s ->
     holds (str_substr b start count) (firstn (npos_or count (length s)) (skipn start s))) /\
  (* insertion anywhere of another string or of a part of a C string *)
  (forall junk b s tb t off, holds b s -> holds tb t ->
     let o := Nat.min (npos_or off (length s)) (length s) in
     holds (str_insert junk b off tb) (firstn o s ++ t ++ skipn o s)) /\
  (forall junk b s t off count, holds b s ->
     let o := Nat.min (npos_or off (length s)) (length s) in
     exists r, str_insert_c junk b off t count = Some r /\
       holds r (firstn o s ++ firstn (npos_or count (length t)) t ++ skipn o s)) /\
  (forall junk b s tb t, holds b s -> holds tb t -> holds (str_append junk b tb) (s ++ t)) /\
  (forall junk b s t, holds b s -> exists r, str_append_c junk b t = Some r /\ holds r (s ++ t)) /\
  (* one character at the end, when the object is terminated *)
  (forall b s c, terminated b s -> c <> 0 ->
     exists r, str_append_char b c = Some r /\ terminated r (s ++ [c])) /\
  (forall b s c, terminated b (s ++ [c]) -> exists r, str_pop_back b = Some r /\ terminated r s) /\
  (* removal of a range; cutting *)
  (forall b s start stop, holds b s -> (match stop with Some e => (start <= e)%nat | None => True end) ->
     holds (str_erase b start stop) (firstn start s ++ skipn (npos_or stop (length s)) s)) /\
  (forall b s n c, terminated b s -> (n <= length s)%nat ->
     terminated (str_resize_with b n c) (firstn n s)) /\
  (* searches *)
  (forall b s c from, holds b s -> 0 < c ->
     is_first (fun i => nth_error s i = Some c) from (str_find_char b c from) /\
     is_last (fun i => nth_error s i = Some c) from (str_rfind_char b c from)) /\
  (forall b s t from, holds b s -> text t -> t <> [] ->
     is_first (occurs_at t s) from (str_find_c b t from) /\
     is_last (occurs_at t s) from (str_rfind_c b t from)) /\
  (forall b s tb t from, holds b s -> text t -> holds tb t -> t <> [] ->
     is_first (occurs_at t s) from (str_find b tb from) /\
     is_last (occurs_at t s) from (str_rfind b tb from)) /\
  (forall b s set from, terminated b s -> text set -> (1 <= length set <= S (length s))%nat ->
     is_first (fun i => exists x, nth_error s i = Some x /\ In x set) from (str_find_first_of b set from)) /\
  (forall b s c, terminated b s -> text [c] ->
     is_last (fun i => nth_error s i = Some c) 0 (option_map Z.to_nat (str_find_last_of b [c] 0))) /\
  (* comparisons: equality of texts; a strict total order, lexicographic on ASCII *)
  (forall a s b t, text s -> text t -> holds a s -> holds b t ->
     (str_eq a b = true <-> s = t) /\
     (s <> t -> str_lt a b = true \/ str_lt b a = true) /\
     (Forall (fun c => 0 < c) s -> Forall (fun c => 0 < c) t -> (str_lt a b = true <-> lex s t))) /\
  (forall a s b t c u, text s -> text t -> text u -> holds a s -> holds b t -> holds c u ->
     str_lt a a = false /\ (str_lt a b = true -> str_lt b c = true -> str_lt a c = true)).
Proof.
  repeat match goal with |- _ /\ _ => split end.
  - intros s H. split; [now left | now apply c_text_app].
  - exact of_n_spec.
  - intros n c. now left.
  - intros b s T H. split; [now apply holds_length|]. split; [|split; [now apply holds_text|]].
    + unfold str_empty. destruct H as [-> | (-> & ->)]; [|cbn; tauto].
      rewrite app_length. destruct s as [|c s]; cbn; [tauto|].
      split; [|discriminate]. destruct (length s + 1)%nat eqn:E; [lia | discriminate].
    + intros u c ->. destruct H as [-> | (_ & E)]; [|now destruct u].
      unfold str_back. rewrite !app_length. cbn [length].
      destruct (Nat.leb_spec 2 (length u + 1 + 1)); [|lia].
      replace (length u + 1 + 1 - 2)%nat with (length u) by lia.
      rewrite <- app_assoc, nth_error_app2, Nat.sub_diag by lia. reflexivity.
  - exact substr_spec.
  - intros junk b s tb t off H Ht. apply (insert_spec junk b s t tb off H Ht).
  - intros. now apply insert_c_spec.
  - intros junk b s tb t H Ht. destruct (insert_spec junk b s t tb None H Ht) as (P & _).
    cbn [npos_or] in P. rewrite Nat.min_id, firstn_all, skipn_all, app_nil_r in P. exact P.
  - intros junk b s t H. destruct (insert_c_spec junk b s t None None H) as (r & E & P).
    cbn [npos_or] in P. rewrite Nat.min_id, !firstn_all, skipn_all, app_nil_r in P. exists r. split; [exact E | exact P].
  - intros b s c -> Hc. unfold str_append_char. destruct (Z.eqb_spec c 0); [lia|].
    rewrite set_last_snoc. eexists. split; [reflexivity|]. reflexivity.
  - intros b s c ->. exists (s ++ [0]). split; [|reflexivity].
    unfold str_pop_back. destruct ((s ++ [c]) ++ [0]) eqn:E; [now destruct s|].
    rewrite <- E, removelast_last. apply set_last_snoc.
  - exact erase_spec.
  - intros b s n c H Hn. rewrite (resize_with_spec b s n c H).
    destruct (Nat.ltb_spec (length s) n); [lia|]. rewrite app_nil_r. reflexivity.
  - intros. split; [now apply find_char_spec | now apply rfind_char_spec].
  - exact find_c_spec.
  - exact find_spec.
  - exact find_first_of_spec.
  - intros b s c H T. inversion T as [|x l (Hx & Hr) _]; subst. now apply find_last_of_spec.
  - intros a s b t Ts Tt Ha Hb. unfold str_eq, str_lt.
    rewrite (holds_text _ _ Ts Ha), (holds_text _ _ Tt Hb), (holds_length _ _ Ha), (holds_length _ _ Hb).
    split; [|split].
    + destruct (Nat.eqb_spec (length s) (length t)); [apply text_eq_spec|].
      split; [discriminate | intros ->; congruence].
    + now apply text_lt_total.
    + now apply text_lt_lex.
  - intros a s b t c u Ts Tt Tu Ha Hb Hc. unfold str_lt.
    rewrite (holds_text _ _ Ts Ha), (holds_text _ _ Tt Hb), (holds_text _ _ Tu Hc).
    split; [apply text_lt_irrefl | now apply text_lt_trans].
Qed.
Print Assumptions C60_string_partial.
(** "path/to/x" *)
Example C60_demo :
  let b := str_of [112; 97; 116; 104; 47; 116; 111; 47; 120] in
  str_find_char b 47 0 = Some 4%nat /\ str_rfind_c b [47] 0 = Some 7%nat /\
  str_substr b 5 (Some 2%nat) = [116; 111; 0] /\
  str_insert (fun _ => 77) b (Some 4%nat) (str_of [115]) = str_of [112; 97; 116; 104; 115; 47; 116; 111; 47; 120] /\
  str_erase b 4 None = [112; 97; 116; 104; 0] /\ str_lt b (str_of [113]) = true.
Proof. repeat split; reflexivity. Qed.
