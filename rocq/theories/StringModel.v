(** Model of fm::stringT<char> (FCollada/FUtils/FUString.h).
    A string object is its fm::vector of characters, here the list of the cells from begin() to end()
    (sizes and capacities of fm::vector are the subject of VectorModel.v; insertion of a string into
    itself, where buffers alias, is not modelled here).  The class intends the last cell to be the
    terminator 0, but the constructors and clear() also produce an object with no cell at all.
    Characters are signed char values.  [None] is an access outside the cells. *)
From Coq Require Import List ZArith Lia Bool.
Import ListNotations.
Local Open Scope Z_scope.

Definition buffer := list Z.

(** FUString.h:42: npos, all bits set; as a count or an end it is larger than every length, so here a
    count or an end is [None] for npos. *)
Definition npos_or (n : option nat) (default : nat) : nat := match n with Some k => k | None => default end.

(** FUString.h:53: the default constructor. *)
Definition str_default : buffer := [0].
(** FUString.h:64-68: constructor from a C string; [c] is the text before its terminator.  append
    resizes an object without cells to length + 1 and terminates it; the empty text is handled by the
    second statement. *)
Definition str_of (c : list Z) : buffer := c ++ [0].
(** FUString.h:74-93: constructor from the first [len] characters of a C string. *)
Definition str_of_n (c : list Z) (len : option nat) : buffer :=
  match len with
  | Some O => []
  | Some n => firstn (Nat.min n (length c)) c ++ [0]
  | None => str_of c
  end.
(** FUString.h:98-103: constructor repeating one character. *)
Definition str_fill (n : nat) (c : Z) : buffer := repeat c n ++ [0].

(** FUString.h:108-109: length() and size(). *)
Definition str_length (b : buffer) : nat := if (1 <? length b)%nat then length b - 1 else 0.
(** FUString.h:120: empty(). *)
Definition str_empty (b : buffer) : bool := (length b <=? 1)%nat.
(** FUString.h:114-115: back(), the cell two before end(). *)
Definition str_back (b : buffer) : option Z := if (2 <=? length b)%nat then nth_error b (length b - 2) else None.
(** The text a C function sees: FUString.h:203-208, c_str(), up to the first 0. *)
Fixpoint c_text (b : buffer) : list Z :=
  match b with [] => [] | c :: r => if c =? 0 then [] else c :: c_text r end.

(** Writing the last cell, *(end() - 1) = x: there must be one. *)
Definition set_last (b : buffer) (x : Z) : option buffer :=
  match b with [] => None | _ => Some (removelast b ++ [x]) end.
(** FUString.h:118: pop_back(). *)
Definition str_pop_back (b : buffer) : option buffer :=
  match b with [] => Some [] | _ => set_last (removelast b) 0 end.
(** fm::vector's push_back (FMArray.h:418), not overridden: it adds a cell after the terminator. *)
Definition str_push_back (b : buffer) (c : Z) : buffer := b ++ [c].
(** FMArray.h:300: clear(), not overridden: no cell is left. *)
Definition str_clear : buffer := [].

(** FUString.h:433-437: resize.  The contents of cells fm::vector adds are whatever the memory
    holds, [junk]. *)
Definition str_resize (junk : nat -> Z) (b : buffer) (n : nat) : buffer :=
  removelast (firstn (S n) (b ++ map junk (seq (length b) (S n - length b)))) ++ [0].
(** FUString.h:446-450: resize with a value. *)
Definition str_resize_with (b : buffer) (n : nat) (value : Z) : buffer :=
  removelast (firstn (S n) (b ++ repeat value (S n - length b))) ++ [0].

(** memmove or memcpy of [xs] to the cells from [dst]. *)
Definition blit (b : buffer) (dst : nat) (xs : list Z) : buffer :=
  firstn dst b ++ xs ++ skipn (dst + length xs) b.
(** FUString.h:163-180: insert of a C string whose text is [str]. *)
Definition str_insert_c (junk : nat -> Z) (b : buffer) (offset : option nat) (str : list Z) (count : option nat)
  : option buffer :=
  match str with
  | [] => Some b
  | _ =>
      let original := str_length b in
      let off := Nat.min (npos_or offset original) original in
      let n := Nat.min (npos_or count (length str)) (length str) in
      let b1 := str_resize junk b (original + n) in
      let b2 := if (off <? original)%nat
                then blit b1 (off + n) (firstn (original - off) (skipn off b1)) else b1 in
      set_last (blit b2 off (firstn n str)) 0
  end.
(** FUString.h:185-199: insert of another string object. *)
Definition str_insert (junk : nat -> Z) (b : buffer) (offset : option nat) (str : buffer) : buffer :=
  let n := str_length str in
  if (0 <? n)%nat then
    let original := str_length b in
    let off := Nat.min (npos_or offset original) original in
    let b1 := str_resize junk b (original + n) in
    let b2 := if (off <? original)%nat
              then blit b1 (off + n) (firstn (original - off) (skipn off b1)) else b1 in
    blit b2 off (firstn n str)
  else b.
(** FUString.h:133-136 and 142-145: the appends insert at npos. *)
Definition str_append (junk : nat -> Z) (b : buffer) (str : buffer) : buffer := str_insert junk b None str.
Definition str_append_c (junk : nat -> Z) (b : buffer) (str : list Z) : option buffer :=
  str_insert_c junk b None str None.
(** FUString.h:149-156: append of one character. *)
Definition str_append_char (b : buffer) (c : Z) : option buffer :=
  if c =? 0 then Some b else match set_last b c with Some b1 => Some (b1 ++ [0]) | None => None end.

(** FUString.h:130-135: substr; the pointer c_str() + start is passed on as the text there. *)
Definition str_substr (b : buffer) (start : nat) (count : option nat) : buffer :=
  if (str_length b <=? start)%nat then str_default
  else
    let n := match count with
             | None => str_length b - start
             | Some k => if (str_length b <? k + start)%nat then str_length b - start else k
             end%nat in
    str_of_n (c_text (skipn start b)) (Some n).

(** FUString.h:417-424: erase of a range; Parent::erase is fm::vector's. *)
Definition str_erase (b : buffer) (start : nat) (stop : option nat) : buffer :=
  let e := Nat.min (npos_or stop (str_length b)) (str_length b) in
  if (start <? str_length b)%nat && (start <? npos_or stop (S (str_length b)))%nat
  then firstn start b ++ skipn e b else b.

(** The searching loops: the first / the last index from [i], among the next [n], where [hit] holds. *)
Fixpoint scan_first (hit : nat -> bool) (i n : nat) : option nat :=
  match n with O => None | S m => if hit i then Some i else scan_first hit (S i) m end.
Fixpoint scan_last (hit : nat -> bool) (i n : nat) : option nat :=
  match n with
  | O => None
  | S m => match scan_last hit (S i) m with Some j => Some j | None => if hit i then Some i else None end
  end.
(** The cell *it; the loops keep the index below the number of cells. *)
Definition cell (b : buffer) (i : nat) : Z := nth i b 0.
(** FUString.h:216-226: find of a character: only characters greater than zero are searched for. *)
Definition str_find_char (b : buffer) (c : Z) (offset : nat) : option nat :=
  if 0 <? c then scan_first (fun i => cell b i =? c) offset (length b - offset) else None.
(** FUString.h:290-301: rfind of a character. *)
Definition str_rfind_char (b : buffer) (c : Z) (offset : nat) : option nat :=
  if 0 <? c then scan_last (fun i => cell b i =? c) offset (length b - offset) else None.
(** FUString.h:245-252 and 272-277: the inner comparison loop, ending at the end of either. *)
Fixpoint agrees (t b : list Z) : bool :=
  match t, b with
  | [], _ => true
  | _, [] => false
  | x :: t', y :: b' => if x =? y then agrees t' b' else false
  end.
(** FUString.h:234-256: find of a string object; the first-character test is part of the comparison.
    endIt leaves out a final 0 of the searched string. *)
Definition drop_last_zero (t : buffer) : list Z :=
  match rev t with z :: r => if z =? 0 then rev r else t | [] => [] end.
Definition str_find (b t : buffer) (offset : nat) : option nat :=
  if (0 <? str_length t)%nat && (str_length t <=? str_length b)%nat
  then scan_first (fun i => agrees (drop_last_zero t) (skipn i b)) offset (length b - str_length t + 1 - offset)
  else None.
(** FUString.h:309-332: rfind of a string object. *)
Definition str_rfind (b t : buffer) (offset : nat) : option nat :=
  if (0 <? str_length t)%nat && (str_length t <=? str_length b)%nat
  then scan_last (fun i => agrees (drop_last_zero t) (skipn i b)) offset (length b - str_length t + 1 - offset)
  else None.
(** FUString.h:263-283 and 339-360: find and rfind of a C string. *)
Definition str_find_c (b : buffer) (c : list Z) (offset : nat) : option nat :=
  if (0 <? length c)%nat && (length c <=? length b)%nat
  then scan_first (fun i => agrees c (skipn i b)) offset (length b - length c + 1 - offset) else None.
Definition str_rfind_c (b : buffer) (c : list Z) (offset : nat) : option nat :=
  if (0 <? length c)%nat && (length c <=? length b)%nat
  then scan_last (fun i => agrees c (skipn i b)) offset (length b - length c + 1 - offset) else None.
(** FUString.h:371-376: *it is among the characters of the C string [c]. *)
Definition among (c : list Z) (x : Z) : bool := existsb (fun d => d =? x) c.
(** FUString.h:367-380: find_first_of. *)
Definition str_find_first_of (b : buffer) (c : list Z) (offset : nat) : option nat :=
  if (0 <? length c)%nat && (length c <=? length b)%nat
  then scan_first (fun i => among c (cell b i)) offset (length b - offset) else None.
(** FUString.h:387-407: find_last_of.  [it] runs down from end() - (set size + offset); [ret], the
    value returned, starts at length() - offset; it is a size_t, so it is a plain integer here and
    [offset] is at most length(). *)
Fixpoint last_of_loop (b : buffer) (c : list Z) (it : nat) (ret : Z) : option Z :=
  if among c (cell b it) then Some ret
  else match it with O => None | S k => last_of_loop b c k (ret - 1) end.
Definition str_find_last_of (b : buffer) (c : list Z) (offset : nat) : option Z :=
  if (0 <? length c)%nat && (length c <=? length b)%nat then
    if (length c + offset <=? length b)%nat
    then last_of_loop b c (length b - (length c + offset)) (Z.of_nat (str_length b) - Z.of_nat offset)
    else None
  else None.

(** FUString.h:477-482: operator<, on the C texts; the comparison of the two characters reached, where
    the end of a text is 0. *)
Fixpoint text_lt (a b : list Z) : bool :=
  match a, b with
  | [], [] => false
  | [], y :: _ => 0 <? y
  | x :: _, [] => x <? 0
  | x :: a', y :: b' => if x =? y then text_lt a' b' else x <? y
  end.
Definition str_lt (a b : buffer) : bool := text_lt (c_text a) (c_text b).
(** FUString.h:488-494: operator==. *)
Fixpoint text_eq (a b : list Z) : bool :=
  match a, b with
  | [], [] => true
  | x :: a', y :: b' => if x =? y then text_eq a' b' else false
  | _, _ => false
  end.
Definition str_eq (a b : buffer) : bool :=
  if (str_length a =? str_length b)%nat then text_eq (c_text a) (c_text b) else false.
