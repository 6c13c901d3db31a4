(** Model of the text/number conversions of FUtils/FUStringConversion.{h,hpp,cpp} and of the number
    writers of FUtils/FUStringBuilder.{h,hpp,cpp}.

    A NUL-terminated C string is the list of its characters before the terminator; a character is its
    byte value 0..255 ([schar] gives the value of the signed type [char] of the Linux targets). The
    pointer into the string is the remaining suffix.  None of the modelled loops steps over the
    terminator, so the suffix representation loses nothing.  NULL pointers are not modelled. *)
From Coq Require Import List ZArith Bool Ascii String.
Import ListNotations.
Local Open Scope Z_scope.

(** Literal text (used in examples and for constants such as the '-' separators). *)
Fixpoint tx (s : string) : list Z :=
  match s with
  | EmptyString => []
  | String a s' => Z.of_nat (nat_of_ascii a) :: tx s'
  end.

(** Value of a byte read through the signed type [char] (FUtils/Platforms.h, x86 Linux ABI). *)
Definition schar (c : Z) : Z := if c <? 128 then c else c - 256.

(** The blank test [' ', '\t', '\r', '\n'] of FUStringConversion.hpp:36,64,124,140,292,297. *)
Definition ws4 (c : Z) : bool := (c =? 32) || (c =? 9) || (c =? 13) || (c =? 10).
(** The blank test [' ', '\t', '\n'] of FUStringConversion.hpp:49-50,150-151 (no carriage return). *)
Definition ws3 (c : Z) : bool := (c =? 32) || (c =? 9) || (c =? 10).
(** [c >= '0' && c <= '9'], FUStringConversion.hpp:44,145. *)
Definition digit (c : Z) : bool := (48 <=? c) && (c <=? 57).

(** [while ( *s != 0 && p( *s)) ++s], the loop shape of FUStringConversion.hpp:36,49,50,140,150,151. *)
Fixpoint skip_while (p : Z -> bool) (s : list Z) : list Z :=
  match s with
  | [] => []
  | c :: s' => if p c then skip_while p s' else s
  end.

(** *** Signed and unsigned 32-bit arithmetic *)
Definition in_int32 (z : Z) : bool := (-2147483648 <=? z) && (z <=? 2147483647).
Definition u32 (z : Z) : Z := z mod 4294967296.
Definition s32 (z : Z) : Z := (z + 2147483648) mod 4294967296 - 2147483648.

(** Signed overflow: [Strict] is the C++ standard (overflow is undefined behaviour, [None]);
    [Wrapping] is what two's complement hardware does (as with -fwrapv). *)
Inductive arith := Strict | Wrapping.
Definition norm (a : arith) (z : Z) : option Z :=
  match a with
  | Strict => if in_int32 z then Some z else None
  | Wrapping => Some (s32 z)
  end.

(** [val * 10 + c - '0'] in int arithmetic, left to right; FUStringConversion.hpp:44. *)
Definition int_step (a : arith) (val c : Z) : option Z :=
  match norm a (val * 10) with
  | Some t1 => match norm a (t1 + c) with
               | Some t2 => norm a (t2 - 48)
               | None => None
               end
  | None => None
  end.

(** The digit loop, FUStringConversion.hpp:42-47. *)
Fixpoint int_digits (a : arith) (val : Z) (s : list Z) : option (Z * list Z) :=
  match s with
  | [] => Some (val, [])
  | c :: s' => if digit c then match int_step a val c with
                               | Some v => int_digits a v s'
                               | None => None
                               end
               else Some (val, s)
  end.

(** FUStringConversion.hpp:29-53, ToInt32 (pointer advancing version): value and advanced pointer. *)
Definition ToInt32 (a : arith) (s : list Z) : option (Z * list Z) :=
  let s1 := skip_while ws4 s in
  let '(sign, s2) := match s1 with
                     | c :: s1' => if c =? 45 then (-1, s1') else (1, s1)
                     | [] => (1, s1)
                     end in
  match int_digits a 0 s2 with
  | Some (val, s3) =>
      match norm a (val * sign) with
      | Some v => Some (v, skip_while ws3 (skip_while (fun c => negb (ws3 c)) s3))
      | None => None
      end
  | None => None
  end.

(** The digit loop of ToUInt32, FUStringConversion.hpp:143-148 (unsigned arithmetic wraps). *)
Fixpoint uint_digits (val : Z) (s : list Z) : Z * list Z :=
  match s with
  | [] => (val, [])
  | c :: s' => if digit c then uint_digits (u32 (val * 10 + c - 48)) s' else (val, s)
  end.

(** FUStringConversion.hpp:133-154, ToUInt32 (pointer advancing version). *)
Definition ToUInt32 (s : list Z) : Z * list Z :=
  match s with
  | [] => (0, [])
  | _ => let '(val, s3) := uint_digits 0 (skip_while ws4 s) in
         (val, skip_while ws3 (skip_while (fun c => negb (ws3 c)) s3))
  end.

(** FUStringConversion.hpp:168-175: value of one hexadecimal character, [None] ends the loop. *)
Definition hex_val (c : Z) : option Z :=
  if (48 <=? c) && (c <=? 57) then Some (c - 48)
  else if (65 <=? c) && (c <=? 70) then Some (c + 10 - 65)
  else if (97 <=? c) && (c <=? 102) then Some (c + 10 - 97)
  else None.
Fixpoint hex_loop (count val : Z) (s : list Z) : Z * list Z :=
  match s with
  | [] => (val, [])
  | c :: s' => if count <=? 0 then (val, s)
               else match hex_val c with
                    | Some d => hex_loop (count - 1) (u32 (val * 16 + d)) s'
                    | None => (val, s)
                    end
  end.
(** FUStringConversion.hpp:157-179, HexToUInt32 (pointer advancing version). *)
Definition HexToUInt32 (count : Z) (s : list Z) : Z * list Z :=
  match s with
  | 48 :: x :: s' => if (x =? 120) || (x =? 88) then hex_loop count 0 s' else hex_loop count 0 s
  | _ => hex_loop count 0 s
  end.

(** *** Writers *)
(** Decimal digits of a non-negative number: the "%u"/"%i" conversions of the C library used by
    FUStringBuilder.cpp:34-53 (C standard 7.21.6.1: no leading zeros, "0" for zero). [fuel] is a
    recursion budget, the number itself always suffices. *)
Fixpoint dec_digits (fuel : nat) (n : Z) (acc : list Z) : list Z :=
  match fuel with
  | O => acc
  | S f => if n <? 10 then (48 + n) :: acc else dec_digits f (n / 10) ((48 + n mod 10) :: acc)
  end.
Definition dec (n : Z) : list Z := dec_digits (S (Z.to_nat (Z.log2 n))) n [].
(** FUStringBuilder.cpp:34-39, append(uint32). *)
Definition append_u32 (n : Z) : list Z := dec n.
(** FUStringBuilder.cpp:48-53, append(int32). *)
Definition append_i32 (n : Z) : list Z := if n <? 0 then 45 :: dec (- n) else dec n.
(** FUStringBuilder.cpp:41-46, append(uint64): the value is cast to unsigned int first. *)
Definition append_u64 (n : Z) : list Z := dec (u32 n).

(** FUStringBuilder.hpp:297-305, appendHex(uint8). *)
Definition hex_char (d : Z) : Z := if d <=? 9 then 48 + d else 65 + (d - 10).
Definition appendHex8 (i : Z) : list Z := [hex_char ((i / 16) mod 16); hex_char (i mod 16)].
(** FUStringBuilder.h:129, appendHex<T>: the bytes of the object in memory order; little-endian host. *)
Fixpoint appendHexT (size : nat) (i : Z) : list Z :=
  match size with
  | O => []
  | S k => appendHex8 (i mod 256) ++ appendHexT k (i / 256)
  end.

(** FUStringConversion.hpp:571-580, ToString(builder, Int32List); [b] is the builder's content. *)
Definition ToString_i32s (b : list Z) (values : list Z) : list Z :=
  match values with
  | [] => b
  | v :: vs => (match b with [] => b | _ => b ++ [32] end) ++ append_i32 v ++
               flat_map (fun x => 32 :: append_i32 x) vs
  end.
(** FUStringConversion.hpp:583-590, ToString(builder, const uint32 pointer, count). *)
Definition ToString_u32s (b : list Z) (values : list Z) : list Z :=
  match values with
  | [] => b
  | v :: vs => match b with
               | [] => append_u32 v ++ flat_map (fun x => 32 :: append_u32 x) vs
               | _ => b ++ flat_map (fun x => 32 :: append_u32 x) values
               end
  end.

(** *** Counting and lists *)
(** FUStringConversion.hpp:289-298, the loop of CountValues: skip blanks, count, skip a word.
    Structural version: [inword] tells whether the scan is inside the inner loop of line 297. *)
Fixpoint count_loop (inword : bool) (s : list Z) : nat :=
  match s with
  | [] => O
  | c :: s' => if ws4 c then count_loop false s'
               else if inword then count_loop true s' else S (count_loop true s')
  end.
(** FUStringConversion.hpp:284-301, CountValues; line 287 tests [*sz > 0] on a signed char. *)
Definition CountValues (s : list Z) : nat :=
  match s with
  | [] => O
  | c :: _ => if 0 <? schar c then count_loop false s else O
  end.

(** Overwrite element [i] (array[length] = ...). *)
Fixpoint upd {A} (l : list A) (i : nat) (x : A) : list A :=
  match l, i with
  | [], _ => []
  | _ :: l', O => x :: l'
  | y :: l', S i' => y :: upd l' i' x
  end.

Section Lists.
(** The reader of one value: [fun s => Some (ToUInt32 s)] or [ToInt32 a]; [None] is undefined
    behaviour inside the reader. *)
Context {V : Type}.
Variable read : list Z -> option (V * list Z).

(** FUStringConversion.hpp:337 / 356 / 375: overwrite the existing elements while text is left. *)
Fixpoint list_fill (todo : nat) (len : nat) (arr : list V) (s : list Z)
  : option (nat * list V * list Z) :=
  match todo with
  | O => Some (len, arr, s)
  | S t => match s with
           | [] => Some (len, arr, s)
           | _ => match read s with
                  | Some (v, s') => list_fill t (S len) (upd arr len v) s'
                  | None => None
                  end
           end
  end.
(** FUStringConversion.hpp:342 / 361 / 380: append the remaining values. [None] also when [fuel]
    iterations were not enough (excluded by the theorems). *)
Fixpoint list_push (fuel : nat) (len : nat) (arr : list V) (s : list Z) : option (nat * list V) :=
  match s with
  | [] => Some (len, arr)
  | _ => match fuel with
         | O => None
         | S f => match read s with
                  | Some (v, s') => list_push f (S len) (arr ++ [v]) s'
                  | None => None
                  end
         end
  end.
(** FUStringConversion.hpp:330-345 ToInt32List, 348-364 ToUInt32List, 367-383 ToFloatList (same
    body): [old] is the previous content of the output array. reserve (341) has no effect on the
    content since oldLength + count is at least the size. *)
Definition ToList (s : list Z) (old : list V) : option (list V) :=
  match s with
  | [] => Some []
  | _ => match list_fill (List.length old) O old s with
         | Some (len, arr, s') =>
             match list_push (List.length s') len arr s' with
             | Some (len', arr') => Some (firstn len' arr')
             | None => None
             end
         | None => None
         end
  end.
End Lists.

Definition ToUInt32List (s : list Z) (old : list Z) : option (list Z) :=
  ToList (fun s => Some (ToUInt32 s)) s old.
Definition ToInt32List (a : arith) (s : list Z) (old : list Z) : option (list Z) :=
  ToList (ToInt32 a) s old.

(** *** Interleaved lists, FUStringConversion.hpp:436-482; an array pointer may be NULL ([None]). *)
(** Lines 445-450: one row into existing elements; writing outside an array is undefined behaviour. *)
Fixpoint il_set_row (count : nat) (arrays : list (option (list Z))) (s : list Z)
  : option (list (option (list Z)) * list Z) :=
  match arrays with
  | [] => Some ([], s)
  | a :: rest =>
      match s with
      | [] => Some (arrays, s)
      | _ => let '(v, s') := ToUInt32 s in
             match a with
             | None => match il_set_row count rest s' with
                       | Some (r, s'') => Some (None :: r, s'')
                       | None => None
                       end
             | Some l => if (count <? List.length l)%nat
                         then match il_set_row count rest s' with
                              | Some (r, s'') => Some (Some (upd l count v) :: r, s'')
                              | None => None
                              end
                         else None
             end
      end
  end.
(** Lines 443-451. *)
Fixpoint il_set (todo count : nat) (arrays : list (option (list Z))) (s : list Z)
  : option (nat * list (option (list Z)) * list Z) :=
  match todo with
  | O => Some (count, arrays, s)
  | S t => match s with
           | [] => Some (count, arrays, s)
           | _ => match il_set_row count arrays s with
                  | Some (arrays', s') => il_set t (S count) arrays' s'
                  | None => None
                  end
           end
  end.
(** Lines 466-472: append one row; the boolean tells whether the row was complete. *)
Fixpoint il_push_row (arrays : list (option (list Z))) (s : list Z)
  : list (option (list Z)) * list Z * bool :=
  match arrays with
  | [] => ([], s, true)
  | a :: rest =>
      match s with
      | [] => (arrays, s, false)
      | _ => let '(v, s') := ToUInt32 s in
             let '(r, s'', full) := il_push_row rest s' in
             (match a with None => None | Some l => Some (l ++ [v]) end :: r, s'', full)
      end
  end.
(** Lines 464-474. *)
Fixpoint il_push (fuel valid : nat) (arrays : list (option (list Z))) (s : list Z)
  : option (nat * list (option (list Z))) :=
  match s with
  | [] => Some (valid, arrays)
  | _ => match fuel with
         | O => None
         | S f => let '(arrays', s', full) := il_push_row arrays s in
                  il_push f (if full then S valid else valid) arrays' s'
         end
  end.
(** Line 480, resize(validCount): growing would expose uninitialized elements ([None]). *)
Definition il_resize (n : nat) (a : option (list Z)) : option (option (list Z)) :=
  match a with
  | None => Some None
  | Some l => if (n <=? List.length l)%nat then Some (Some (firstn n l)) else None
  end.
Fixpoint all_some {A} (l : list (option A)) : option (list A) :=
  match l with
  | [] => Some []
  | None :: _ => None
  | Some x :: l' => match all_some l' with Some r => Some (x :: r) | None => None end
  end.
(** FUStringConversion.hpp:436-482, ToInterleavedUInt32List; arrays[0] is dereferenced (442). *)
Definition ToInterleavedUInt32List (s : list Z) (arrays : list (option (list Z)))
  : option (list (option (list Z))) :=
  match s, arrays with
  | [], _ | _, [] => all_some (map (il_resize 0) arrays)
  | _, None :: _ => None
  | _, Some l0 :: _ =>
      match il_set (List.length l0) 0 arrays s with
      | Some (valid, arrays1, s1) =>
          match il_push (List.length s1) valid arrays1 s1 with
          | Some (valid2, arrays2) => all_some (map (il_resize valid2) arrays2)
          | None => None
          end
      | None => None
      end
  end.

(** *** Word lists *)
(** [while ( *s != 0 && p( *s)) ++s] also keeping the characters passed over. *)
Fixpoint span (p : Z -> bool) (s : list Z) : list Z * list Z :=
  match s with
  | [] => ([], [])
  | c :: s' => if p c then let '(w, r) := span p s' in (c :: w, r) else ([], s)
  end.
(** FUStringConversion.cpp:135-148: the loop of ToStringList. Existing entries are appended to (143). *)
Fixpoint words_loop (fuel : nat) (index : nat) (arr : list (list Z)) (s : list Z)
  : option (nat * list (list Z)) :=
  match s with
  | [] => Some (index, arr)
  | _ => match fuel with
         | O => None
         | S f => let '(w, s1) := span (fun c => negb (ws4 c)) s in
                  let arr' := if (index <? List.length arr)%nat
                              then upd arr index (nth index arr [] ++ w) else arr ++ [w] in
                  words_loop f (S index) arr' (skip_while ws4 s1)
         end
  end.
(** FUStringConversion.cpp:129-150, ToStringList (104-127, ToFStringList, is the same text). *)
Definition ToStringList (s : list Z) (old : list (list Z)) : option (list (list Z)) :=
  let s1 := skip_while ws4 s in
  match words_loop (List.length s1) O old s1 with
  | Some (index, arr) => Some (firstn index arr)
  | None => None
  end.

(** *** Dates *)
(** FUDateTime.h:24-35. *)
Record datetime := { year : Z; month : Z; day : Z; hour : Z; minutes : Z; seconds : Z }.
(** "%02u" / "%04u" of the C library: the decimal digits padded with zeros to width [w]. *)
Definition pad (w : nat) (n : Z) : list Z :=
  repeat 48 (w - List.length (dec n)) ++ dec n.
(** FUStringConversion.cpp:78-84: snprintf with a 21 byte buffer keeps 20 characters. *)
Definition ToString_date (d : datetime) : list Z :=
  firstn 20 (pad 4 (year d) ++ [45] ++ pad 2 (month d) ++ [45] ++ pad 2 (day d) ++ [84] ++
             pad 2 (hour d) ++ [58] ++ pad 2 (minutes d) ++ [58] ++ pad 2 (seconds d) ++ [90]).
(** FUStringConversion.hpp:195-211, ToDateTime. *)
Definition ToDateTime (s : list Z) (d : datetime) : datetime :=
  if Nat.eqb (List.length s) 20 then
    {| year := fst (ToUInt32 s); month := fst (ToUInt32 (skipn 5 s));
       day := fst (ToUInt32 (skipn 8 s)); hour := fst (ToUInt32 (skipn 11 s));
       minutes := fst (ToUInt32 (skipn 14 s)); seconds := fst (ToUInt32 (skipn 17 s)) |}
  else d.

(** *** Versions *)
(** FCDocument/FCDVersion.h:34-36. *)
Record version := { major : Z; minor : Z; revision : Z }.
(** FCDVersion.cpp:34 / 36: advance to the next '.' and over it. *)
Definition next_part (s : list Z) : list Z :=
  match skip_while (fun c => negb (c =? 46)) s with
  | [] => []
  | _ :: s' => s'
  end.
(** FCDVersion.cpp:30-38, ParseVersionNumbers. *)
Definition ParseVersionNumbers (s : list Z) : version :=
  let s1 := next_part s in
  {| major := fst (ToUInt32 s); minor := fst (ToUInt32 s1); revision := fst (ToUInt32 (next_part s1)) |}.
(** FCDVersion.cpp:40-43. *)
Definition ver_equiv (a b : version) : bool :=
  (major a =? major b) && (minor a =? minor b) && (revision a =? revision b).
(** FCDVersion.cpp:45-52. *)
Definition ver_lt (a b : version) : bool :=
  if major a <? major b then true else if major b <? major a then false
  else if minor a <? minor b then true else if minor b <? minor a then false
  else revision a <? revision b.
(** FCDVersion.cpp:54-61. *)
Definition ver_le (a b : version) : bool :=
  if major a <? major b then true else if major b <? major a then false
  else if minor a <? minor b then true else if minor b <? minor a then false
  else revision a <=? revision b.
(** FCDVersion.h:77: [operator>] is [b <= *this]. *)
Definition ver_gt (a b : version) : bool := ver_le b a.
(** FCDVersion.h:82: [operator>=] is [b < *this]. *)
Definition ver_ge (a b : version) : bool := ver_lt b a.

(** *** Animation targets *)
(** FUStringConversion.cpp:210-223, SplitTarget: split at find_first_of the characters "([." .
    FUString.h:367-380, find_first_of, answers "not found" without looking when the buffer, which is one
    longer than the text, has fewer cells than the set has characters, here three. *)
Definition is_split (c : Z) : bool := (c =? 40) || (c =? 91) || (c =? 46).
Definition SplitTarget (target : list Z) : list Z * list Z :=
  if 3 <=? Z.of_nat (List.length target) + 1 then span (fun c => negb (is_split c)) target
  else (target, []).
(** FUStringConversion.cpp:225-241, ParseQualifier: recursion on the text replaces the while loop.
    [None] is undefined behaviour (overflow in ToInt32) or lack of fuel (excluded by theorem). *)
Fixpoint ParseQualifier_loop (a : arith) (fuel : nat) (s : list Z) : option Z :=
  match fuel with
  | O => None
  | S f =>
      match s with
      | c :: number =>
          if (c =? 40) || (c =? 91) then
            match skip_while digit number with
            | d :: _ as rest =>
                if (d =? 41) || (d =? 93)
                then match ToInt32 a number with Some (v, _) => Some v | None => None end
                else ParseQualifier_loop a f rest
            | [] => Some (-1)
            end
          else Some (-1)
      | [] => Some (-1)
      end
  end.
Definition ParseQualifier (a : arith) (s : list Z) : option Z :=
  ParseQualifier_loop a (S (List.length s)) s.
