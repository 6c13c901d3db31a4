(** Model of FUtils/FUUniqueStringMap.h and .cpp (char instantiation). *)
From Coq Require Import List ZArith Bool.
From Verif Require Import TextModel.
Import ListNotations.
Local Open Scope Z_scope.

(** FUUniqueStringMap.h:28, NumberMap: an fm::map from a suffix to itself, represented by its keys in
    iteration order (ascending; fm::map is a finite map iterated in key order, C01 and C02). *)
Definition numbers := list Z.
(** FUUniqueStringMap.h:29-31, StringMap values: an fm::map from prefixes to NumberMaps.  Only find and
    insert are used on it, so the iteration order is not represented; the first entry of a prefix counts. *)
Definition names := list (list Z * numbers).

(** Equality of fm::stringT, FUString.h operator==. *)
Fixpoint str_eqb (a b : list Z) : bool :=
  match a, b with
  | [], [] => true
  | x :: a', y :: b' => (x =? y) && str_eqb a' b'
  | _, _ => false
  end.

(** values.find(prefix), FUUniqueStringMap.cpp:37, 74, 85; an absent prefix has no numbers. *)
Fixpoint lookup (m : names) (p : list Z) : numbers :=
  match m with
  | [] => []
  | (q, ns) :: m' => if str_eqb p q then ns else lookup m' p
  end.
(** The effect of changing itV->second (inserting the prefix first when absent), lines 38-42, 65, 88. *)
Fixpoint update (m : names) (p : list Z) (ns : numbers) : names :=
  match m with
  | [] => [(p, ns)]
  | (q, ms) :: m' => if str_eqb p q then (q, ns) :: m' else (q, ms) :: update m' p ns
  end.

(** NumberMap find / insert / erase by key. *)
Definition num_mem (n : Z) (ns : numbers) : bool := existsb (Z.eqb n) ns.
Fixpoint num_insert (n : Z) (ns : numbers) : numbers :=
  match ns with
  | [] => [n]
  | k :: ns' => if n <? k then n :: ns else if n =? k then ns else k :: num_insert n ns'
  end.
Definition num_erase (n : Z) (ns : numbers) : numbers := filter (fun k => negb (n =? k)) ns.

(** ~(uint32)0, the suffix of a string without final digits; FUUniqueStringMap.cpp:27. *)
Definition NO_SUFFIX : Z := 4294967295.

(** The loop of FUUniqueStringMap.cpp:19-23 seen from the end of the string: [r] is the string
    reversed; prefix.erase(len-1, len) (FUString.h, erase) removes the last character. *)
Fixpoint drop_digits (r : list Z) : list Z :=
  match r with
  | [] => []
  | c :: r' => if digit c then drop_digits r' else r
  end.
(** FUUniqueStringMap.cpp:13-29, SplitString. *)
Definition SplitString (str : list Z) : list Z * Z :=
  let prefix := rev (drop_digits (rev str)) in
  let offset := length prefix in
  (prefix, if (offset =? length str)%nat then NO_SUFFIX else fst (ToUInt32 (skipn offset str))).

(** FUUniqueStringMap.cpp:47-56: the new suffix when the wanted one is taken.  [rev ns] lists the keys
    from last() downwards; when the only key is NO_SUFFIX, --itN reaches end() whose value-initialised
    entry has first = 0, and line 55 overwrites the 2 assigned by line 54. *)
Definition fresh_suffix (ns : numbers) : Z :=
  match rev ns with
  | [] => 1  (* not reached: the wanted suffix is in the map *)
  | k :: before =>
      if negb (k =? NO_SUFFIX) then u32 (k + 1)
      else match before with
           | [] => u32 (0 + 1)
           | k2 :: _ => u32 (k2 + 1)
           end
  end.

(** FUUniqueStringMap.cpp:31-66, insert: the new value of the caller's string and the new map. *)
Definition insert (m : names) (wantedStr : list Z) : list Z * names :=
  let '(prefix, suffix) := SplitString wantedStr in
  let ns := lookup m prefix in
  if num_mem suffix ns then
    let suffix' := fresh_suffix ns in
    (prefix ++ append_u32 suffix', update m prefix (num_insert suffix' ns))
  else (wantedStr, update m prefix (num_insert suffix ns)).

(** FUUniqueStringMap.cpp:68-77, contains. *)
Definition contains (m : names) (str : list Z) : bool :=
  let '(prefix, suffix) := SplitString str in num_mem suffix (lookup m prefix).

(** FUUniqueStringMap.cpp:79-90, erase. *)
Definition erase (m : names) (str : list Z) : names :=
  let '(prefix, suffix) := SplitString str in
  match lookup m prefix with
  | [] => m  (* absent prefix, or nothing to remove *)
  | ns => update m prefix (num_erase suffix ns)
  end.

(** Histories of calls on one map. *)
Inductive map_op := Insert (s : list Z) | Erase (s : list Z).
Definition apply_op (m : names) (o : map_op) : names :=
  match o with Insert s => snd (insert m s) | Erase s => erase m s end.
Definition run (h : list map_op) : names := fold_left apply_op h [].
(** The strings handed out by a sequence of insertions. *)
Fixpoint insert_all (m : names) (ss : list (list Z)) : list (list Z) :=
  match ss with
  | [] => []
  | s :: ss' => let '(s', m') := insert m s in s' :: insert_all m' ss'
  end.
