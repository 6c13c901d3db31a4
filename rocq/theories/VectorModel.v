(** Model of [fm::vector<T>] for trivially copyable [T], FCollada/FMath/FMArray.h.

    The heap buffer is a list of cells, [None] being an uninitialised cell; its length is the
    allocated capacity ([reserved]).  Every access to the buffer is bounds checked and the outcome
    [None] of an operation means that memory outside the buffer (or a released buffer) is accessed.
    Indices stand for iterators ([begin() + index]).
    Not modelled: allocation failure, the INT_MAX sanity check of reserve (FMArray.h:311, no effect
    in release), 64-bit overflow of sizes, and element types with constructors/destructors (see
    [lifetime] below for the part concerning constructor/destructor balance). *)
From Coq Require Import List Arith Bool.
Import ListNotations.

Section VectorModel.
Context {T : Type}.

(** FMArray.h:48-50: [heapBuffer] (of length [reserved]) and [sized]. *)
Record vec := { buf : list (option T); sized : nat }.

(** FMArray.h:61, default constructor. *)
Definition empty_vec : vec := {| buf := []; sized := 0 |}.

(** FMArray.h:359, capacity(). *)
Definition capacity (v : vec) : nat := length (buf v).

(** FMArray.h:156,187,333,388,471,531: the source block of a memmove/memcpy. *)
Definition slice (b : list (option T)) (src n : nat) : option (list (option T)) :=
  if src + n <=? length b then Some (firstn n (skipn src b)) else None.

(** FMArray.h:156,187,333,388,471,531,553: storing a block of cells at [dst]. *)
Definition blit (b : list (option T)) (dst : nat) (xs : list (option T)) : option (list (option T)) :=
  if dst + length xs <=? length b
  then Some (firstn dst b ++ xs ++ skipn (dst + length xs) b) else None.

(** FMArray.h:156,187,388,471,531: memmove(dst, src, n * sizeof(T)). *)
Definition memmove (b : list (option T)) (dst src n : nat) : option (list (option T)) :=
  match slice b src n with
  | Some xs => blit b dst xs
  | None => None
  end.

(** FMArray.h:306-354, reserve (truncates when [count < sized]). *)
Definition reserve (v : vec) (count : nat) : option vec :=
  if Nat.eqb (capacity v) count then Some v
  else
    let s := if count <? sized v then count else sized v in
    let newValues := repeat None count in
    match (if 0 <? s
           then match slice (buf v) 0 s with
                | Some xs => blit newValues 0 xs
                | None => None
                end
           else Some newValues) with
    | Some b => Some {| buf := b; sized := s |}
    | None => None
    end.

(** The [const T& item] argument: either an object outside the vector or a reference to the
    element at an index of the vector itself.  FMArray.h:376. *)
Inductive ref := Ext (x : T) | Own (i : nat).

(** FMArray.h:405: reading the referenced item.  [moved] tells whether the buffer it was taken
    from has been released meanwhile. *)
Definition deref (b : list (option T)) (moved : bool) (r : ref) : option (option T) :=
  match r with
  | Ext x => Some (Some x)
  | Own i => if moved then None else nth_error b i
  end.

(** FMArray.h:376-409, insert(iterator, const T&); 414 and 418 are its index/push_back forms. *)
Definition insert_ref (v : vec) (index : nat) (item : ref) : option vec :=
  if negb (index <=? sized v) then Some v
  else
    let full := Nat.eqb (sized v) (capacity v) in
    match (if full then reserve v (sized v + (if 31 <? sized v then 32 else sized v + 1))
           else Some v) with
    | None => None
    | Some v1 =>
        match (if index <? sized v1
               then memmove (buf v1) (index + 1) index (sized v1 - index)
               else Some (buf v1)) with
        | None => None
        | Some b =>
            match deref b full item with
            | None => None
            | Some x =>
                match blit b index [x] with
                | None => None
                | Some b' => Some {| buf := b'; sized := sized v1 + 1 |}
                end
            end
        end
    end.

(** FMArray.h:414, insert(size_t, const T&) with an outside object. *)
Definition insert (v : vec) (index : nat) (x : T) : option vec := insert_ref v index (Ext x).
(** FMArray.h:418, push_back. *)
Definition push_back (v : vec) (x : T) : option vec := insert_ref v (sized v) (Ext x).

(** FMArray.h:427-433, pop_back. *)
Definition pop_back (v : vec) : vec :=
  if 0 <? sized v then {| buf := buf v; sized := sized v - 1 |} else v.

(** FMArray.h:457-503, insert(iterator, count, item) with an outside object. *)
Definition insert_n (v : vec) (index count : nat) (x : T) : option vec :=
  if 0 <? count then
    if negb (index <=? sized v) then Some v
    else
      match (if capacity v <? sized v + count then reserve v (sized v + count) else Some v) with
      | None => None
      | Some v1 =>
          match (if index <? sized v1
                 then memmove (buf v1) (index + count) index (sized v1 - index)
                 else Some (buf v1)) with
          | None => None
          | Some b =>
              match blit b index (repeat (Some x) count) with
              | None => None
              | Some b' => Some {| buf := b'; sized := sized v1 + count |}
              end
          end
      end
  else Some v.

(** FMArray.h:517-556, insert(iterator, const T*, count) with values outside the vector. *)
Definition insert_range (v : vec) (index : nat) (values : list T) : option vec :=
  let count := length values in
  if 0 <? count then
    if negb (index <=? sized v) then Some v
    else
      match (if capacity v <? sized v + count
             then reserve v (if 32 <? sized v + count - capacity v then sized v + count
                             else capacity v + 32)
             else Some v) with
      | None => None
      | Some v1 =>
          match (if index <? sized v1
                 then memmove (buf v1) (index + count) index (sized v1 - index)
                 else Some (buf v1)) with
          | None => None
          | Some b =>
              match blit b index (map Some values) with
              | None => None
              | Some b' => Some {| buf := b'; sized := sized v1 + count |}
              end
          end
      end
  else Some v.

(** FMArray.h:148-168, erase(iterator); 212 is its index form. *)
Definition erase (v : vec) (index : nat) : option vec :=
  if negb (index <? sized v) then Some v
  else
    match (if 0 <? sized v - index - 1
           then memmove (buf v) index (index + 1) (sized v - index - 1)
           else Some (buf v)) with
    | None => None
    | Some b => Some {| buf := b; sized := sized v - 1 |}
    end.

(** FMArray.h:175-198 and 203, erase(first, last); [sized -= last - first] is a wrap-around
    subtraction of a pointer difference, so [last < first] increases [sized]. *)
Definition erase_range (v : vec) (first last : nat) : option vec :=
  if negb (first <? sized v) then Some v
  else if negb ((0 <? last) && (last <=? sized v)) then Some v
  else
    match (if 0 <? sized v - last
           then memmove (buf v) first last (sized v - last)
           else Some (buf v)) with
    | None => None
    | Some b => Some {| buf := b; sized := sized v + first - last |}
    end.

(** FMArray.h:280-297, resize(count, value). *)
Definition resize (v : vec) (count : nat) (x : T) : option vec :=
  match reserve v count with
  | None => None
  | Some v1 =>
      if sized v1 <? count then
        match blit (buf v1) (sized v1) (repeat (Some x) (count - sized v1)) with
        | None => None
        | Some b => Some {| buf := b; sized := count |}
        end
      else Some v1
  end.

(** FMArray.h:258-275, resize(count): [sized = reserved], the new cells keep whatever they hold. *)
Definition resize_raw (v : vec) (count : nat) : option vec :=
  match reserve v count with
  | None => None
  | Some v1 => Some {| buf := buf v1; sized := capacity v1 |}
  end.

(** FMArray.h:300, clear. *)
Definition clear (v : vec) : option vec := reserve v 0.

(** FMArray.h:599-619, operator= from another vector with the given visible elements. *)
Definition assign (v : vec) (rhs : list T) : option vec :=
  match resize_raw v (length rhs) with
  | None => None
  | Some v1 =>
      match blit (buf v1) 0 (map Some rhs) with
      | None => None
      | Some b => Some {| buf := b; sized := sized v1 |}
      end
  end.

(** FMArray.h:579 followed by an assignment through the returned reference: [v[i] = x]
    (the size check is an assertion without fallback, so only the buffer bounds matter). *)
Definition set (v : vec) (index : nat) (x : T) : option vec :=
  match blit (buf v) index [Some x] with
  | None => None
  | Some b => Some {| buf := b; sized := sized v |}
  end.

(** FMArray.h:577-580: reading [v[i]]: [None] outside the buffer, [Some None] uninitialised. *)
Definition get (v : vec) (index : nat) : option (option T) := nth_error (buf v) index.

(** FMArray.h:364-370: the visible elements [[begin(), end())]. *)
Definition contents (v : vec) : list (option T) := firstn (sized v) (buf v).

(** FMArray.h:329-343: number of elements a push_back copies to a new buffer. *)
Definition push_cost (v : vec) : nat := if Nat.eqb (sized v) (capacity v) then sized v else 0.

(** FMArray.h:418: pushing a list of values one by one, counting copied elements. *)
Fixpoint push_all (v : vec) (xs : list T) : option (vec * nat) :=
  match xs with
  | [] => Some (v, 0)
  | x :: xs' =>
      match push_back v x with
      | None => None
      | Some v' => match push_all v' xs' with
                   | Some (v'', c) => Some (v'', push_cost v + c)
                   | None => None
                   end
      end
  end.

End VectorModel.
Arguments vec : clear implicits.
Arguments ref : clear implicits.

(** Constructor/destructor balance for element types that are not trivially copyable.
    The state is (size, capacity, constructed-and-not-destroyed copies made by the vector). *)
Record lifetime := { lf_size : nat; lf_cap : nat; lf_alive : nat }.
(** FMArray.h:61, default constructor. *)
Definition lf_empty : lifetime := {| lf_size := 0; lf_cap := 0; lf_alive := 0 |}.
(** FMArray.h:306-354, reserve: elements beyond [count] are popped (321, destructor at 431);
    the others are copy-constructed into the new buffer (339) and the old buffer is released
    without running the destructors of the old copies (347-350). *)
Definition lf_reserve (s : lifetime) (count : nat) : lifetime :=
  if Nat.eqb (lf_cap s) count then s
  else let n := Nat.min (lf_size s) count in
       {| lf_size := n; lf_cap := count; lf_alive := lf_alive s - (lf_size s - n) + n |}.
(** FMArray.h:376-409, push_back: possibly reserve, then one construction. *)
Definition lf_push_back (s : lifetime) : lifetime :=
  let s1 := if Nat.eqb (lf_size s) (lf_cap s)
            then lf_reserve s (lf_size s + (if 31 <? lf_size s then 32 else lf_size s + 1)) else s in
  {| lf_size := lf_size s1 + 1; lf_cap := lf_cap s1; lf_alive := lf_alive s1 + 1 |}.
(** FMArray.h:427-433, pop_back. *)
Definition lf_pop_back (s : lifetime) : lifetime :=
  if 0 <? lf_size s
  then {| lf_size := lf_size s - 1; lf_cap := lf_cap s; lf_alive := lf_alive s - 1 |} else s.
(** FMArray.h:94-107, destructor: one destructor call per element; the result is the number of
    copies that are never destroyed. *)
Definition lf_leaked (s : lifetime) : nat := lf_alive s - lf_size s.
