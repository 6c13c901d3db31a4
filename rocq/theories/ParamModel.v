(** Animatable list parameters (FCollada/FCDocument/FCDParameterAnimatable.h, .hpp, .cpp:143-281): a list of values
    of which some have an animation helper ([FCDAnimated]) with the index of the value ("array element"), a pointer to
    the value and possibly a curve.
    The value vector is a list of values with its capacity and the identity of its buffer, a new one after each
    reallocation (FMArray.h:306-354; the growth rules of FMArray.h are those of VectorModel.v).  [None] as a value is a
    float never written (FMArray.h:273).  A pointer is a buffer identity and an index.
    The outcome [None] of an operation stands for undefined behaviour (a write through a pointer whose buffer is gone,
    the address of a value that does not exist, a helper that was released) and for the endless loop of OnRemoval.
    Simplified: one component and one pointer per value (OnPotentialSizeChange sets the pointers of all components
    alike, hpp:216-219); at most one curve, given by the result of its evaluation; vector functions are used as in
    C05, that is as operations on lists; array elements are unbounded integers, whereas offsets are cast to int32
    as in the code.  Not modelled: change flags of the parent, GetDataList/GetDataPtr, SetArrayElement called from
    outside, arguments that refer into the list. *)
From Coq Require Import List ZArith Bool Arith.
Import ListNotations.

(** FCDAnimated.h: a helper with its identity, [arrayElement], [values[0]] and whether it has a curve. *)
Record animated := { aid : nat; element : Z; ptr : nat * nat; curve : bool }.
(** FCDParameterAnimatable.h:140-149, 214-217: the members of a list parameter. *)
Record param := { values : list (option Z); reserved : nat; block : nat; fresh : nat;
                  animateds : list animated; next : nat }.

(** Conversions between 64-bit sizes and 32-bit integers, used at FCDParameterAnimatable.cpp:161-238. *)
Definition to_int32 (z : Z) : Z := ((z + 2147483648) mod 4294967296 - 2147483648)%Z.
Definition size_t (z : Z) : Z := (z mod 18446744073709551616)%Z.

(** FCDParameterAnimatable.cpp:222-235, BinarySearch, given [(int32) arrayElementIndex].  [fuel] bounds the number of
    rounds; one more than the number of helpers is enough (see bs_spec). *)
Fixpoint bs (fuel : nat) (l : list animated) (start stop : nat) (t : Z) : nat :=
  let mid := (stop + start) / 2 in
  match fuel with
  | O => mid
  | S fuel =>
      if start <? stop then
        match nth_error l mid with
        | None => mid
        | Some a => if (element a <? t)%Z then bs fuel l (mid + 1) stop t
                    else if (t <? element a)%Z then bs fuel l start mid t
                    else mid
        end
      else mid
  end.
Definition BinarySearch (l : list animated) (index : Z) : nat := bs (S (length l)) l 0 (length l) (to_int32 index).

(** FCDAnimated.h:229, SetArrayElement; 158, SetValue. *)
Definition SetArrayElement (a : animated) (e : Z) : animated :=
  {| aid := aid a; element := e; ptr := ptr a; curve := curve a |}.
Definition SetValue (a : animated) (p : nat * nat) : animated :=
  {| aid := aid a; element := element a; ptr := p; curve := curve a |}.

(** FCDParameterAnimatable.cpp:191-200, OnInsertion. *)
Definition OnInsertion (offset count : Z) (l : list animated) : list animated :=
  let i := BinarySearch l offset in
  firstn i l ++ map (fun a => if (element a <? to_int32 offset)%Z then a
                              else SetArrayElement a (element a + to_int32 count)%Z) (skipn i l).
(** FCDParameterAnimatable.cpp:205-211, the loop that releases the helpers from one place on; releasing removes the
    helper from the list.  The failed assertion of line 208 repeats the same round for ever. *)
Fixpoint release_loop (offset count : Z) (l : list animated) : option (list animated) :=
  match l with
  | [] => Some []
  | a :: r => if (element a <? to_int32 offset)%Z then None
              else if (to_int32 (size_t (offset + count)) <=? element a)%Z then Some l
              else release_loop offset count r
  end.
(** FCDParameterAnimatable.cpp:202-220, OnRemoval. *)
Definition OnRemoval (offset count : Z) (l : list animated) : option (list animated) :=
  let i := BinarySearch l offset in
  match release_loop offset count (skipn i l) with
  | None => None
  | Some r =>
      let l := firstn i l ++ r in
      let j := BinarySearch l (size_t (offset + count)) in
      Some (firstn j l ++ map (fun a => if (element a <? to_int32 (size_t (offset + count)))%Z then a
                                        else SetArrayElement a (element a - to_int32 count)%Z) (skipn j l))
  end.

(** FCDParameterAnimatable.hpp:209-220, the loop that sets the pointers; it stops at a helper whose element does not
    exist. *)
Fixpoint set_pointers (b n : nat) (l : list animated) : list animated :=
  match l with
  | [] => []
  | a :: r => if ((0 <=? element a) && (element a <? Z.of_nat n))%Z
              then SetValue a (b, Z.to_nat (element a)) :: set_pointers b n r
              else l
  end.
(** FCDParameterAnimatable.hpp:194-221, OnPotentialSizeChange. *)
Definition OnPotentialSizeChange (p : param) : param :=
  match animateds p with
  | [] => p
  | a :: _ =>
      if ((0 <=? element a) && (element a <? Z.of_nat (length (values p))))%Z then
        if Nat.eqb (fst (ptr a)) (block p) && Nat.eqb (snd (ptr a)) (Z.to_nat (element a)) then p
        else {| values := values p; reserved := reserved p; block := block p; fresh := fresh p;
                animateds := set_pointers (block p) (length (values p)) (animateds p); next := next p |}
      else p
  end.

(** New values and helpers, the buffer staying where it is. *)
Definition with_values (p : param) (vs : list (option Z)) (l : list animated) : param :=
  {| values := vs; reserved := reserved p; block := block p; fresh := fresh p; animateds := l; next := next p |}.
(** FMArray.h:306-354, reserve of the vector, as far as the buffer is concerned. *)
Definition reserve (n : nat) (p : param) : param :=
  if Nat.eqb (reserved p) n then p
  else {| values := firstn n (values p); reserved := n; block := fresh p; fresh := S (fresh p);
          animateds := animateds p; next := next p |}.
(** FMArray.h:379-384, 522-527 and 462-467: room for one value, for a list of [n], for [n] times a value. *)
Definition room_one (p : param) : param :=
  let n := length (values p) in
  if Nat.eqb n (reserved p) then reserve (n + (if 31 <? n then 32 else n + 1)) p else p.
Definition room_list (n : nat) (p : param) : param :=
  let s := length (values p) in
  if reserved p <? s + n then reserve (if 32 <? s + n - reserved p then s + n else reserved p + 32) p else p.
Definition room_count (n : nat) (p : param) : param :=
  let s := length (values p) in if reserved p <? s + n then reserve (s + n) p else p.
(** FMArray.h:376-409, 457-503, 517-556: insertion into the vector once there is room; an index behind the end is
    refused. *)
Definition vector_insert (i : nat) (vs : list (option Z)) (p : param) : param :=
  if i <=? length (values p) then with_values p (firstn i (values p) ++ vs ++ skipn i (values p)) (animateds p) else p.
Definition with_room (room : param -> param) (i : nat) (vs : list (option Z)) (p : param) : param :=
  if (i <=? length (values p)) && negb (Nat.eqb (length vs) 0) then vector_insert i vs (room p) else p.
(** FMArray.h:148-198: erasing a range of the vector, refused unless [first < size] and [0 < last <= size]. *)
Definition vector_erase (i j : nat) (p : param) : param :=
  if (i <? length (values p)) && (0 <? j) && (j <=? length (values p))
  then with_values p (firstn i (values p) ++ skipn j (values p)) (animateds p) else p.

(** FCDParameterAnimatable.hpp:68-96 and 146-153, the three insertions. *)
Definition insert_with (room : param -> param) (i : nat) (vs : list (option Z)) (p : param) : option param :=
  let p := with_room room i vs p in
  Some (OnPotentialSizeChange (with_values p (values p)
          (OnInsertion (Z.of_nat i) (Z.of_nat (length vs)) (animateds p)))).
(** FCDParameterAnimatable.hpp:98-105, 116-123 and 166-173: erasing one value (then [j = i + 1]), a range, the first. *)
Definition erase_range (i j : nat) (p : param) : option param :=
  let p := vector_erase i j p in
  match OnRemoval (Z.of_nat i) (size_t (Z.of_nat j - Z.of_nat i)) (animateds p) with
  | Some l => Some (OnPotentialSizeChange (with_values p (values p) l))
  | None => None
  end.
(** FMArray.h:125-130, find; reading a value never written is undefined. *)
Fixpoint find (v : Z) (vs : list (option Z)) : option nat :=
  match vs with
  | [] => Some 0
  | None :: _ => None
  | Some w :: vs => if (w =? v)%Z then Some 0 else match find v vs with Some i => Some (S i) | None => None end
  end.
(** FCDParameterAnimatable.hpp:108-113, erase(value). *)
Definition erase_value (v : Z) (p : param) : option param :=
  match find v (values p) with
  | None => None
  | Some i => if i <? length (values p)
              then match erase_range i (i + 1) p with Some p => Some (OnPotentialSizeChange p) | None => None end
              else Some (OnPotentialSizeChange p)
  end.
(** FCDParameterAnimatable.hpp:126-133, clear; FMArray.h:300, clear. *)
Definition clear (p : param) : option param :=
  match OnRemoval 0 (Z.of_nat (length (values p))) (animateds p) with
  | Some l => Some (OnPotentialSizeChange (reserve 0 (with_values p (values p) l)))
  | None => None
  end.
(** FCDParameterAnimatable.hpp:136-143, push_back. *)
Definition push_back (v : option Z) (p : param) : option param :=
  let l := OnInsertion (Z.of_nat (length (values p))) 1 (animateds p) in
  let p := with_values p (values p) l in
  Some (OnPotentialSizeChange (with_room room_one (length (values p)) [v] p)).
(** FCDParameterAnimatable.hpp:156-163, pop_back; FMArray.h:427-433. *)
Definition pop_back (p : param) : option param :=
  match OnRemoval (size_t (Z.of_nat (length (values p)) - 1)) 1 (animateds p) with
  | Some l => Some (OnPotentialSizeChange (with_values p (removelast (values p)) l))
  | None => None
  end.
(** FMArray.h:258-297: resizing the vector, the new values being [v]. *)
Definition vector_resize (n : nat) (v : option Z) (p : param) : param :=
  let p := reserve n p in with_values p (values p ++ repeat v (n - length (values p))) (animateds p).
(** FCDParameterAnimatable.hpp:176-182, resize(count). *)
Definition resize (n : nat) (p : param) : option param :=
  let s := length (values p) in
  match (if s <? n then Some (OnInsertion (Z.of_nat s) (Z.of_nat (n - s)) (animateds p))
         else if n <? s then OnRemoval (Z.of_nat n) (Z.of_nat (s - n)) (animateds p)
         else Some (animateds p)) with
  | Some l => Some (OnPotentialSizeChange (vector_resize n None (with_values p (values p) l)))
  | None => None
  end.
(** FCDParameterAnimatable.hpp:185-191, resize(count, value): line 188 passes [count - values.size()] as the offset and
    [values.size()] as the count. *)
Definition resize_value (n : nat) (v : Z) (p : param) : option param :=
  let s := length (values p) in
  match (if s <? n then Some (OnInsertion (Z.of_nat s) (Z.of_nat (n - s)) (animateds p))
         else if n <? s then OnRemoval (size_t (Z.of_nat n - Z.of_nat s)) (Z.of_nat s) (animateds p)
         else Some (animateds p)) with
  | Some l => Some (OnPotentialSizeChange (vector_resize n (Some v) (with_values p (values p) l)))
  | None => None
  end.
(** FCDParameterAnimatable.hpp:61-66, set: an index behind the end is undefined. *)
Fixpoint set_nth {A} (l : list A) (i : nat) (x : A) : list A :=
  match l, i with
  | [], _ => []
  | _ :: l, O => x :: l
  | y :: l, S i => y :: set_nth l i x
  end.
Definition set (i : nat) (v : Z) (p : param) : option param :=
  if i <? length (values p) then Some (with_values p (set_nth (values p) i (Some v)) (animateds p)) else None.

(** FCDParameterAnimatable.cpp:157-171, GetAnimated, with the helper returned; CreateAnimated, 247-281, takes the address
    of the value. *)
Definition GetAnimated (i : nat) (p : param) : option (param * nat) :=
  let mid := BinarySearch (animateds p) (Z.of_nat i) in
  let create :=
    if i <? length (values p) then
      let a := {| aid := next p; element := to_int32 (Z.of_nat i); ptr := (block p, i); curve := false |} in
      Some ({| values := values p; reserved := reserved p; block := block p; fresh := fresh p;
               animateds := firstn mid (animateds p) ++ a :: skipn mid (animateds p); next := S (next p) |}, next p)
    else None in
  match nth_error (animateds p) mid with
  | Some a => if (element a =? to_int32 (Z.of_nat i))%Z then Some (p, aid a) else create
  | None => create
  end.
(** FCDParameterAnimatable.cpp:173-189, IsAnimated(index) and IsAnimated(). *)
Definition IsAnimated (i : nat) (p : param) : bool :=
  match nth_error (animateds p) (BinarySearch (animateds p) (Z.of_nat i)) with
  | Some a => (element a =? to_int32 (Z.of_nat i))%Z && curve a
  | None => false
  end.
Definition IsAnimatedAny (p : param) : bool := existsb curve (animateds p).

(** Change the helper [h]; [None] if it is not alive. *)
Definition on_helper (h : nat) (f : animated -> animated) (p : param) : option param :=
  if existsb (fun a => Nat.eqb (aid a) h) (animateds p)
  then Some (with_values p (values p) (map (fun a => if Nat.eqb (aid a) h then f a else a) (animateds p)))
  else None.
(** FCDAnimated.cpp:83-89, AddCurve. *)
Definition AddCurve (h : nat) (p : param) : option param :=
  on_helper h (fun a => {| aid := aid a; element := element a; ptr := ptr a; curve := true |}) p.
(** FUObject.cpp, Release: the container forgets the helper. *)
Definition Release (h : nat) (p : param) : option param :=
  if existsb (fun a => Nat.eqb (aid a) h) (animateds p)
  then Some (with_values p (values p) (filter (fun a => negb (Nat.eqb (aid a) h)) (animateds p)))
  else None.
(** FCDAnimated.cpp:216-237, Evaluate of a helper whose curve has the value [x]: the value is written through the
    pointer. *)
Definition Evaluate (h : nat) (x : Z) (p : param) : option param :=
  match List.find (fun a => Nat.eqb (aid a) h) (animateds p) with
  | None => None
  | Some a =>
      if curve a then
        if Nat.eqb (fst (ptr a)) (block p) && (snd (ptr a) <? length (values p))
        then Some (with_values p (set_nth (values p) (snd (ptr a)) (Some x)) (animateds p))
        else None
      else Some p
  end.

(** *** Histories *)
Inductive op :=
| Set_ (i : nat) (v : Z) | Insert (i : nat) (v : Z) | InsertList (i : nat) (vs : list Z) | InsertCount (i n : nat) (v : Z)
| Erase (i : nat) | EraseValue (v : Z) | EraseRange (i j : nat) | Clear
| PushBack (v : Z) | PushFront (v : Z) | PopBack | PopFront | Resize (n : nat) | ResizeValue (n : nat) (v : Z)
| GetHelper (i : nat) | Curve (h : nat) | Free (h : nat) | Eval (h : nat) (x : Z).
(** FCDParameterAnimatable.hpp:61-191 and .cpp:157-171: one operation. *)
Definition step (p : param) (o : op) : option param :=
  match o with
  | Set_ i v => set i v p
  | Insert i v => insert_with room_one i [Some v] p
  | InsertList i vs => insert_with (room_list (length vs)) i (map Some vs) p
  | InsertCount i n v => insert_with (room_count n) i (repeat (Some v) n) p
  | Erase i => erase_range i (i + 1) p
  | EraseValue v => erase_value v p
  | EraseRange i j => erase_range i j p
  | Clear => clear p
  | PushBack v => push_back (Some v) p
  | PushFront v => insert_with room_one 0 [Some v] p
  | PopBack => pop_back p
  | PopFront => erase_range 0 1 p
  | Resize n => resize n p
  | ResizeValue n v => resize_value n v p
  | GetHelper i => match GetAnimated i p with Some (p, _) => Some p | None => None end
  | Curve h => AddCurve h p
  | Free h => Release h p
  | Eval h x => Evaluate h x p
  end.
Fixpoint run (p : param) (os : list op) : option param :=
  match os with
  | [] => Some p
  | o :: os => match step p o with Some p => run p os | None => None end
  end.
(** FCDParameterAnimatable.cpp:146-149, an empty list parameter. *)
Definition empty_param : param :=
  {| values := []; reserved := 0; block := 0; fresh := 1; animateds := []; next := 0 |}.
