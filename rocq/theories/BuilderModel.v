(** Model of the string builder, FUtils/FUStringBuilder.{h,hpp} (FUStringBuilderT<char>).

    Builders own blocks of a heap.  A block is the list of its cells, a cell is uninitialised ([None]) or
    holds a character (a byte value); a freed block is [None].  Every access is checked: a read or write
    outside a block, in a freed block, or through a NULL buffer gives [None] for the whole operation, and so
    does freeing a freed block.  Reading an uninitialised cell by memcpy copies it (as C++ does), reading it
    as a character gives [None].  Sizes are unbounded naturals (no wrap-around of size_t, no failing [new]);
    int32 parameters are integers, signed overflow is [None].  A text argument is a list of characters that
    lives outside the builders' own buffers.  The texts of numbers are modelled elsewhere (TextModel.v,
    FloatModel.v).  The build is a release build (the default constructor reserves 32 cells). *)
From Coq Require Import List ZArith Bool Arith.
Import ListNotations.

Notation cell := (option Z) (only parsing).
Definition heap := nat -> option (list cell).
(** FUStringBuilder.h:36-38, the members of a builder. *)
Record builder := { buffer : option nat; size : nat; reserved : nat }.
(** The heap, the next fresh address, the builders alive and the next builder identifier. *)
Record world := { mem : heap; fresh : nat; builders : nat -> option builder; count : nat }.

Definition put {A} (f : nat -> A) (i : nat) (x : A) : nat -> A := fun j => if j =? i then x else f j.
(** Memory and one builder under work. *)
Definition state := (heap * nat * builder)%type.

Fixpoint set_nth {A} (l : list A) (i : nat) (x : A) : list A :=
  match l, i with
  | [], _ => []
  | _ :: t, O => x :: t
  | y :: t, S i => y :: set_nth t i x
  end.

(** [buffer[i]], read and write. *)
Definition get_cell (m : heap) (p : option nat) (i : nat) : option cell :=
  match p with
  | Some a => match m a with Some blk => nth_error blk i | None => None end
  | None => None
  end.
Definition set_cell (m : heap) (p : option nat) (i : nat) (c : cell) : option heap :=
  match p with
  | Some a => match m a with
              | Some blk => if i <? length blk then Some (put m a (Some (set_nth blk i c))) else None
              | None => None
              end
  | None => None
  end.
(** The first [n] cells of a buffer (source of a memcpy); zero cells may be read from NULL. *)
Definition get_cells (m : heap) (p : option nat) (n : nat) : option (list cell) :=
  if n =? 0 then Some []
  else match p with
       | Some a => match m a with
                   | Some blk => if n <=? length blk then Some (firstn n blk) else None
                   | None => None
                   end
       | None => None
       end.
(** Write consecutive cells (destination of a memcpy). *)
Fixpoint set_cells (m : heap) (p : option nat) (i : nat) (cs : list cell) : option heap :=
  match cs with
  | [] => Some m
  | c :: cs => match set_cell m p i c with Some m => set_cells m p (S i) cs | None => None end
  end.
(** SAFE_DELETE_ARRAY, FUStringBuilder.hpp:22-24. *)
Definition delete_array (m : heap) (p : option nat) : option heap :=
  match p with
  | None => Some m
  | Some a => match m a with Some _ => Some (put m a None) | None => None end
  end.

(** FUStringBuilder.hpp:134-161, reserve.  The assertion of line 137 has no effect of its own. *)
Definition reserve (n : nat) (s : state) : option state :=
  let '(m, fr, b) := s in
  if reserved b <? n then
    let m1 := put m fr (Some (repeat None n)) in
    match get_cells m1 (buffer b) (size b) with
    | None => None
    | Some cs =>
        match set_cells m1 (Some fr) 0 cs with
        | None => None
        | Some m2 => match delete_array m2 (buffer b) with
                     | None => None
                     | Some m3 => Some (m3, S fr, {| buffer := Some fr; size := size b; reserved := n |})
                     end
        end
    end
  else if n =? 0 then
    match delete_array m (buffer b) with
    | None => None
    | Some m1 => Some (m1, fr, {| buffer := None; size := 0; reserved := 0 |})
    end
  else if n <? reserved b then
    let realSize := min (size b) n in
    let m1 := put m fr (Some (repeat None n)) in
    match get_cells m1 (buffer b) realSize with
    | None => None
    | Some cs =>
        match set_cells m1 (Some fr) 0 cs with
        | None => None
        | Some m2 => match delete_array m2 (buffer b) with
                     | None => None
                     | Some m3 => Some (m3, S fr, {| buffer := Some fr; size := realSize; reserved := n |})
                     end
        end
    end
  else Some s.
(** FUStringBuilder.hpp:122-126, enlarge. *)
Definition enlarge (minimum : nat) (s : state) : option state :=
  let '(_, _, b) := s in reserve (max (reserved b + minimum + 32) (2 * reserved b + 32)) s.

(** [buffer[size++] = c]. *)
Definition push (c : Z) (s : state) : option state :=
  let '(m, fr, b) := s in
  match set_cell m (buffer b) (size b) (Some c) with
  | Some m => Some (m, fr, {| buffer := buffer b; size := S (size b); reserved := reserved b |})
  | None => None
  end.
(** FUStringBuilder.hpp:163-169, append(Char). *)
Definition append_char (c : Z) (s : state) : option state :=
  let '(_, _, b) := s in
  match (if reserved b <=? size b + 1 then enlarge 2 s else Some s) with
  | Some s => push c s
  | None => None
  end.
(** FUStringBuilder.hpp:173-183, append(const Char pointer) (and line 172, append(String)). *)
Fixpoint append_text (t : list Z) (s : state) : option state :=
  match t with
  | [] => Some s
  | c :: t =>
      let '(_, _, b) := s in
      match (if reserved b <=? size b then enlarge 64 s else Some s) with
      | Some s => match push c s with Some s => append_text t s | None => None end
      | None => None
      end
  end.
(** [memcpy(buffer + size, ...)] of some cells, followed by [size += ...]. *)
Definition push_cells (cs : list cell) (s : state) : option state :=
  let '(m, fr, b) := s in
  match set_cells m (buffer b) (size b) cs with
  | Some m => Some (m, fr, {| buffer := buffer b; size := size b + length cs; reserved := reserved b |})
  | None => None
  end.
(** FUStringBuilder.hpp:185-196, append(const Char pointer, size_t). *)
Definition append_len (t : list Z) (s : state) : option state :=
  let '(_, _, b) := s in
  match (if reserved b <=? size b + length t then enlarge (max 64 (size b + length t + 1)) s else Some s) with
  | Some s => push_cells (map Some t) s
  | None => None
  end.
(** FUStringBuilder.hpp:199-205, append(const FUStringBuilderT&).  [other] is the other builder, or [None] if
    the builder is appended to itself, in which case its buffer and size are read after the reallocation. *)
Definition append_builder (other : option builder) (s : state) : option state :=
  let '(_, _, b) := s in
  let bsize := match other with Some o => size o | None => size b end in
  match (if reserved b <=? size b + bsize then enlarge (64 + size b + bsize - reserved b) s else Some s) with
  | None => None
  | Some s =>
      let '(m, _, b') := s in
      match get_cells m (match other with Some o => buffer o | None => buffer b' end) bsize with
      | Some cs => push_cells cs s
      | None => None
      end
  end.
(** FUStringBuilder.hpp:289-294, appendLine. *)
Definition append_line (t : list Z) (s : state) : option state :=
  match append_text t s with Some s => append_char 10 s | None => None end.

(** FUStringBuilder.h:244, back; the assertion returns 0 for an empty builder. *)
Definition back (m : heap) (b : builder) : option Z :=
  if 0 <? size b then match get_cell m (buffer b) (size b - 1) with Some (Some c) => Some c | _ => None end
  else Some 0%Z.
(** FUStringBuilder.hpp:259-287, append of a vector, given the texts of its components: lines 262, 272, 282
    compare the last character with four blanks and join the comparisons by [||]. *)
Fixpoint append_fields (ts : list (list Z)) (s : state) : option state :=
  match ts with
  | [] => Some s
  | [t] => append_text t s
  | t :: ts => match append_text t s with
               | Some s => match append_char 32 s with Some s => append_fields ts s | None => None end
               | None => None
               end
  end.
Definition append_vector (ts : list (list Z)) (s : state) : option state :=
  let '(m, _, b) := s in
  if size b =? 0 then append_fields ts s
  else match back m b with
       | None => None
       | Some c =>
           let sep := (negb (c =? 32) || negb (c =? 9) || negb (c =? 10) || negb (c =? 13))%Z in
           match (if sep then append_char 32 s else Some s) with
           | Some s => append_fields ts s
           | None => None
           end
       end.

Definition in_int32 (z : Z) : bool := ((-2147483648 <=? z) && (z <=? 2147483647))%Z.
(** [(int32) size]. *)
Definition to_int32 (n : nat) : Z := ((Z.of_nat n + 2147483648) mod 4294967296 - 2147483648)%Z.
(** FUStringBuilder.hpp:307-311, remove(start). *)
Definition remove1 (start : Z) (s : state) : option state :=
  let '(m, fr, b) := s in
  if ((start <? to_int32 (size b)) && (0 <=? start))%Z
  then Some (m, fr, {| buffer := buffer b; size := Z.to_nat start; reserved := reserved b |})
  else Some s.
(** FUStringBuilder.hpp:319-323, the loop that moves the characters [p + diff] to [p], for [todo] steps. *)
Fixpoint move_down (todo : nat) (m : heap) (p : option nat) (i diff : nat) : option heap :=
  match todo with
  | O => Some m
  | S todo => match get_cell m p (i + diff) with
              | Some c => match set_cell m p i c with
                          | Some m => move_down todo m p (S i) diff
                          | None => None
                          end
              | None => None
              end
  end.
(** FUStringBuilder.hpp:313-326, remove(start, end). *)
Definition remove2 (start stop : Z) (s : state) : option state :=
  let '(m, fr, b) := s in
  let diff := (stop - start)%Z in
  if negb (in_int32 diff) then None
  else if ((stop <=? to_int32 (size b)) && (0 <=? start) && (0 <? diff))%Z then
    let d := Z.to_nat diff in
    let i := Z.to_nat start in
    match move_down (size b - d - i) m (buffer b) i d with
    | Some m => Some (m, fr, {| buffer := buffer b; size := size b - d; reserved := reserved b |})
    | None => None
    end
  else Some s.
(** FUStringBuilder.h:206, pop_back; hpp:128-132, clear. *)
Definition pop_back (s : state) : option state :=
  let '(m, fr, b) := s in
  Some (m, fr, {| buffer := buffer b; size := size b - 1; reserved := reserved b |}).
Definition clear (s : state) : option state :=
  let '(m, fr, b) := s in Some (m, fr, {| buffer := buffer b; size := 0; reserved := reserved b |}).
(** FUStringBuilder.hpp:328-335, ToCharPtr: terminates the text and returns the buffer. *)
Definition ToCharPtr (s : state) : option (state * option nat) :=
  let '(_, _, b) := s in
  match (if reserved b <? size b + 1 then enlarge 1 s else Some s) with
  | None => None
  | Some (m, fr, b) => match set_cell m (buffer b) (size b) (Some 0%Z) with
                       | Some m => Some ((m, fr, b), buffer b)
                       | None => None
                       end
  end.

(** FUStringBuilder.hpp:337-349, index: the loop from [i] over [todo] cells. *)
Fixpoint index_loop (todo : nat) (m : heap) (p : option nat) (i : nat) (c : Z) : option Z :=
  match todo with
  | O => Some (-1)%Z
  | S todo => match get_cell m p i with
              | Some (Some d) => if (d =? c)%Z then Some (Z.of_nat i) else index_loop todo m p (S i) c
              | _ => None
              end
  end.
Definition index (m : heap) (b : builder) (c : Z) : option Z :=
  match buffer b with
  | None => Some (-1)%Z
  | Some _ => if 0 <? size b then index_loop (size b + 1) m (buffer b) 0 c else Some (-1)%Z
  end.
(** FUStringBuilder.hpp:351-362, rindex: from the last character down to, but without, the first one. *)
Fixpoint rindex_loop (i : nat) (m : heap) (p : option nat) (c : Z) : option Z :=
  match i with
  | O => Some (-1)%Z
  | S i' => match get_cell m p i with
            | Some (Some d) => if (d =? c)%Z then Some (Z.of_nat i) else rindex_loop i' m p c
            | _ => None
            end
  end.
Definition rindex (m : heap) (b : builder) (c : Z) : option Z :=
  match buffer b with
  | None => Some (-1)%Z
  | Some _ => if 0 <? size b then rindex_loop (size b - 1) m (buffer b) c else Some (-1)%Z
  end.

(** *** Histories *)
Inductive op :=
| New (n : nat)                       (* FUStringBuilder.hpp:94-113: FUStringBuilderT(n), and () with n = 32 *)
| NewText (t : list Z)                (* hpp:59-81: from a text *)
| NewFill (c : Z) (n : nat)           (* hpp:83-92: n times a character *)
| Copy (i : nat)                      (* the implicit copy constructor: no user-declared one exists *)
| Delete (i : nat)                    (* hpp:116-120 *)
| Reserve (i n : nat) | Clear (i : nat) | PopBack (i : nat)
| AppendChar (i : nat) (c : Z) | AppendText (i : nat) (t : list Z) | AppendLen (i : nat) (t : list Z)
| AppendLine (i : nat) (t : list Z) | AppendBuilder (i j : nat) | AppendVector (i : nat) (ts : list (list Z))
| Remove1 (i : nat) (start : Z) | Remove2 (i : nat) (start stop : Z)
| CharPtr (i : nat).

(** The members set by every constructor, FUStringBuilder.hpp:62-64, 73-75, 86-88, 97-99, 107-109. *)
Definition null_builder : builder := {| buffer := None; size := 0; reserved := 0 |}.
(** FUStringBuilder.hpp:91, the loop of the fill constructor. *)
Fixpoint fill (n : nat) (c : Z) (s : state) : option state :=
  match n with
  | O => Some s
  | S n => match push c s with Some s => fill n c s | None => None end
  end.
(** Run [f] on builder [i] of the world. *)
Definition on (w : world) (i : nat) (f : state -> option state) : option world :=
  match builders w i with
  | None => None
  | Some b => match f (mem w, fresh w, b) with
              | Some (m, fr, b) => Some {| mem := m; fresh := fr; builders := put (builders w) i (Some b); count := count w |}
              | None => None
              end
  end.
(** Construct a builder with [f]. *)
Definition construct (w : world) (f : state -> option state) : option world :=
  match f (mem w, fresh w, null_builder) with
  | Some (m, fr, b) => Some {| mem := m; fresh := fr; builders := put (builders w) (count w) (Some b); count := S (count w) |}
  | None => None
  end.
(** One operation; [None] also for an operation on a builder that is not alive.
    FUStringBuilder.hpp:59-120 for the constructors and the destructor. *)
Definition step (w : world) (o : op) : option world :=
  match o with
  | New n => construct w (reserve n)
  | NewText t => construct w (fun s => match reserve (length t + 32) s with Some s => append_text t s | None => None end)
  | NewFill c n => construct w (fun s => match reserve (n + 32) s with Some s => fill n c s | None => None end)
  | Copy i => match builders w i with
              | Some b => Some {| mem := mem w; fresh := fresh w; builders := put (builders w) (count w) (Some b); count := S (count w) |}
              | None => None
              end
  | Delete i => match on w i (reserve 0) with
                | Some w => Some {| mem := mem w; fresh := fresh w; builders := put (builders w) i None; count := count w |}
                | None => None
                end
  | Reserve i n => on w i (reserve n)
  | Clear i => on w i clear
  | PopBack i => on w i pop_back
  | AppendChar i c => on w i (append_char c)
  | AppendText i t => on w i (append_text t)
  | AppendLen i t => on w i (append_len t)
  | AppendLine i t => on w i (append_line t)
  | AppendBuilder i j =>
      if i =? j then on w i (append_builder None)
      else match builders w j with Some o => on w i (append_builder (Some o)) | None => None end
  | AppendVector i ts => on w i (append_vector ts)
  | Remove1 i start => on w i (remove1 start)
  | Remove2 i start stop => on w i (remove2 start stop)
  | CharPtr i => on w i (fun s => option_map fst (ToCharPtr s))
  end.
Fixpoint run (w : world) (os : list op) : option world :=
  match os with
  | [] => Some w
  | o :: os => match step w o with Some w => run w os | None => None end
  end.
Definition start : world := {| mem := fun _ => None; fresh := 0; builders := fun _ => None; count := 0 |}.
