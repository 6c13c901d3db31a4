(** FCDGeometryPolygons: faces, holes and the index lists of the inputs
    (FCDocument/FCDGeometryPolygons.cpp:58-205, FCDocument/FCDGeometryPolygonsInput.cpp:56-138).
    Numbers are unbounded: uint32/size_t overflow of counts is not modelled. *)
From Coq Require Import List Arith Bool.
Import ListNotations.

(** FCDGeometryPolygonsInput.h: offset, source (its number) and the input's own index list. *)
Record input (X : Type) := Input { offset : nat; source : nat; indices : list X }.
Arguments Input {X}. Arguments offset {X}. Arguments source {X}. Arguments indices {X}.
(** FCDGeometryPolygonsInput.h:113: OwnsIndices. *)
Definition owns {X} (i : input X) : bool := match indices i with [] => false | _ => true end.
(** FCDGeometryPolygonsInput.cpp:129-134: the first input at an offset that owns indices. *)
Fixpoint first_owner {X} (ins : list (input X)) (o : nat) : option nat :=
  match ins with
  | [] => None
  | x :: r => if Nat.eqb (offset x) o && owns x then Some 0 else option_map S (first_owner r o)
  end.
(** FCDGeometryPolygonsInput.cpp:125-138: FindIndices: the input whose list is used by input i. *)
Definition find_indices {X} (ins : list (input X)) (i : nat) : option nat :=
  match nth_error ins i with
  | None => None
  | Some x => if owns x then Some i else match first_owner ins (offset x) with Some j => Some j | None => Some i end
  end.
(** FCDGeometryPolygonsInput.cpp:98-106: GetIndices and GetIndexCount (its length). *)
Definition get_indices {X} (ins : list (input X)) (i : nat) : list X :=
  match find_indices ins i with
  | Some j => match nth_error ins j with Some x => indices x | None => [] end
  | None => []
  end.
(** Assignment of an element of the list of inputs. *)
Fixpoint set_nth {A} (l : list A) (i : nat) (a : A) : list A :=
  match l, i with [], _ => [] | _ :: r, O => a :: r | x :: r, S j => x :: set_nth r j a end.
(** FCDGeometryPolygonsInput.cpp:81-96: SetIndices, SetIndexCount. *)
Definition set_indices {X} (ins : list (input X)) (i : nat) (l : list X) : list (input X) :=
  match find_indices ins i with
  | Some j => match nth_error ins j with Some x => set_nth ins j (Input (offset x) (source x) l) | None => ins end
  | None => ins
  end.
(** FMArray.h:258-275: resize(count) of a list of numbers: new entries are indeterminate (None). *)
Definition resize {Y} (l : list (option Y)) (n : nat) : list (option Y) := firstn n l ++ repeat None (n - length l).

(** FCDGeometryPolygons.h: faceVertexCounts with its allocated size, holeFaces, inputs.  Index values are numbers,
    None when indeterminate. *)
Record polys := Polys { counts : list nat; allocated : nat; holes : list nat; inputs : list (input (option nat)) }.
(** FMArray.h:376-409: the allocated size after push_back. *)
Definition grow (n cap : nat) : nat := if Nat.eqb n cap then n + (if 31 <? n then 32 else n + 1) else cap.
(** FCDGeometryPolygons.cpp:58-78: AddFace.  Without [fresh], each owner's own list grows; otherwise the inputs without
    indices get some, one after the other. *)
Definition AddFace (p : polys) (degree : nat) : polys :=
  let fresh := match counts p with [] => true | _ => false end in
  let ins := inputs p in
  Polys (counts p ++ [degree]) (grow (length (counts p)) (allocated p)) (holes p)
    (if fresh then
       fold_left (fun s i => if Nat.eqb (length (get_indices s i)) 0 then set_indices s i (repeat None degree) else s)
                 (seq 0 (length ins)) ins
     else map (fun x => if owns x then Input (offset x) (source x) (resize (indices x) (length (indices x) + degree)) else x) ins).
(** FCDGeometryPolygons.cpp:136-144: GetHoleCountBefore. *)
Fixpoint hole_count_before (hs : list nat) (index : nat) : nat :=
  match hs with [] => 0 | h :: r => if h <=? index then S (hole_count_before r (S index)) else hole_count_before r index end.
Definition GetHoleCountBefore (p : polys) (index : nat) : nat := hole_count_before (holes p) index.
(** FCDGeometryPolygons.cpp:189-192: IsHoleFaceHole. *)
Definition is_hole (p : polys) (i : nat) : bool := existsb (Nat.eqb i) (holes p).
(** FCDGeometryPolygons.cpp:147-157: GetHoleCount(index); the loop over the entries behind the face. *)
Fixpoint count_holes (p : polys) (l : list nat) : nat :=
  match l with [] => 0 | i :: r => if is_hole p i then S (count_holes p r) else 0 end.
Definition GetHoleCount (p : polys) (index : nat) : nat :=
  let s := index + GetHoleCountBefore p index + 1 in count_holes p (seq s (length (counts p) - s)).
(** Summation loops (FCDGeometryPolygons.cpp:127-130, 168). *)
Definition sum (l : list nat) : nat := fold_right Nat.add 0 l.
(** FCDGeometryPolygons.h:182: whether index < GetFaceCount(); a negative difference wraps to a large number. *)
Definition below_face_count (p : polys) (index : nat) : bool :=
  if length (counts p) <? length (holes p) then true else index <? length (counts p) - length (holes p).
(** FCDGeometryPolygons.cpp:117-133: GetFaceVertexOffset. *)
Definition GetFaceVertexOffset (p : polys) (index : nat) : nat :=
  let h := GetHoleCountBefore p index in if index + h <? length (counts p) then sum (firstn (index + h) (counts p)) else 0.
(** FCDGeometryPolygons.cpp:160-171: GetFaceVertexCount; None: reads behind the list. *)
Definition GetFaceVertexCount (p : polys) (index : nat) : option nat :=
  if below_face_count p index then
    let s := index + GetHoleCountBefore p index in let n := GetHoleCount p index + 1 in
    if s + n <=? length (counts p) then Some (sum (firstn n (skipn s (counts p)))) else None
  else Some 0.
(** FMArray.h:175-203: erase(first, last): the values from [last] on are moved to [first], in either direction;
    None: behind the allocated memory. *)
Definition erase_counts (cap : nat) (l : list nat) (first last : nat) : option (list nat) :=
  if negb (first <? length l) then Some l else
  if negb ((0 <? last) && (last <=? length l)) then Some l else
  let r := firstn first l ++ skipn last l in if cap <? length r then None else Some r.
(** FCDGeometryPolygons.cpp:94-104: one owner's indices; None: size_t wraps around and memory behind the list is read. *)
Definition remove_indices (off n : nat) (l : list (option nat)) : option (list (option nat)) :=
  if off <? length l then
    if length l <? n then None else
    (* the loop of lines 98-101: positions off .. length l - n - 1 get the values n further *)
    let moved := firstn off l ++ firstn (length l - n - off) (skipn (off + n) l) ++ skipn (Nat.max off (length l - n)) l in
    Some (resize moved (Nat.max off (length l - n)))
  else Some l.
(** FCDGeometryPolygons.cpp:89-106: all owners. *)
Fixpoint remove_all (off n : nat) (ins : list (input (option nat))) : option (list (input (option nat))) :=
  match ins with
  | [] => Some []
  | x :: r =>
      match (if owns x then remove_indices off n (indices x) else Some (indices x)), remove_all off n r with
      | Some l, Some r1 => Some (Input (offset x) (source x) l :: r1)
      | _, _ => None
      end
  end.
(** FCDGeometryPolygons.cpp:81-114: RemoveFace. *)
Definition RemoveFace (p : polys) (index : nat) : option polys :=
  if below_face_count p index then
    match GetFaceVertexCount p index with
    | None => None
    | Some n =>
        match remove_all (GetFaceVertexOffset p index) n (inputs p) with
        | None => None
        | Some ins =>
            match erase_counts (allocated p) (counts p) (index + GetHoleCountBefore p index) (GetHoleCount p index + 1) with
            | None => None
            | Some c => Some (Polys c (allocated p) (holes p) ins)
            end
        end
    end
  else Some p.
(** FCDGeometryPolygons.cpp:199-204: ordered insert. *)
Fixpoint insert_hole (i : nat) (l : list nat) : list nat :=
  match l with [] => [i] | h :: r => if i <? h then i :: l else h :: insert_hole i r end.
(** FCDGeometryPolygons.cpp:194-205: AddHole. *)
Definition AddHole (p : polys) (index : nat) : polys :=
  if is_hole p index then p else Polys (counts p) (allocated p) (insert_hole index (holes p)) (inputs p).

(** FCDGeometryPolygonsInput.cpp:66-70: the first input at an offset, owner or not. *)
Fixpoint first_at {X} (ins : list (input X)) (o : nat) : option nat :=
  match ins with [] => None | x :: r => if Nat.eqb (offset x) o then Some 0 else option_map S (first_at r o) end.
(** FCDGeometryPolygonsInput.cpp:56-79: OnObjectReleased of input i for its source: the list is assigned to the first
    input of the same offset, which may be input i itself, and then cleared. *)
Definition source_released {X} (ins : list (input X)) (i : nat) : list (input X) :=
  match nth_error ins i with
  | None => ins
  | Some x =>
      if owns x then
        match first_at ins (offset x) with
        | Some j =>
            let ins1 := match nth_error ins j with Some y => set_nth ins j (Input (offset y) (source y) (indices x)) | None => ins end in
            match nth_error ins1 i with Some y => set_nth ins1 i (Input (offset y) (source y) []) | None => ins1 end
        | None => ins
        end
      else ins
  end.
