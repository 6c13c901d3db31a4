(** FCDGeometryPolygonsTools::GenerateVertexPackingMap (FCDocument/FCDGeometryPolygonsTools.cpp:988-1017). *)
From Coq Require Import List Arith Bool NArith.
From Verif Require Import PolyModel.
Import ListNotations.

(** FCDGeometryPolygonsTools.cpp:915: INVALID_VTX_IDX: an empty entry of the packing map; an entry is a uint16 or None
    for INVALID_VTX_IDX (the packed indices stay below it, see [limit]). *)
Definition cell := option nat.
(** FCDGeometryPolygonsTools.cpp:915, 991: maxIndices is lowered to INVALID_VTX_IDX - 1 = 65534. *)
Definition limit (maxIndices : N) : N := if N.ltb maxIndices 65535 then maxIndices else 65534%N.
(** FMArray.h:280-297: resize with a value. *)
Definition resize_map (m : list cell) (n : nat) : list cell := firstn n m ++ repeat None (n - length m).
(** FCDGeometryPolygonsTools.cpp:993-1011: the loop; nI = nIndices, nV = nVertices, maxI = maxIndices.  None: an entry
    behind the input indices or behind the packing map is used. *)
Fixpoint pack (m : list cell) (nI nV maxI maxV : nat) (ins : list nat) : option (nat * nat * list cell * list nat) :=
  if nI <? maxI then
    match ins with
    | [] => None
    | v :: r =>
        match nth_error m v with
        | None => None
        | Some (Some c) => match pack m (S nI) nV maxI maxV r with Some (n, w, m', out) => Some (n, w, m', c :: out) | None => None end
        | Some None =>
            match pack (set_nth m v (Some nV)) (S nI) (S nV) (if maxV <=? S nV then nI else maxI) maxV r with
            | Some (n, w, m', out) => Some (n, w, m', nV :: out)
            | None => None
            end
        end
    end
  else Some (nI, nV, m, []).
(** FCDGeometryPolygonsTools.cpp:988-1017: (number of used indices, number of vertices, packing map, packed indices); the
    check of line 1013 never changes a value.  [m] is the content of outPackingMap before the call. *)
Definition GenerateVertexPackingMap (maxIndex : nat) (maxIndices : N) (maxVertices : nat) (ins : list nat) (m : list cell) : option (nat * nat * list cell * list nat) :=
  pack (resize_map m (S maxIndex)) 0 0 (N.to_nat (limit maxIndices)) maxVertices ins.
