(** A <polygons> or <triangles> element as COLLADA describes it: the inputs with their offsets, and for each corner one number
    for each offset. *)
From Coq Require Import List ZArith Bool String.
From Verif Require Import TextModel StringModel PolyModel PolySpec TriModel DaeModel DaeSpec.
Import ListNotations.
Local Open Scope nat_scope.
Local Open Scope list_scope.

(** <input semantic="VERTEX"> or an input of source number [k] of the mesh. *)
Inductive doc_input := DVertex (off : nat) | DOther (k off : nat) (set : Z).
Definition doc_offset (a : doc_input) : nat := match a with DVertex o => o | DOther _ o _ => o end.
Definition is_dvertex (a : doc_input) : bool := match a with DVertex _ => true | DOther _ _ _ => false end.
(** The number of numbers of a corner: one more than the largest offset. *)
Definition stride (doc : list doc_input) : nat := S (list_max (map doc_offset doc)).
Definition doc_element (m : mesh) (a : doc_input) : list xml :=
  match a with
  | DVertex off => AddInput (mesh_id m ++ tx "-vertices") (tx "VERTEX") (Z.of_nat off) (-1)
  | DOther k off set => match nth_error (srcs m) k with
                        | Some x => AddInput (src_id x) (SemanticToString (src_type x)) (Z.of_nat off) set
                        | None => []
                        end
  end.
(** A corner is a list of numbers, a loop a list of corners, a face an outer loop and holes. *)
Notation corner := (list Z) (only parsing).
Notation loop := (list (list Z)) (only parsing).
Definition dface : Type := (list (list Z) * list (list (list Z)))%type.
Definition loop_text (l : loop) : list xml := content (ToString_u32s [] (List.concat l)).
Definition dface_element (f : dface) : xml :=
  match snd f with
  | [] => Elem (tx "p") [] (loop_text (fst f))
  | hs => Elem (tx "ph") [] (Elem (tx "p") [] (loop_text (fst f)) :: map (fun h => Elem (tx "h") [] (loop_text h)) hs)
  end.
Definition polygons_element (m : mesh) (doc : list doc_input) (fs : list dface) (count : list Z) : xml :=
  Elem (tx "polygons") [(tx "count", count)] (flat_map (doc_element m) doc ++ map dface_element fs).
Definition triangles_element (m : mesh) (doc : list doc_input) (corners : list (list Z)) (count : list Z) : xml :=
  Elem (tx "triangles") [(tx "count", count)] (flat_map (doc_element m) doc ++ [Elem (tx "p") [] (loop_text corners)]).
(** All the corners, and the faces by their numbers of corners. *)
Definition all_corners (fs : list dface) : list (list Z) := List.concat (map (fun f => fst f ++ List.concat (snd f)) fs).
Definition shape (fs : list dface) : list face := map (fun f => (List.length (fst f), map (@List.length (list Z)) (snd f))) fs.
(** The numbers at an offset. *)
Definition numbers (o : nat) (cs : list (list Z)) : list Z := map (fun c => nth o c 0%Z) cs.
(** An element of a valid document: the inputs name sources of the mesh that are not per-vertex, one of them is VERTEX, each corner
    has as many numbers as the stride; the numbers fit uint32. *)
Definition valid_doc (m : mesh) (doc : list doc_input) (cs : list (list Z)) : Prop :=
  List.length (filter is_dvertex doc) = 1 /\
  (forall a, In a doc -> (Z.of_nat (doc_offset a) < 2147483600)%Z) /\
  (forall k off set, In (DOther k off set) doc -> (-1 <= set < 2147483600)%Z /\ ~ In k (vertex_srcs m) /\
     exists x, nth_error (srcs m) k = Some x /\ (0 <= src_type x <= 12)%Z /\ src_type x <> VERTEX) /\
  Forall (fun c => List.length c = stride doc /\ Forall (fun v => 0 <= v < 4294967296)%Z c) cs.
(** Every input of the document sees the numbers at its offset. *)
Definition reads_offsets (m : mesh) (doc : list doc_input) (cs : list (list Z)) (q : dset) : Prop :=
  (forall off v, In (DVertex off) doc -> In v (vertex_srcs m) -> exists s, In s (view q) /\ s_source s = v /\ s_indices s = numbers off cs) /\
  (forall k off set, In (DOther k off set) doc -> In (Seen k off set (numbers off cs)) (view q)).
