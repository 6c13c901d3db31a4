(** FCDGeometryPolygonsTools: unique index buffers
    (FCDocument/FCDGeometryPolygonsTools.cpp:436-827, FCDocument/FCDGeometryMesh.cpp:174-194).
    The values of a source are modelled as one element of type A per value (the stride is at least one and divides the
    number of floats); numbers are unbounded (no uint32 overflow of the number of new vertices).
    The animated values of the sources and the texture set numbers of the inputs are not modelled. *)
From Coq Require Import List Arith Bool NArith.
From Verif Require Import PolyModel TriModel.
Import ListNotations.

(** FCDGeometryMesh.h: the sources (number = position), the per-vertex sources and the polygon sets. *)
Record mesh (A : Type) := Mesh { sources : list (list A); vertex : list nat; sets : list (pset nat) }.
Arguments Mesh {A}. Arguments sources {A}. Arguments vertex {A}. Arguments sets {A}.

(** *** Hashing *)
(** FCDGeometryPolygonsTools.cpp:476-480, 496-500, 624-628, 644-648: the hash of the old indices of a corner: list number h
    of n is shifted by 32 * h / n bits in a uint32. *)
Fixpoint hash_from (n h : N) (key : list nat) (acc : N) : N :=
  match key with
  | [] => acc
  | v :: r => hash_from n (h + 1)%N r (N.lxor acc (N.modulo (N.shiftl (N.of_nat v) (32 * h / n)) (2 ^ 32)))
  end.
Definition hash (key : list nat) : N := hash_from (N.of_nat (length key)) 0%N key 0%N.
(** FCDGeometryPolygonsTools.cpp:483, 502-541, 631, 650-689: HashIndexMap: the corners seen so far with their new index, by hash. *)
Definition table := list (N * list (list nat * nat)).
(** The search in the map. *)
Fixpoint lookup (t : table) (h : N) : option (list (list nat * nat)) :=
  match t with [] => None | (k, items) :: r => if N.eqb k h then Some items else lookup r h end.
(** The assignment of an entry of the map (the insertion of a new entry appends it). *)
Fixpoint store (t : table) (h : N) (items : list (list nat * nat)) : table :=
  match t with [] => [(h, items)] | (k, i) :: r => if N.eqb k h then (k, items) :: r else (k, i) :: store r h items end.
(** Comparison of the old indices of two corners, FCDGeometryPolygonsTools.cpp:512-516, 660-664. *)
Fixpoint same_key (a b : list nat) : bool :=
  match a, b with [], [] => true | x :: r, y :: s => Nat.eqb x y && same_key r s | _, _ => false end.
(** FCDGeometryPolygonsTools.cpp:509-522, 657-670: the first matching corner of the entry. *)
Fixpoint find_match (items : list (list nat * nat)) (key : list nat) : option nat :=
  match items with [] => None | (k, n) :: r => if same_key k key then Some n else find_match r key end.
(** FCDGeometryPolygonsTools.cpp:493-544, 641-692: one corner: (map, totalVertexCount) to (new index, map, totalVertexCount). *)
Definition unique_step (t : table) (total : nat) (key : list nat) : nat * table * nat :=
  match lookup t (hash key) with
  | Some items =>
      match find_match items key with
      | Some n => (n, t, total)
      | None => (total, store t (hash key) (items ++ [(key, total)]), S total)
      end
  | None => (total, store t (hash key) [(key, total)], S total)
  end.
(** The loop over the corners. *)
Fixpoint unique_loop (t : table) (total : nat) (keys : list (list nat)) : list nat * nat :=
  match keys with
  | [] => ([], total)
  | k :: r => let '(n, t1, total1) := unique_step t total k in let (out, total2) := unique_loop t1 total1 r in (n :: out, total2)
  end.
(** FCDGeometryPolygonsTools.cpp:459-474, 609-622: idxOwners: the index lists with as many entries as the first one. *)
Fixpoint select_owners (front : option nat) (ins : list (input nat)) : list (list nat) :=
  match ins with
  | [] => []
  | x :: r => if owns x && (match front with None => true | Some n => Nat.eqb n (length (indices x)) end)
              then indices x :: select_owners (match front with None => Some (length (indices x)) | f => f end) r
              else select_owners front r
  end.
(** FCDGeometryPolygonsTools.cpp:484-500, 632-648: the old indices of corner i (all lists have the length of the first). *)
Definition corner_keys (owners : list (list nat)) : list (list nat) :=
  match owners with [] => [] | l :: _ => map (fun i => map (fun l => nth i l 0) owners) (seq 0 (length l)) end.
(** FCDGeometryPolygonsTools.cpp:446-546, 599-694: the index buffers of all sets. *)
Fixpoint unique_sets (total : nat) (ss : list (pset nat)) : list (list nat) * nat :=
  match ss with
  | [] => ([], total)
  | s :: r => let (out, total1) := unique_loop [] total (corner_keys (select_owners None (pinputs s))) in
              let (outs, total2) := unique_sets total1 r in (out :: outs, total2)
  end.

(** *** The data *)
(** FCDGeometryPolygons.cpp:226-233: FindInput(source). *)
Fixpoint find_input (ins : list (input nat)) (d : nat) : option nat :=
  match ins with [] => None | x :: r => if Nat.eqb (source x) d then Some 0 else option_map S (find_input r d) end.
(** FCDGeometryPolygonsTools.cpp:726-761: the values of the old indices are copied to the new indices. *)
Fixpoint copy_values {A} (vs : list A) (news olds : list nat) (buffer : list A) : list A :=
  match news, olds with
  | n :: ns, o :: os => copy_values vs ns os (match nth_error vs o with Some v => set_nth buffer n v | None => buffer end)
  | _, _ => buffer
  end.
(** FCDGeometryPolygonsTools.cpp:711-772: all sets for source d. *)
Fixpoint copy_sets {A} (vs : list A) (d : nat) (ss : list (pset nat)) (buffers : list (list nat)) (buffer : list A) : list A :=
  match ss, buffers with
  | s :: r, b :: bs =>
      copy_sets vs d r bs (match find_input (pinputs s) d with
                           | Some i => copy_values vs b (get_indices (pinputs s) i) buffer
                           | None => buffer
                           end)
  | _, _ => buffer
  end.
(** FCDGeometryPolygonsTools.cpp:696-791: the new values of source d; an empty buffer does not replace existing values. *)
Definition new_values {A} (zero : A) (ss : list (pset nat)) (buffers : list (list nat)) (total d : nat) (vs : list A) : list A :=
  match copy_sets vs d ss buffers (repeat zero total), vs with [], _ :: _ => vs | b, _ => b end.
Fixpoint map_sources {A} (f : nat -> list A -> list A) (d : nat) (l : list (list A)) : list (list A) :=
  match l with [] => [] | x :: r => f d x :: map_sources f (S d) r end.

(** *** Per-vertex sources and the new indices *)
(** FUObject.h, FUObjectContainer: release of the input at a position (its own index list goes with it). *)
Definition release_input (ins : list (input nat)) (i : nat) : list (input nat) := firstn i ins ++ skipn (S i) ins.
(** FCDGeometryMesh.cpp:183-191 and FCDGeometryPolygons.cpp:173-181: AddVertexSource on one set. *)
Definition to_vertex (d : nat) (ins : list (input nat)) : list (input nat) :=
  match find_input ins d with Some i => release_input ins i | None => ins end ++ [Input 0 d []].
(** An operation on the inputs of a set. *)
Definition on_inputs (f : list (input nat) -> list (input nat)) (s : pset nat) : pset nat :=
  PSet (ptype s) (pcounts s) (pholes s) (f (pinputs s)).
(** FCDGeometryMesh.cpp:174-194: AddVertexSource (the source is not a per-vertex source yet). *)
Definition AddVertexSource {A} (m : mesh A) (d : nat) : mesh A :=
  Mesh (sources m) (vertex m ++ [d]) (map (on_inputs (to_vertex d)) (sets m)).
(** FCDGeometryPolygonsTools.cpp:794-806: all sources become per-vertex sources. *)
Definition all_vertex {A} (m : mesh A) : mesh A :=
  fold_left (fun m d => if existsb (Nat.eqb d) (vertex m) then m else AddVertexSource m d) (seq 0 (length (sources m))) m.
(** FCDGeometryPolygonsTools.cpp:808-826: the new indices are set on all inputs whose source has values. *)
Definition enforce {A} (srcs : list (list A)) (buffer : list nat) (ins : list (input nat)) : list (input nat) :=
  fold_left (fun s i => match nth_error s i with
                        | Some x => match nth (source x) srcs [], buffer with [], _ => s | _, [] => s | _, _ => set_indices s i buffer end
                        | None => s
                        end) (seq 0 (length ins)) ins.
Fixpoint enforce_sets {A} (srcs : list (list A)) (ss : list (pset nat)) (buffers : list (list nat)) : list (pset nat) :=
  match ss, buffers with s :: r, b :: bs => on_inputs (enforce srcs b) s :: enforce_sets srcs r bs | _, _ => [] end.
(** FCDGeometryPolygonsTools.cpp:453, 605: a set of points stops the function. *)
Definition is_points (s : pset nat) : bool := match ptype s with POINTS => true | _ => false end.
(** FCDGeometryPolygonsTools.cpp:590-827: GenerateUniqueIndices for the whole mesh (polygonsToProcess = NULL). *)
Definition GenerateUniqueIndices {A} (zero : A) (m : mesh A) : mesh A :=
  if existsb is_points (sets m) then m else
  match sets m with
  | [] => m
  | _ =>
      let (buffers, total) := unique_sets 0 (sets m) in
      let m1 := Mesh (map_sources (new_values zero (sets m) buffers total) 0 (sources m)) (vertex m) (sets m) in
      let m2 := all_vertex m1 in
      Mesh (sources m2) (vertex m2) (enforce_sets (sources m2) (sets m2) buffers)
  end.
