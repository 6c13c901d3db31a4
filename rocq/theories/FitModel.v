(** FCDGeometryPolygonsTools::FitIndexBuffers (FCDocument/FCDGeometryPolygonsTools.cpp:1087-1181) and the parts of
    FCDGeometryMesh::AddPolygons it uses.  The material names are not modelled; numbers are unbounded. *)
From Coq Require Import List Arith Bool.
From Verif Require Import PolyModel TriModel ReindexModel.
Import ListNotations.

(** Outcome: a result, the given number of rounds was not enough, or a read outside an index list. *)
Inductive res (A : Type) := Done (a : A) | Fuel | Bad.
Arguments Done {A}. Arguments Fuel {A}. Arguments Bad {A}.
(** FCDGeometryPolygonsTools.cpp:1107-1112, 1128-1134: how many faces fit, with their number of indices. *)
Fixpoint take (max acc : nat) (cs : list nat) : nat * nat :=
  match cs with
  | [] => (0, acc)
  | c :: r => if max <? acc + c then (0, acc) else let (f, v) := take max (acc + c) r in (S f, v)
  end.
(** FCDGeometryMesh.cpp:119-135: AddPolygons: an input at offset 0 for every per-vertex source. *)
Definition vertex_inputs (vertex : list nat) : list (input nat) := map (fun d => Input 0 d []) vertex.
(** FCDGeometryPolygonsTools.cpp:1150-1156: input number k of the copy gets the indices a..b-1 of the list l unless it sees
    indices already. *)
Definition fill (copy : list (input nat)) (k : nat) (l : list nat) (a b : nat) : option (list (input nat)) :=
  match get_indices copy k with
  | [] => if b <=? length l then Some (set_indices copy k (firstn (b - a) (skipn a l))) else None
  | _ => Some copy
  end.
(** FCDGeometryPolygonsTools.cpp:1141-1157: input number j of the old set. *)
Definition copy_input (vertex : list nat) (ins : list (input nat)) (a b : nat) (copy : list (input nat)) (j : nat) : option (list (input nat)) :=
  match nth_error ins j with
  | None => Some copy
  | Some x =>
      if existsb (Nat.eqb (source x)) vertex then
        match find_input copy (source x) with Some k => fill copy k (get_indices ins j) a b | None => Some copy end
      else fill (copy ++ [Input (offset x) (source x) []]) (length copy) (get_indices ins j) a b
  end.
Fixpoint copy_inputs (vertex : list nat) (ins : list (input nat)) (a b : nat) (js : list nat) (copy : list (input nat)) : option (list (input nat)) :=
  match js with
  | [] => Some copy
  | j :: r => match copy_input vertex ins a b copy j with Some c => copy_inputs vertex ins a b r c | None => None end
  end.
(** FCDGeometryPolygonsTools.cpp:1117-1166: the loop that makes the new sets; fs, fe = faceCopyStart, faceCopyEnd and
    vs, ve = faceVertexCopyStart, faceVertexCopyEnd.  The new sets are POLYGONS without holes
    (FCDGeometryPolygons.cpp:31-45). *)
Fixpoint pieces (fuel : nat) (vertex : list nat) (max : nat) (s : pset nat) (fs fe vs ve : nat) : res (list (pset nat)) :=
  match fuel with
  | 0 => Fuel
  | S fuel' =>
      if fe <? length (pcounts s) then
        let (nf, nv) := take max 0 (skipn fe (pcounts s)) in
        if (vs <? ve + nv) && (fs <? fe + nf) then
          match copy_inputs vertex (pinputs s) vs (ve + nv) (seq 0 (length (pinputs s))) (vertex_inputs vertex) with
          | None => Bad
          | Some ins =>
              match pieces fuel' vertex max s (fe + nf) (fe + nf) (ve + nv) (ve + nv) with
              | Done r => Done (PSet POLYGONS (firstn (fe + nf - fs) (skipn fs (pcounts s))) [] ins :: r)
              | Fuel => Fuel
              | Bad => Bad
              end
          end
        else
          match pieces fuel' vertex max s fs (fe + nf) vs (ve + nv) with
          | Done r => Done (PSet POLYGONS [] [] (vertex_inputs vertex) :: r)
          | Fuel => Fuel
          | Bad => Bad
          end
      else Done []
  end.
(** FCDGeometryPolygonsTools.cpp:1169-1175, FCDGeometryPolygonsInput.cpp:92-96: an owner keeps its first n indices (if there
    are less, the new ones are indeterminate; modelled as 0). *)
Definition cut (n : nat) (x : input nat) : input nat :=
  if owns x then Input (offset x) (source x) (firstn n (indices x) ++ repeat 0 (n - length (indices x))) else x.
(** FCDGeometryPolygonsTools.cpp:1096-1178: one set: the set itself afterwards and the new sets. *)
Definition fit_set (fuel : nat) (vertex : list nat) (max : nat) (s : pset nat) : res (pset nat * list (pset nat)) :=
  if is_points s then Done (s, []) else
  let (nf, nv) := take max 0 (pcounts s) in
  if nf =? length (pcounts s) then Done (s, []) else
  match pieces fuel vertex max s nf nf nv nv with
  | Done r => Done (PSet (ptype s) (firstn nf (pcounts s)) (pholes s) (map (cut nv) (pinputs s)), r)
  | Fuel => Fuel
  | Bad => Bad
  end.
(** FCDGeometryPolygonsTools.cpp:1091-1179: the original sets one after the other; the new sets come behind all of them. *)
Fixpoint fit_all (fuel : nat) (vertex : list nat) (max : nat) (ss : list (pset nat)) : res (list (pset nat) * list (pset nat)) :=
  match ss with
  | [] => Done ([], [])
  | s :: r =>
      match fit_set fuel vertex max s with
      | Done (h, t) => match fit_all fuel vertex max r with Done (hs, ts) => Done (h :: hs, t ++ ts) | Fuel => Fuel | Bad => Bad end
      | Fuel => Fuel
      | Bad => Bad
      end
  end.
Definition FitIndexBuffers {A} (fuel : nat) (m : mesh A) (max : nat) : res (mesh A) :=
  match fit_all fuel (vertex m) max (sets m) with
  | Done (hs, ts) => Done (Mesh (sources m) (vertex m) (hs ++ ts))
  | Fuel => Fuel
  | Bad => Bad
  end.
