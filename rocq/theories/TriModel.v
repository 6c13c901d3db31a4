(** FCDGeometryPolygonsTools::Triangulate (FCDocument/FCDGeometryPolygonsTools.cpp:36-122). *)
From Coq Require Import List Arith Bool.
From Verif Require Import PolyModel.
Import ListNotations.

(** FCDGeometryPolygons.h: PrimitiveType. *)
Inductive prim := LINES | LINE_STRIPS | POLYGONS | TRIANGLE_FANS | TRIANGLE_STRIPS | POINTS.
(** FCDGeometryPolygons.h: the parts Triangulate uses. *)
Record pset (X : Type) := PSet { ptype : prim; pcounts : list nat; pholes : list nat; pinputs : list (input X) }.
Arguments PSet {X}. Arguments ptype {X}. Arguments pcounts {X}. Arguments pholes {X}. Arguments pinputs {X}.
(** FCDGeometryPolygonsTools.cpp:48-58: the inputs that see indices are emptied one after the other; result: the old lists
    with the inputs they were taken from, and the emptied inputs. *)
Definition collect_step {X} (s : list (list X * nat) * list (input X)) (i : nat) : list (list X * nat) * list (input X) :=
  let old := get_indices (snd s) i in
  match old with [] => s | _ => (fst s ++ [(old, i)], set_indices (snd s) i []) end.
Definition collect {X} (ins : list (input X)) : list (list X * nat) * list (input X) :=
  fold_left collect_step (seq 0 (length ins)) ([], ins).
(** FCDGeometryPolygonsInput.cpp:114-117: AddIndex. *)
Definition add_index {X} (ins : list (input X)) (i : nat) (v : X) : list (input X) := set_indices ins i (get_indices ins i ++ [v]).
(** FCDGeometryPolygonsTools.cpp:80-82, 100-111: the three indices of a triangle for one input; None: behind the old list. *)
Fixpoint add_all {X} (old : list X) (i : nat) (ps : list nat) (ins : list (input X)) : option (list (input X)) :=
  match ps with
  | [] => Some ins
  | p :: r => match nth_error old p with Some v => add_all old i r (add_index ins i v) | None => None end
  end.
(** FCDGeometryPolygonsTools.cpp:76-83, 96-112: one triangle for all inputs. *)
Fixpoint add_triangle {X} (olds : list (list X * nat)) (ps : list nat) (ins : list (input X)) : option (list (input X)) :=
  match olds with
  | [] => Some ins
  | (old, i) :: r => match add_all old i ps ins with Some ins1 => add_triangle r ps ins1 | None => None end
  end.
(** FCDGeometryPolygonsTools.cpp:70-86, 88-115: the positions of triangle t of a face that starts at [off]. *)
Definition triangle (type : prim) (off t : nat) : list nat :=
  match type with
  | TRIANGLE_STRIPS => if Nat.even t then [off + t; off + t + 1; off + t + 2] else [off + t; off + t + 2; off + t + 1]
  | _ => [off; off + t + 1; off + t + 2]
  end.
(** FCDGeometryPolygonsTools.cpp:74-85, 94-114: all triangles of a face; the new counts are collected in the first part. *)
Fixpoint add_triangles {X} (type : prim) (olds : list (list X * nat)) (off : nat) (ts : list nat) (s : list nat * list (input X)) : option (list nat * list (input X)) :=
  match ts with
  | [] => Some s
  | t :: r => match add_triangle olds (triangle type off t) (snd s) with
              | Some ins => add_triangles type olds off r (fst s ++ [3], ins)
              | None => None
              end
  end.
(** FCDGeometryPolygonsTools.cpp:63-116: the loop over the old faces. *)
Fixpoint add_faces {X} (type : prim) (holes : list nat) (olds : list (list X * nat)) (index off : nat) (cs : list nat) (s : list nat * list (input X)) : option (list nat * list (input X)) :=
  match cs with
  | [] => Some s
  | c :: r =>
      match (if negb (existsb (Nat.eqb index) holes) && (3 <=? c) then add_triangles type olds off (seq 0 (c - 2)) s else Some s) with
      | Some s1 => add_faces type holes olds (S index) (off + c) r s1
      | None => None
      end
  end.
(** FCDGeometryPolygonsTools.cpp:36-122: Triangulate. *)
Definition Triangulate {X} (p : pset X) : option (pset X) :=
  match ptype p with
  | LINES | LINE_STRIPS | POINTS => Some p
  | type =>
      let (olds, ins) := collect (pinputs p) in
      match add_faces type (pholes p) olds 0 0 (pcounts p) ([], ins) with
      | Some (cs, ins1) => Some (PSet POLYGONS cs [] ins1)
      | None => None
      end
  end.
