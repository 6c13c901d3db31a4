(** FCDSkinController::ReduceInfluences (FCDocument/FCDSkinController.cpp:142-188) and the target bookkeeping of
    FCDMorphController (FCDocument/FCDMorphController.cpp:47-202).  Weights are rationals (exact arithmetic). *)
From Coq Require Import List Arith ZArith QArith.
Import ListNotations.

(** FCDSkinController.h: FCDJointWeightPair. *)
Record pair := Pair { joint : Z; weight : Q }.
(** Float comparisons. *)
Definition qle (a b : Q) : bool := if Qlt_le_dec b a then false else true.
Definition qlt (a b : Q) : bool := if Qlt_le_dec a b then true else false.
(** FCDSkinController.cpp:162-166: the new pair goes before the first one that is not heavier.  The condition of line 164
    always holds: the list never has more than [max] entries here. *)
Fixpoint insert_pair (p : pair) (r : list pair) : list pair :=
  match r with [] => [p] | x :: t => if qlt (weight p) (weight x) then x :: insert_pair p t else p :: r end.
(** FCDSkinController.cpp:160-169: one pair. *)
Definition reduce_step (max : nat) (min : Q) (r : list pair) (p : pair) : list pair :=
  if qle min (weight p) then
    let r1 := insert_pair p r in if Nat.ltb max (length r1) then removelast r1 else r1
  else r.
(** FCDSkinController.cpp:155, 170, 180-181: the sum of weights. *)
Definition total (l : list pair) : Q := fold_left (fun s p => s + weight p) l 0.
(** FCDSkinController.cpp:183. *)
Definition scale (f : Q) (p : pair) : pair := Pair (joint p) (weight p * f).
(** FCDSkinController.cpp:150-184: one vertex.  None: the factor of line 182 is a division by zero and some weight is
    multiplied with it. *)
Definition reduce_vertex (max : nat) (min : Q) (ps : list pair) : option (list pair) :=
  let r := fold_left (reduce_step max min) ps [] in
  if Nat.ltb (length r) (length ps) then
    match r with
    | [] => Some []
    | _ => if Qeq_dec (total r) 0 then None else Some (map (scale (total ps / total r)) r)
    end
  else Some ps.
(** FCDSkinController.cpp:148: all vertices. *)
Fixpoint ReduceInfluences (max : nat) (min : Q) (vs : list (list pair)) : option (list (list pair)) :=
  match vs with
  | [] => Some []
  | v :: r => match reduce_vertex max min v, ReduceInfluences max min r with
              | Some v1, Some r1 => Some (v1 :: r1)
              | _, _ => None
              end
  end.

(** *** Morph targets *)
(** What FCDController::GetBaseGeometry and FCDGeometry tell of an entity (FCDMorphController.cpp:110-135): a mesh with its
    number of positions (None without a position source), a spline with its number of control vertices, a geometry
    that is neither, or not a geometry. *)
Inductive shape := Mesh (positions : option nat) | Spline (cvs : nat) | Neither | NotGeometry.
(** The controller and its surroundings: [targets]: the geometry of each morph target (None for NULL);
    [base]: baseTarget; [present]: entities not released; [other]: the number of trackers of an entity other than
    this controller and its targets; [shape_of] is fixed. *)
Record morph := Morph { base : option nat; targets : list (option nat); present : nat -> bool; other : nat -> nat }.
(** FCDMorphController.cpp:100-166: IsSimilar. *)
Definition IsSimilar (shape_of : nat -> shape) (m : morph) (e : option nat) : bool :=
  match e, base m with
  | Some e, Some b =>
      match shape_of b, shape_of e with
      | Mesh p, Mesh (Some n) => Nat.eqb (match p with Some k => k | None => 0%nat end) n
      | Spline k, Spline n => Nat.eqb k n
      | _, _ => false
      end
  | _, _ => false
  end.
(** FCDMorphController.cpp:47-81: SetBaseTarget. *)
Definition SetBaseTarget (shape_of : nat -> shape) (m : morph) (e : option nat) : morph :=
  match e with
  | Some b => match shape_of b with
              | NotGeometry => Morph None [] (present m) (other m)
              | _ => let m1 := Morph (Some b) (targets m) (present m) (other m) in
                     Morph (Some b) (filter (IsSimilar shape_of m1) (targets m)) (present m) (other m)
              end
  | None => Morph None [] (present m) (other m)
  end.
(** FUTracker.h:54: GetTrackerCount of an entity; targets and base are tracked parameters. *)
Definition tracker_count (m : morph) (g : nat) : nat :=
  other m g + length (filter (fun t => match t with Some x => Nat.eqb x g | None => false end) (targets m)) +
  match base m with Some b => if Nat.eqb b g then 1 else 0 | None => 0 end.
(** Release of an entity: all trackers become NULL (FUTracker.cpp:28-38). *)
Definition release_entity (m : morph) (g : nat) : morph :=
  Morph (match base m with Some b => if Nat.eqb b g then None else Some b | None => None end)
        (map (fun t => match t with Some x => if Nat.eqb x g then None else Some x | None => None end) (targets m))
        (fun x => if Nat.eqb x g then false else present m x) (other m).
(** Assignment of one target's pointer. *)
Fixpoint set_target (l : list (option nat)) (i : nat) (g : option nat) : list (option nat) :=
  match l, i with [], _ => [] | _ :: r, O => g :: r | x :: r, S j => x :: set_target r j g end.
(** FCDMorphController.cpp:187-202: SetGeometry of target i.  None: the index is wrong, or the new geometry is used after
    its release. *)
Definition SetGeometry (shape_of : nat -> shape) (m : morph) (i : nat) (g : option nat) : option morph :=
  match nth_error (targets m) i with
  | None => None
  | Some old =>
      let m1 := match old with
                | Some o => if Nat.eqb (tracker_count m o) 1 then release_entity m o else m
                | None => m
                end in
      let accept := Morph (base m1) (set_target (targets m1) i g) (present m1) (other m1) in
      match g with
      | Some x => if present m1 x then
                    match base m1 with None => Some accept | Some _ => if IsSimilar shape_of m1 g then Some accept else Some m1 end
                  else None
      | None => match base m1 with None => Some accept | Some _ => Some m1 end
      end
  end.
(** FCDMorphController.cpp:84-97: AddTarget; whether a target was made. *)
Definition AddTarget (shape_of : nat -> shape) (m : morph) (g : option nat) : option (morph * bool) :=
  if match g with Some x => present m x | None => true end then
    if match base m with None => true | Some _ => IsSimilar shape_of m g end then
      let m1 := Morph (base m) (targets m ++ [None]) (present m) (other m) in
      match SetGeometry shape_of m1 (length (targets m)) g with Some m2 => Some (m2, true) | None => None end
    else Some (m, false)
  else None.
