(** Model of controllers and of the entities they deform: FCDocument/FCDController.cpp, FCDMorphController.cpp,
    FCDSkinController.cpp (the target and the number of influences) and, as far as a skin uses it,
    FCDEntityReference.cpp.  Entities are numbers; a number is never used twice, which stands for the unique ids (C15).
    Simplifications: one document; an entity is tracked by the library that lists it and by the controllers here,
    instances in scenes are not modelled; an entity found again by its id (LoadEntity) is not stored in the
    reference, as finding it again gives the same entity; weights, methods, joints, matrices and dirty flags are left
    out.  A call that uses a released entity or never returns gives [None]. *)
From Coq Require Import List Arith Bool.
Import ListNotations.

(** FCDGeometry.h, mesh or spline or neither; the number of values of the position source (FCDGeometryMesh.h,
    GetPositionSource), if there is one; the total number of control vertices. *)
Inductive shape := Mesh (positions : option nat) | Spline (cvs : nat) | Empty.
(** FCDController.h, skinController and morphController; FCDSkinController.h, target (entity and entityId of the
    reference) and the number of influences; FCDMorphController.h:126-127, base target and, for each morph target, its
    geometry (line 49). *)
Inductive control :=
| Plain
| Skin (entity entityId : option nat) (influences : nat)
| Morph (baseTarget : option nat) (targets : list (option nat)).
(** FCDEntity.h, GetType: only geometries and controllers matter here. *)
Inductive body := Geometry (s : shape) | Controller (k : control) | Other.
Record item := Item { listed : bool; content : body }.
Record world := World { ent : nat -> option item; count : nat }.
(** A document without entities. *)
Definition start : world := World (fun _ => None) 0.

(** Give the entity [i] new contents. *)
Definition put (w : world) (i : nat) (b : body) : world :=
  World (fun j => if Nat.eqb j i then option_map (fun x => Item (listed x) b) (ent w j) else ent w j) (count w).
Definition control_of (w : world) (c : nat) : option control :=
  match ent w c with Some (Item _ (Controller k)) => Some k | _ => None end.
Definition shape_of (w : world) (g : nat) : option shape :=
  match ent w g with Some (Item _ (Geometry s)) => Some s | _ => None end.

(** FCDocument.cpp:222-246, FindEntity: only the libraries are searched. *)
Definition FindEntity (w : world) (i : nat) : option nat :=
  match ent w i with Some x => if listed x then Some i else None | None => None end.
(** FCDEntityReference.cpp:56-64 with LoadEntity, 135-164. *)
Definition GetEntity (w : world) (entity entityId : option nat) : option nat :=
  match entity with
  | Some e => Some e
  | None => match entityId with Some i => FindEntity w i | None => None end
  end.
(** FCDController.cpp:59-70, GetBaseTarget. *)
Definition GetBaseTarget (w : world) (c : nat) : option nat :=
  match control_of w c with
  | Some (Skin e i _) => GetEntity w e i
  | Some (Morph b _) => b
  | _ => None
  end.
(** FCDController.cpp:75-85, the loop of GetBaseGeometry: [None] if it does not end or uses a released entity. *)
Fixpoint base_loop (w : world) (fuel : nat) (base : option nat) : option (option nat) :=
  match base with
  | None => Some None
  | Some b =>
      match ent w b with
      | None => None
      | Some (Item _ (Geometry _)) => Some (Some b)
      | Some (Item _ Other) => Some None
      | Some (Item _ (Controller _)) =>
          match fuel with O => None | S f => base_loop w f (GetBaseTarget w b) end
      end
  end.
(** FCDController.cpp:72-86, GetBaseGeometry; a loop that ends meets every controller at most once. *)
Definition GetBaseGeometry (w : world) (c : nat) : option (option nat) := base_loop w (count w) (GetBaseTarget w c).
(** FCDMorphController.cpp:51-57, 109-115, 138-144 and FCDSkinController.cpp:71-83: the geometry of an entity. *)
Definition actual_base (w : world) (e : option nat) : option (option nat) :=
  match e with
  | None => Some None
  | Some e =>
      match ent w e with
      | None => None
      | Some (Item _ (Geometry _)) => Some (Some e)
      | Some (Item _ Other) => Some None
      | Some (Item _ (Controller _)) => GetBaseGeometry w e
      end
  end.
(** FCDMorphController.cpp:117-134 and FCDSkinController.cpp:88-102: the number of vertices of a geometry. *)
Definition vertex_count (s : shape) : nat :=
  match s with Mesh (Some n) => n | Mesh None => 0 | Spline n => n | Empty => 0 end.
(** FCDMorphController.cpp:144-162: the comparison of a geometry with the base geometry [s]. *)
Definition similar (s t : shape) : bool :=
  match s, t with
  | Mesh _, Mesh (Some n) => Nat.eqb (vertex_count s) n
  | Spline m, Spline n => Nat.eqb m n
  | _, _ => false
  end.
(** FCDMorphController.cpp:99-166, IsSimilar of a controller with the base target [base]. *)
Definition IsSimilar (w : world) (base e : option nat) : option bool :=
  match base, e with
  | Some _, Some _ =>
      match actual_base w base, actual_base w e with
      | Some b, Some g =>
          match b, g with
          | Some b, Some g => match shape_of w b, shape_of w g with Some s, Some t => Some (similar s t) | _, _ => None end
          | _, _ => Some false
          end
      | _, _ => None
      end
  | _, _ => Some false
  end.

(** FCDMorphController.cpp:61-72: the targets that stay. *)
Fixpoint keep_similar (w : world) (base : option nat) (ts : list (option nat)) : option (list (option nat)) :=
  match ts with
  | [] => Some []
  | t :: ts =>
      match IsSimilar w base t, keep_similar w base ts with
      | Some b, Some r => Some (if b then t :: r else r)
      | _, _ => None
      end
  end.
(** FCDMorphController.cpp:46-81, SetBaseTarget. *)
Definition SetBaseTarget (w : world) (c : nat) (e : option nat) : option world :=
  match control_of w c with
  | Some (Morph _ ts) =>
      let w1 := put w c (Controller (Morph None ts)) in
      match actual_base w1 e with
      | None => None
      | Some None => Some (put w1 c (Controller (Morph None [])))
      | Some (Some _) =>
          let w2 := put w1 c (Controller (Morph e ts)) in
          match keep_similar w2 e ts with
          | Some r => Some (put w2 c (Controller (Morph e r)))
          | None => None
          end
      end
  | _ => None
  end.
(** FCDMorphController.cpp:83-97, AddTarget; SetGeometry of the new target repeats the same test. *)
Definition AddTarget (w : world) (c : nat) (g : option nat) : option world :=
  match control_of w c with
  | Some (Morph b ts) =>
      match (match b with None => Some true | Some _ => IsSimilar w b g end) with
      | Some true => Some (put w c (Controller (Morph b (ts ++ [g]))))
      | Some false => Some w
      | None => None
      end
  | _ => None
  end.

(** FUTracker.h:118-140 and FCDEntityReference.cpp:186-191: what a pointer becomes when [o] is released. *)
Definition drop (o : nat) (p : option nat) : option nat :=
  match p with Some e => if Nat.eqb e o then None else Some e | None => None end.
Definition forget (o : nat) (b : body) : body :=
  match b with
  | Controller (Skin (Some e) i n) => if Nat.eqb e o then Controller (Skin None None n) else b
  | Controller (Morph p ts) => Controller (Morph (drop o p) (map (drop o) ts))
  | _ => b
  end.
(** FUObject.cpp, Release, and FUTracker.cpp, the destructor of FUTrackable. *)
Definition release (w : world) (o : nat) : world :=
  World (fun j => if Nat.eqb j o then None else option_map (fun x => Item (listed x) (forget o (content x))) (ent w j)) (count w).
(** FUTracker.h:54, GetTrackerCount: the library and the pointers of the controllers. *)
Definition same (o : nat) (p : option nat) : nat := match p with Some e => if Nat.eqb e o then 1 else 0 | None => 0 end.
Definition pointers (o : nat) (b : body) : nat :=
  match b with
  | Controller (Skin e _ _) => same o e
  | Controller (Morph p ts) => same o p + list_sum (map (same o) ts)
  | _ => 0
  end.
Definition trackers (w : world) (o : nat) : nat :=
  (match ent w o with Some x => if listed x then 1 else 0 | None => 0 end) +
  list_sum (map (fun i => match ent w i with Some x => pointers o (content x) | None => 0 end) (seq 0 (count w))).

Fixpoint set_nth {A} (l : list A) (i : nat) (x : A) : list A :=
  match l, i with
  | [], _ => []
  | _ :: l, O => x :: l
  | y :: l, S i => y :: set_nth l i x
  end.
(** FCDMorphController.cpp:187-202, SetGeometry of the target [i]. *)
Definition SetGeometry (w : world) (c i : nat) (g : option nat) : option world :=
  match control_of w c with
  | Some (Morph _ ts) =>
      match nth_error ts i with
      | None => None
      | Some old =>
          let w := match old with Some o => if Nat.eqb (trackers w o) 1 then release w o else w | None => w end in
          match control_of w c with
          | Some (Morph b ts) =>
              if match g with Some x => match ent w x with Some _ => true | None => false end | None => true end then
                match (match b with None => Some true | Some _ => IsSimilar w b g end) with
                | Some true => Some (put w c (Controller (Morph b (set_nth ts i g))))
                | Some false => Some w
                | None => None
                end
              else None
          | _ => None
          end
      end
  | _ => None
  end.

(** FCDSkinController.cpp:66-115, SetTarget; SetEntity(NULL), FCDEntityReference.cpp:88-109, leaves the id alone. *)
Definition SetTarget (w : world) (c : nat) (e : option nat) : option world :=
  match control_of w c with
  | Some (Skin _ i n) =>
      let w1 := put w c (Controller (Skin None i n)) in
      match actual_base w1 e with
      | None => None
      | Some None => Some w1
      | Some (Some g) =>
          match shape_of w1 g with
          | Some s =>
              let v := vertex_count s in
              Some (put w1 c (Controller (Skin e e (if Nat.eqb n 0 then v else if Nat.eqb v n then n else v))))
          | None => None
          end
      end
  | _ => None
  end.
(** FCDSkinController.cpp:51-54 with FCDEntityReference.cpp:66-84, SetTargetUri with the id of [e]. *)
Definition SetTargetUri (w : world) (c e : nat) : option world :=
  match control_of w c with Some (Skin p _ n) => Some (put w c (Controller (Skin p (Some e) n))) | _ => None end.
(** FCDSkinController.cpp:117-122, SetInfluenceCount. *)
Definition SetInfluenceCount (w : world) (c n : nat) : option world :=
  match control_of w c with Some (Skin p i _) => Some (put w c (Controller (Skin p i n))) | _ => None end.

(** *** Histories *)
Inductive op :=
| NewGeometry (library : bool) (s : shape) | NewController (library : bool) | NewOther (library : bool)
| CreateSkin (c : nat) | CreateMorph (c : nat)
| OpSetBaseTarget (c : nat) (e : option nat) | OpAddTarget (c : nat) (g : option nat)
| OpSetGeometry (c i : nat) (g : option nat) | OpSetTarget (c : nat) (e : option nat) | OpSetTargetUri (c e : nat)
| OpSetInfluenceCount (c n : nat) | SetShape (g : nat) (s : shape) | Release (e : nat).
(** FCDLibrary.hpp:75-89, AddEntity, or a constructor alone. *)
Definition new (w : world) (b : bool) (k : body) : world :=
  World (fun j => if Nat.eqb j (count w) then Some (Item b k) else ent w j) (S (count w)).
(** FCDController.cpp:41-57, CreateSkinController and CreateMorphController; FCDGeometry.cpp:38-53 and changes of the
    position source or the control vertices; the other functions above. *)
Definition step (w : world) (o : op) : option world :=
  match o with
  | NewGeometry b s => Some (new w b (Geometry s))
  | NewController b => Some (new w b (Controller Plain))
  | NewOther b => Some (new w b Other)
  | CreateSkin c => match control_of w c with Some _ => Some (put w c (Controller (Skin None None 0))) | None => None end
  | CreateMorph c => match control_of w c with Some _ => Some (put w c (Controller (Morph None []))) | None => None end
  | OpSetBaseTarget c e => SetBaseTarget w c e
  | OpAddTarget c g => AddTarget w c g
  | OpSetGeometry c i g => SetGeometry w c i g
  | OpSetTarget c e => SetTarget w c e
  | OpSetTargetUri c e => SetTargetUri w c e
  | OpSetInfluenceCount c n => SetInfluenceCount w c n
  | SetShape g s => match shape_of w g with Some _ => Some (put w g (Geometry s)) | None => None end
  | Release e => match ent w e with Some _ => Some (release w e) | None => None end
  end.
Fixpoint run (w : world) (os : list op) : option world :=
  match os with
  | [] => Some w
  | o :: os => match step w o with Some w => run w os | None => None end
  end.
