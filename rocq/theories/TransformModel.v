(** The transformations of scene nodes: FCDTransform and its sub-classes (FCDocument/FCDTransform.cpp) and the functions of
    FCDSceneNode that use them (FCDocument/FCDSceneNode.cpp:151-162, 248-272, 307-311), in exact real arithmetic on the
    matrices of MatrixModel.v and RotModel.v and the scene graphs of SceneModel.v; tanf is the tangent and FMath::Pi is
    pi.  Animation is not modelled. *)
From Coq Require Import List Arith Reals ZArith Bool.
From Verif Require Import IdModel MatrixModel QuatModel RotModel SceneModel.
Import ListNotations.
Local Open Scope R_scope.

(** FCDTransform.h: the value of a transformation, by class; angles are in degrees. *)
Inductive transform :=
| TTranslation (translation : vec3)
| TRotation (axis : vec3) (angle : R)
| TScale (scale : vec3)
| TMatrix (transform : mat)
| TLookAt (position target up : vec3)
| TSkew (rotateAxis aroundAxis : vec3) (angle : R).
(** FCDTransform.h:51-60: enum Type; TYPE_COUNT and above are no type. *)
Inductive kind := TRANSLATION | ROTATION | SCALE | MATRIX | LOOKAT | SKEW | NO_TYPE.
(** FCDTransform.h: GetType of each class. *)
Definition GetType (t : transform) : kind :=
  match t with
  | TTranslation _ => TRANSLATION | TRotation _ _ => ROTATION | TScale _ => SCALE | TMatrix _ => MATRIX
  | TLookAt _ _ _ => LOOKAT | TSkew _ _ _ => SKEW
  end.
(** FMath.h:99. *)
Definition DegToRad (val : R) : R := val * PI / 180.
(** FMVector3.h:127-128: operator[]. *)
Definition coord (v : vec3) (i : nat) : R := match i with 0%nat => x3 v | 1%nat => y3 v | _ => z3 v end.
(** FCDTransform.cpp:294-316: FCDTSkew::ToMatrix; the cast to float pointer lists v[0][0], v[0][1], ... *)
Definition skew_matrix (rotateAxis aroundAxis : vec3) (angle : R) : mat :=
  let s := tan (DegToRad angle) in
  let v := fun col row =>
    if (Nat.eqb col 3 && Nat.eqb row 3)%bool then 1
    else if (Nat.eqb col 3 || Nat.eqb row 3)%bool then 0
    else (if Nat.eqb row col then 1 else 0) + s * coord rotateAxis col * coord aroundAxis row in
  Set_ (fun i => v (i / 4)%nat (i mod 4)%nat).
(** FCDTransform.cpp:80-83, 123-126, 172-175, 251-254, 294-316; FCDTransform.h:422 (FCDTMatrix): ToMatrix. *)
Definition ToMatrix (t : transform) : mat :=
  match t with
  | TTranslation t => TranslationMatrix t
  | TRotation axis angle => AxisRotationMatrix axis (DegToRad angle)
  | TScale s => ScaleMatrix s
  | TMatrix m => m
  | TLookAt p t u => LookAtMatrix p t u
  | TSkew r a angle => skew_matrix r a angle
  end.
(** FCDTransform.cpp:39-42, 95-99, 138-146: IsInverse. *)
Definition IsInverse (this other : transform) : bool :=
  match this, other with
  | TTranslation t, TTranslation u => IsEquivalent3 (vscale (-1) t) u
  | TRotation a x, TRotation b y =>
      ((IsEquivalent3 a b && IsEquivalent (- x) y) || (IsEquivalent3 (vneg a) b && IsEquivalent x y))%bool
  | _, _ => false
  end.
(** FCDTransform.cpp:61-64, 107-110, 156-159, 187-190, 230-233, 269-272, 329-341: FCDTFactory::CreateTransform with the
    values that the constructors set; None is NULL. *)
Definition CreateTransform (type : kind) : option transform :=
  match type with
  | TRANSLATION => Some (TTranslation (V3 0 0 0))
  | ROTATION => Some (TRotation XAxis 0)
  | SCALE => Some (TScale (V3 1 1 1))
  | SKEW => Some (TSkew XAxis YAxis 0)
  | MATRIX => Some (TMatrix Identity)
  | LOOKAT => Some (TLookAt (V3 0 0 0) (vneg ZAxis) YAxis)
  | NO_TYPE => None
  end.
(** A transformation with its sub id, FCDTransform.h:66. *)
Definition entry : Type := transform * list Z.
(** FCDTransform.cpp:44-48: SetSubId. *)
Definition SetSubId (subId : list Z) (e : entry) : entry := (fst e, CleanSubId subId).
(** FCDSceneNode.cpp:151-162: AddTransform: the new stack; the new transformation has no sub id.  FMArray.h: insert puts
    the element before the given position. *)
Definition AddTransform (type : kind) (index : nat) (transforms : list entry) : list entry :=
  match CreateTransform type with
  | Some t => if (length transforms <? index)%nat then transforms ++ [(t, [])]
              else firstn index transforms ++ [(t, [])] ++ skipn index transforms
  | None => transforms
  end.
(** FCDSceneNode.cpp:248-256: FCDSceneNode::ToMatrix. *)
Definition node_matrix (transforms : list entry) : mat :=
  fold_left (fun localTransform e => product localTransform (ToMatrix (fst e))) transforms Identity.
(** FCDSceneNode.cpp:258-272: CalculateWorldTransform; [tr n] is the stack of the node n.  FCDSceneNode.h:104: GetParent
    gives the first parent. *)
Fixpoint CalculateWorldTransform (fuel : nat) (g : graph) (tr : nat -> list entry) (n : nat) : res mat :=
  match fuel with
  | O => Fuel
  | S f =>
      match par g n with
      | parent :: _ => match CalculateWorldTransform f g tr parent with
                       | Done m => Done (product m (node_matrix (tr n)))
                       | Fuel => Fuel
                       | Bad => Bad
                       end
      | [] => Done (node_matrix (tr n))
      end
  end.
(** FCDTransform.cpp:68-78 and the same for each class: Clone into a transformation: the value is copied if the class is the
    same. *)
Definition Clone (this : transform) (clone : entry) : entry :=
  match this, fst clone with
  | TTranslation _, TTranslation _ | TRotation _ _, TRotation _ _ | TScale _, TScale _ | TMatrix _, TMatrix _
  | TLookAt _ _ _, TLookAt _ _ _ | TSkew _ _ _, TSkew _ _ _ => (this, snd clone)
  | _, _ => clone
  end.
(** FCDSceneNode.cpp:307-311: cloning the stack into [clone]: AddTransform without an index, that is the greatest size_t,
    appends; then the last entry is cloned into. *)
Definition add_and_clone (clone : list entry) (e : entry) : list entry :=
  let clone := AddTransform (GetType (fst e)) (S (length clone)) clone in
  match rev clone with
  | last :: before => rev before ++ [Clone (fst e) last]
  | [] => []
  end.
Definition clone_stack (this clone : list entry) : list entry := fold_left add_and_clone this clone.
