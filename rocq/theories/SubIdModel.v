(** The sub ids of scene nodes: FCDSceneNode::SetSubId and FCDSceneNode::FindSubId (FCDocument/FCDSceneNode.cpp:177-233),
    on the scene graphs of SceneModel.v.  [sub n] is the member daeSubId of the node n, a list of byte values. *)
From Coq Require Import List Arith ZArith Bool.
From Verif Require Import TextModel UniqueModel IdModel SceneModel.
Import ListNotations.

(** FCDSceneNode.cpp:223-233: FindSubId: the node itself, or the first hit among the children, in order. *)
Fixpoint FindSubId (fuel : nat) (g : graph) (sub : nat -> list Z) (subId : list Z) (n : nat) : res (option nat) :=
  match fuel with
  | 0 => Fuel
  | S f =>
      if str_eqb (sub n) subId then Done (Some n) else
      (fix loop (l : list nat) : res (option nat) :=
         match l with
         | [] => Done None
         | c :: r => match FindSubId f g sub subId c with Done None => loop r | found => found end
         end) (chi g n)
  end.

(** FCDSceneNode.cpp:189-207: the do loop: [tree] is parentTree, [k] curParent, [ids] parentSubIds. *)
Fixpoint parents_up (fuel : nat) (g : graph) (sub : nat -> list Z) (curNode : nat) (tree : list nat) (k : nat)
    (ids : list (list Z)) : res (list (list Z)) :=
  match fuel with
  | 0 => Fuel
  | S f =>
      let tree := tree ++ par g curNode in
      let ids := ids ++ filter (fun s => match s with [] => false | _ => true end) (map sub (par g curNode)) in
      match nth_error tree k with
      | Some p => parents_up f g sub p tree (S k) ids
      | None => Done ids
      end
  end.

(** FCDSceneNode.cpp:212: the loop condition. *)
Definition taken (fuel : nat) (g : graph) (sub : nat -> list Z) (ids : list (list Z)) (n : nat) (newSubId : list Z) : res bool :=
  match FindSubId fuel g sub newSubId n with
  | Done (Some _) => Done true
  | Done None => Done (existsb (str_eqb newSubId) ids)
  | Fuel => Fuel
  | Bad => Bad
  end.
(** FCDSceneNode.cpp:214: the text of try number idMod. *)
Definition numbered (subId : list Z) (idMod : Z) : list Z := subId ++ [95%Z] ++ append_i32 idMod.
(** FCDSceneNode.cpp:211-218: the loop; [left] is 512 - idMod. *)
Fixpoint pick (left : nat) (fuel : nat) (g : graph) (sub : nat -> list Z) (ids : list (list Z)) (n : nat)
    (subId newSubId : list Z) (idMod : Z) : res (list Z) :=
  match taken fuel g sub ids n newSubId with
  | Done false => Done newSubId
  | Done true => let newSubId := numbered subId idMod in
                 match left with
                 | 0 => Done newSubId
                 | S l => pick l fuel g sub ids n subId newSubId (idMod + 1)
                 end
  | Fuel => Fuel
  | Bad => Bad
  end.
(** FCDSceneNode.cpp:177-220: SetSubId: the sub ids afterwards. *)
Definition SetSubId (fuel : nat) (g : graph) (sub : nat -> list Z) (n : nat) (subId : list Z) : res (nat -> list Z) :=
  let sub := upd sub n [] in
  match subId with
  | [] => Done sub
  | _ => match parents_up fuel g sub n [] 0 [] with
         | Done ids => match pick 512 fuel g sub ids n subId (CleanSubId subId) 0 with
                       | Done newSubId => Done (upd sub n newSubId)
                       | Fuel => Fuel
                       | Bad => Bad
                       end
         | Fuel => Fuel
         | Bad => Bad
         end
  end.
