(** Lights and cameras in COLLADA XML: WriteLight and LoadLight (FColladaPlugins/FArchiveXML/FAXLightExport.cpp:16-106,
    FAXLightImport.cpp:16-185), LoadPenumbra (FCollada/FCDocument/FCDLightTools.cpp:24-41), WriteCamera and LoadCamera
    (FAXCameraExport.cpp:15-78, FAXCameraImport.cpp:15-97), the setters of FCDCamera (FCollada/FCDocument/FCDCamera.cpp:41-61), on the XML
    tree of DaeModel.v, the extra trees of CustomModel.v and the texts of FloatModel.v.  Numbers are finite rationals and the arithmetic on
    them is exact; the writers are relations because the digits printf chooses are.
    Not modelled: animated values, the id, name and asset of the entity, error messages, the deprecated penumbraAngle (never written nor
    read).  None is undefined behaviour. *)
From Coq Require Import String List ZArith QArith Bool.
From Verif Require Import TextModel StringModel XmlModel FloatModel DaeModel ExtraModel CustomModel.
Import ListNotations.
Local Open Scope Q_scope.
Local Open Scope list_scope.

(** *** Lights *)
(** FCDLight.h:65-71, LightType. *)
Inductive lkind := POINT | SPOT | AMBIENT | DIRECTIONAL.
(** The members of FCDLight.h:78-91 that are numbers. *)
Inductive field := Constant | Linear | Quadratic | FallOffAngle | FallOffExponent | Intensity | Outer | Dropoff.
Definition field_eq (f g : field) : bool :=
  match f, g with
  | Constant, Constant | Linear, Linear | Quadratic, Quadratic | FallOffAngle, FallOffAngle | FallOffExponent, FallOffExponent
  | Intensity, Intensity | Outer, Outer | Dropoff, Dropoff => true
  | _, _ => false
  end.
(** FUtils/FUDaeSyntax.h:184-188, 480, 560, 654: the names of the elements and parameters. *)
Definition field_name (f : field) : string :=
  match f with
  | Constant => "constant_attenuation" | Linear => "linear_attenuation" | Quadratic => "quadratic_attenuation"
  | FallOffAngle => "falloff_angle" | FallOffExponent => "falloff_exponent" | Intensity => "intensity" | Outer => "outer_cone"
  | Dropoff => "dropoff"
  end.
(** FUtils/FUDaeSyntax.h:178-181, FAXLightExport.cpp:24-31. *)
Definition kind_name (k : lkind) : string :=
  match k with POINT => "point" | SPOT => "spot" | AMBIENT => "ambient" | DIRECTIONAL => "directional" end.
(** FCDLight.h:77-91; a colour of None is not initialised. *)
Definition rgb : Type := (Q * Q * Q)%type.
Record light := Light { kind : lkind; color : option rgb; value : field -> Q }.
(** FCDLight.cpp:25-38, the constructor. *)
Definition default_value (f : field) : Q :=
  match f with Constant => 1 | Linear | Quadratic => 0 | FallOffExponent => 1 | FallOffAngle | Outer => 5 | Intensity => 1 | Dropoff => 0 end.
Definition new_light : light := Light POINT (Some (1, 1, 1)) default_value.
Definition set_value (f : field) (v : Q) (l : light) : light :=
  Light (kind l) (color l) (fun g => if field_eq g f then v else value l g).

(** FAXLightExport.cpp:44-52 and 66-72: the values that are elements. *)
Definition common_fields (k : lkind) : list field :=
  match k with POINT | SPOT => [Constant; Linear; Quadratic] | _ => [] end ++
  match k with SPOT => [FallOffAngle; FallOffExponent] | _ => [] end.
(** FAXLightExport.cpp:53-64, 73-99: the values that are parameters of the FCOLLADA technique, in this order. *)
Definition extra_fields (k : lkind) : list field :=
  match k with DIRECTIONAL => [Constant; Linear; Quadratic] | _ => [] end ++
  match k with DIRECTIONAL => [FallOffAngle; FallOffExponent] | _ => [] end ++
  [Intensity] ++
  match k with DIRECTIONAL | SPOT => [Outer] | _ => [] end ++
  match k with SPOT => [Dropoff] | _ => [] end.
(** FAXLightExport.cpp:101-104: the parameters are released (the last n children), and the technique when it has no children then. *)
Fixpoint drop_parameters (n : nat) (x : enode) : enode :=
  match n with O => x | S n => drop_parameters n (drop_parameter x) end.
Fixpoint release_parameters (n : nat) (ts : list technique) : list technique :=
  match ts with
  | [] => []
  | x :: r => if str_eq_dec (fst x) (tx "FCOLLADA")
              then let y := drop_parameters n (snd x) in if has_children y then (fst x, y) :: r else r
              else x :: release_parameters n r
  end.
(** FAXLightExport.cpp:36-37, 53-99: AddTechnique, then AddParameter on the technique it returned (the first FCOLLADA technique, which
    with_parameter finds again). *)
Definition add_parameters (ps : list (string * str)) (e : extra) : option extra :=
  fold_left (fun r p => match r with Some e => with_parameter (fst p) (snd p) e | None => None end) ps
            (default_then (fun t => (fst t, AddTechnique_then (tx "FCOLLADA") (fun x => x) (snd t))) e).
(** FAXLightExport.cpp:16-106, WriteLight, with the texts of the numbers given: the element, and the extra tree afterwards. *)
Definition write_light (attrs : list (str * str)) (k : lkind) (color_text : str) (text : field -> str) (e : extra) (note : str) (target : option str)
  : option (xml * extra) :=
  match add_parameters (map (fun f => (field_name f, text f)) (extra_fields k)) e with
  | Some e1 =>
      match WriteTargetedEntityExtra e1 note target with
      | Some (l, e2) =>
          option_map (fun e3 =>
            (Elem (tx "light") attrs
               ([Elem (tx "technique_common") []
                   [Elem (tx (kind_name k)) []
                      (Elem (tx "color") [] (content (AddContent color_text)) ::
                       map (fun f => Elem (tx (field_name f)) [] (content (text f))) (common_fields k))]] ++ l), e3))
            (default_then (fun t => (fst t, release_parameters (List.length (extra_fields k)) (snd t))) e2)
      | None => None
      end
  | None => None
  end.
(** The same with the texts FUStringConversion::ToString and FUStringBuilder::append (FUStringBuilder.hpp:206-231) write. *)
Definition WriteLight (eps : Q) (attrs : list (str * str)) (l : light) (e : extra) (note : str) (target : option str) (n : xml) (e' : extra) : Prop :=
  exists x y z color_text text,
    color l = Some (x, y, z) /\ ToString_vector eps (map Fin [x; y; z]) color_text /\
    (forall f, appends eps (Fin (value l f)) (text f)) /\
    write_light attrs (kind l) color_text text e note target = Some (n, e').

(** FAXColladaParser.cpp:103-128, FindParameters: the elements below, without <technique> and <extra>. *)
Definition FindParameters (n : xml) : list xml :=
  filter (fun c => is_element c && negb (named c "technique" || named c "extra")) (children_of n).
(** FAXLightImport.cpp:31-45: the first <point>, <spot>, <ambient> or <directional>. *)
Fixpoint find_kind (l : list xml) : option (lkind * xml) :=
  match l with
  | [] => None
  | c :: r => if named c "point" then Some (POINT, c) else if named c "spot" then Some (SPOT, c)
              else if named c "ambient" then Some (AMBIENT, c) else if named c "directional" then Some (DIRECTIONAL, c)
              else find_kind r
  end.
(** FAXLightImport.cpp:58-98: one element. *)
Definition LoadCommon (a : arith) (l : light) (n : xml) : option light :=
  let t := ReadNodeContentDirect n in
  if named n "color" then match ToVector3 a t with Some (c, _) => Some (Light (kind l) c (value l)) | None => None end
  else match find (fun f => named n (field_name f)) [Constant; Linear; Quadratic; FallOffExponent; FallOffAngle] with
       | Some f => match ToFloat a t with Some (v, _) => Some (set_value f v l) | None => None end
       | None => Some l
       end.
(** FCDExtra.cpp:235-246, FCDENode::FindParameters on the techniques of FAXLightImport.cpp:101-109: the children without children. *)
Definition leaf (x : enode) : list (str * str) := match x with ENode n t _ [] => [(n, t)] | _ => [] end.
Definition children_of_node (x : enode) : list enode := match x with ENode _ _ _ kids => kids end.
Definition tree_parameters (ts : list technique) : list (str * str) := flat_map (fun t => flat_map leaf (children_of_node (snd t))) ts.
(** FAXLightImport.cpp:121-158: the value that a name stands for. *)
Definition field_of (name : str) : option field :=
  find (fun f => text_eq name (tx (field_name f)))
       [FallOffExponent; FallOffAngle; Constant; Linear; Quadratic; Intensity; Outer; Dropoff].
(** FAXLightImport.cpp:113-173: one parameter; the content of the last penumbra is kept. *)
Definition LoadParameter (a : arith) (s : light * option str) (p : str * str) : option (light * option str) :=
  match field_of (fst p) with
  | Some f => match ToFloat a (snd p) with Some (v, _) => Some (set_value f v (fst s), snd s) | None => None end
  | None => if text_eq (fst p) (tx "penumbra_angle") then Some (fst s, Some (snd p)) else Some s
  end.
(** FAXLightImport.cpp:172: the nodes that were used are released. *)
Definition is_value (x : enode) : bool :=
  match leaf x with [] => false | p :: _ => match field_of (fst p) with Some _ => true | None => false end end.
Definition is_penumbra (x : enode) : bool := match leaf x with [] => false | p :: _ => text_eq (fst p) (tx "penumbra_angle") end.
Definition drop_values (t : technique) : technique :=
  match snd t with ENode n c attrs kids => (fst t, ENode n c attrs (filter (fun x => negb (is_value x)) kids)) end.
(** FAXLightImport.cpp:149-154 and 180: of the penumbra nodes the last one is released. *)
Fixpoint drop_last (l : list enode) : option (list enode) :=
  match l with
  | [] => None
  | x :: r => match drop_last r with Some r' => Some (x :: r') | None => if is_penumbra x then Some r else None end
  end.
Fixpoint drop_penumbra (ts : list technique) : option (list technique) :=
  match ts with
  | [] => None
  | t :: r =>
      match drop_penumbra r with
      | Some r' => Some (t :: r')
      | None => match snd t with
                | ENode n c attrs kids => option_map (fun kids' => (fst t, ENode n c attrs kids') :: r) (drop_last kids)
                end
      end
  end.
(** FCDLightTools.cpp:24-41, LoadPenumbra without animations. *)
Definition LoadPenumbra (l : light) (penumbra : Q) : light :=
  let angle := value l FallOffAngle in
  if Qle_bool 0 penumbra then set_value Outer (angle + 2 * penumbra) l
  else let angle' := angle - 2 * - penumbra in
       set_value Outer (angle' + 2 * - penumbra) (set_value FallOffAngle angle' l).
Definition fold_option {A B} (f : A -> B -> option A) (l : list B) (x : option A) : option A :=
  fold_left (fun r b => match r with Some a => f a b | None => None end) l x.
(** FAXLightImport.cpp:16-185, LoadLight, for a new light: the light, its extra tree, note and targetId. *)
Definition LoadLight (a : arith) (n : xml) : option (light * extra * str * str) :=
  match LoadTargetedEntity n with
  | None => None
  | Some (e, note, target) =>
      if negb (named n "light") then Some (new_light, e, note, target)
      else
        match FindChildByType n "technique_common" with
        | None => None
        | Some c =>
            let '(l0, ps) := match find_kind (children_of c) with
                             | Some (k, p) => (Light k (color new_light) (value new_light), FindParameters p)
                             | None => (new_light, [])
                             end in
            match fold_option (LoadCommon a) ps (Some l0), find (fun t => if str_eq_dec (fst t) [] then true else false) e with
            | Some l1, Some (_, ts) =>
                match fold_option (LoadParameter a) (tree_parameters ts) (Some (l1, None)) with
                | None => None
                | Some (l2, None) => option_map (fun e' => (l2, e', note, target)) (default_then (fun t => (fst t, map drop_values ts)) e)
                | Some (l2, Some content) =>
                    match ToFloat a content with
                    | None => None
                    | Some (v, _) =>
                        let ts1 := map drop_values ts in
                        option_map (fun e' => (LoadPenumbra l2 v, e', note, target))
                          (default_then (fun t => (fst t, match drop_penumbra ts1 with Some ts2 => ts2 | None => ts1 end)) e)
                    end
                end
            | _, _ => None
            end
        end
  end.

(** *** Cameras *)
(** FCDCamera.h:56-60. *)
Inductive projection := PERSPECTIVE | ORTHOGRAPHIC.
(** FCDCamera.h:66-78: the two flags say which of the two views is given; an aspect ratio of None is not a finite number. *)
Record camera := Camera { proj : projection; viewX : Q; viewY : Q; aspect : option Q; nearZ : Q; farZ : Q; hasX : bool; hasY : bool }.
(** FCDCamera.cpp:24-35. *)
Definition new_camera : camera := Camera PERSPECTIVE 60 60 (Some 1) 1 1000 false false.
(** FMath/FMFloat.h:29 with FLT_TOLERANCE: IsEquivalent(q, 0.0f). *)
Definition is_zero (q : Q) : bool := negb (Qle_bool (1 # 10000) q) && negb (Qle_bool q (- (1 # 10000))).
(** The division of FCDCamera.cpp:44 and 52. *)
Definition quotient (x y : Q) : option Q := if Qeq_bool y 0 then None else Some (x / y).
(** FCDCamera.cpp:41-47. *)
Definition SetFovX (v : Q) (c : camera) : camera :=
  Camera (proj c) v (viewY c) (if hasY c && negb (is_zero v) then quotient v (viewY c) else aspect c) (nearZ c) (farZ c) true (hasY c).
(** FCDCamera.cpp:49-55. *)
Definition SetFovY (v : Q) (c : camera) : camera :=
  Camera (proj c) (viewX c) v (if hasX c && negb (is_zero (viewX c)) then quotient (viewX c) v else aspect c) (nearZ c) (farZ c) (hasX c) true.
(** FCDCamera.cpp:57-61, FCDCamera.h:217, 224, 98. *)
Definition SetAspectRatio (v : Q) (c : camera) : camera := Camera (proj c) (viewX c) (viewY c) (Some v) (nearZ c) (farZ c) (hasX c) (hasY c).
Definition SetNearZ (v : Q) (c : camera) : camera := Camera (proj c) (viewX c) (viewY c) (aspect c) v (farZ c) (hasX c) (hasY c).
Definition SetFarZ (v : Q) (c : camera) : camera := Camera (proj c) (viewX c) (viewY c) (aspect c) (nearZ c) v (hasX c) (hasY c).
Definition SetProjectionType (p : projection) (c : camera) : camera := Camera p (viewX c) (viewY c) (aspect c) (nearZ c) (farZ c) (hasX c) (hasY c).
(** FCDCamera.h:200. *)
Definition HasAspectRatio (c : camera) : bool := negb (hasY c && hasX c).
(** FAXCameraExport.cpp:23-41, FUtils/FUDaeSyntax.h:151-163. *)
Definition projection_name (p : projection) : string := match p with PERSPECTIVE => "perspective" | ORTHOGRAPHIC => "orthographic" end.
Definition view_name (p : projection) (horizontal : bool) : string :=
  match p, horizontal with PERSPECTIVE, true => "xfov" | PERSPECTIVE, false => "yfov" | ORTHOGRAPHIC, true => "xmag" | ORTHOGRAPHIC, false => "ymag" end.
(** FAXCameraExport.cpp:43-65: the elements and their values. *)
Definition camera_values (c : camera) : list (string * option Q) :=
  (if hasX c then [(view_name (proj c) true, Some (viewX c))] else []) ++
  (if negb (hasX c) || hasY c then [(view_name (proj c) false, Some (viewY c))] else []) ++
  (if HasAspectRatio c then [("aspect_ratio"%string, aspect c)] else []) ++
  [("znear"%string, Some (nearZ c)); ("zfar"%string, Some (farZ c))].
(** FAXCameraExport.cpp:15-78, WriteCamera.  (A number that is not finite is not considered.) *)
Definition WriteCamera (eps : Q) (attrs : list (str * str)) (c : camera) (e : extra) (note : str) (target : option str) (n : xml) (e' : extra) : Prop :=
  exists texts l,
    Forall2 (fun p t => exists q, snd p = Some q /\ appends eps (Fin q) t) (camera_values c) texts /\
    WriteTargetedEntityExtra e note target = Some (l, e') /\
    n = Elem (tx "camera") attrs
          ([Elem (tx "optics") []
              [Elem (tx "technique_common") []
                 [Elem (tx (projection_name (proj c))) []
                    (map (fun pt => Elem (tx (fst (fst pt))) [] (content (snd pt))) (combine (camera_values c) texts))]]] ++ l).
(** FAXCameraImport.cpp:66-91: one element. *)
Definition LoadCameraParameter (a : arith) (c : camera) (n : xml) : option camera :=
  match find (fun p => named n (fst p))
             [("znear"%string, SetNearZ); ("zfar"%string, SetFarZ); ("xfov"%string, SetFovX); ("yfov"%string, SetFovY);
              ("xmag"%string, SetFovX); ("ymag"%string, SetFovY); ("aspect_ratio"%string, SetAspectRatio)] with
  | Some (_, set) => match ToFloat a (ReadNodeContentDirect n) with Some (v, _) => Some (set v c) | None => None end
  | None => Some c
  end.
(** FUXmlParser.cpp:71-84 on a pointer that may be NULL. *)
Definition child (n : option xml) (type : string) : option xml := match n with Some n => FindChildByType n type | None => None end.
(** FAXCameraImport.cpp:15-97, LoadCamera, for a new camera. *)
Definition LoadCamera (a : arith) (n : xml) : option (camera * extra * str * str) :=
  match LoadTargetedEntity n with
  | None => None
  | Some (e, note, target) =>
      if negb (named n "camera") then Some (new_camera, e, note, target)
      else
        let optics := FindChildByType n "optics" in
        let common := child optics "technique_common" in
        match (match optics with Some o => LoadExtra o e | None => Some e end) with
        | None => None
        | Some e1 =>
            match child common "orthographic", child common "perspective" with
            | Some _, Some _ => Some (new_camera, e1, note, target)
            | None, None => Some (new_camera, e1, note, target)
            | Some o, None =>
                option_map (fun c => (c, e1, note, target)) (fold_option (LoadCameraParameter a) (FindParameters o) (Some (SetProjectionType ORTHOGRAPHIC new_camera)))
            | None, Some p =>
                option_map (fun c => (c, e1, note, target)) (fold_option (LoadCameraParameter a) (FindParameters p) (Some (SetProjectionType PERSPECTIVE new_camera)))
            end
        end
  end.
