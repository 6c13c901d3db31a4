(** Skin and morph controllers in COLLADA XML: FArchiveXML::WriteSkinController and WriteMorphController
    (FColladaPlugins/FArchiveXML/FAXControllerExport.cpp:30-159), LoadSkinController and LoadMorphController
    (FAXControllerImport.cpp:57-335), the sources they use (FAXColladaWriter.cpp:57-335, FAXColladaParser.cpp:23-212, 503-516) and
    ToMatrixList (FUtils/FUStringConversion.hpp:485-505), on the XML tree of DaeModel.v and with the texts of FloatModel.v.
    Weights and matrix components are finite rationals.  The writers are relations because the digits printf chooses are.
    Not modelled: libxml2 itself, the reference to the skinned geometry (attribute source of <skin>), the animations of the morph
    weights, error messages.  None is undefined behaviour (a NULL pointer, an element behind a list or a matrix that was not
    initialised is used). *)
From Coq Require Import List ZArith QArith Bool String.
From Verif Require Import TextModel StringModel XmlModel EnumModel FloatModel SkinModel DaeModel.
Import ListNotations.
Local Open Scope nat_scope.
Local Open Scope list_scope.

(** *** Sources *)
(** FAXColladaWriter.cpp:48-55: AddParameter. *)
Definition AddParameter (name type : list Z) : xml :=
  Elem (tx "param") ((match name with [] => [] | _ => [(tx "name", name)] end) ++ [(tx "type", type)]) [].
(** FAXColladaWriter.cpp:173: characters that are no letters are skipped. *)
Definition letter (c : Z) : bool := ((97 <=? c) && (c <=? 122))%Z || ((65 <=? c) && (c <=? 90))%Z.
Definition parameter_name (p : list Z) : list Z := skip_while (fun c => negb (letter c)) p.
(** FAXColladaWriter.cpp:154-190: AddAccessor; [parameters] is the list before the NULL entry, None is NULL.  The parameters are
    used in a circle.  The callers with [&parameter] as the list have stride 1, so the entry behind it is not read. *)
Definition AddAccessor (arrayId : list Z) (count stride : nat) (parameters : option (list (list Z))) (type : list Z) : xml :=
  Elem (tx "accessor")
    [(tx "source", 35%Z :: arrayId); (tx "count", append_u64 (Z.of_nat count)); (tx "stride", append_u64 (Z.of_nat stride))]
    (if negb (stride =? 16) && negb (stride =? 32) then
       map (fun i => AddParameter (match parameters with
                                   | Some ps => parameter_name (nth (i mod List.length ps) ps [])
                                   | None => []
                                   end) type) (seq 0 stride)
     else if stride =? 16 then [AddParameter (tx "TRANSFORM") (tx "float4x4")]
     else [AddParameter (tx "X_Y") (tx "float4x4")]).
(** FAXColladaWriter.cpp:68-75: AddArray; the text is not encoded. *)
Definition AddArray (id : list Z) (arrayType : string) (text : list Z) (count : nat) : xml :=
  Elem (tx arrayType) [(tx "id", id); (tx "count", append_u64 (Z.of_nat count))] (content text).
(** The common part of the AddSource functions (FAXColladaWriter.cpp:192-335). *)
Definition AddSource (id : list Z) (arrayType : string) (text : list Z) (length count stride : nat)
    (parameters : option (list (list Z))) (type : list Z) : xml :=
  Elem (tx "source") [(tx "id", id)]
    [AddArray (id ++ tx "-array") arrayType text length;
     Elem (tx "technique_common") [] [AddAccessor (id ++ tx "-array") count stride parameters type]].
(** FAXColladaWriter.cpp:139-152: the text of a list of strings. *)
Definition strings_text (l : list (list Z)) : list Z :=
  match l with [] => [] | s :: r => s ++ flat_map (fun w => 32%Z :: w) r end.
(** FAXColladaWriter.cpp:117-127: the text of a list of matrices. *)
Inductive matrices_rest (eps : Q) : list mat -> list Z -> Prop :=
| MR_nil : matrices_rest eps [] []
| MR_cons : forall m ms t u, ToString_matrix eps (fun i j => Fin (m i j)) t -> matrices_rest eps ms u ->
    matrices_rest eps (m :: ms) (32%Z :: t ++ u).
Inductive matrices_text (eps : Q) : list mat -> list Z -> Prop :=
| MT_nil : matrices_text eps [] []
| MT_cons : forall m ms t u, ToString_matrix eps (fun i j => Fin (m i j)) t -> matrices_rest eps ms u ->
    matrices_text eps (m :: ms) (t ++ u).
(** FAXColladaWriter.cpp:130-137 with FUStringConversion.hpp:558-568: the text of a list of floats. *)
Definition floats_text (eps : Q) (l : list Q) (t : list Z) : Prop := ToString_floats eps [] (map Fin l) t.

(** FUXmlParser.cpp:71-84 and 155-170 for a node that may be NULL. *)
Definition child_of (n : option xml) (type : string) : option xml := match n with Some n => FindChildByType n type | None => None end.
Definition property_of (n : option xml) (k : string) : list Z := match n with Some n => ReadNodeProperty n k | None => [] end.
Definition content_of (n : option xml) : list Z := match n with Some n => ReadNodeContentDirect n | None => [] end.
(** FAXColladaParser.cpp:95-99: FindTechniqueAccessor. *)
Definition FindTechniqueAccessor (n : xml) : option xml := child_of (FindChildByType n "technique_common") "accessor".
(** FAXColladaParser.cpp:503-516: ReadNodeCount and ReadNodeStride. *)
Definition count_of (n : option xml) : Z := fst (ToUInt32 (property_of n "count")).
Definition stride_of (n : option xml) : Z := let s := fst (ToUInt32 (property_of n "stride")) in if (s =? 0)%Z then 1%Z else s.
(** FAXColladaParser.cpp:23-39: FindChildById; an empty id finds nothing, a leading '#' is skipped. *)
Definition FindChildById (n : xml) (id : list Z) : option xml :=
  match id with
  | [] => None
  | _ => find (fun c => match c with Elem _ _ _ => text_eq (ReadNodeProperty c "id") (drop_hash id) | Text _ => false end) (children_of n)
  end.
(** fm::vector::resize; [d]: the value of new entries. *)
Definition resize {A} (l : list A) (n : Z) (d : A) : list A :=
  firstn (Z.to_nat n) l ++ repeat d (Z.to_nat n - List.length l).
(** FAXColladaParser.cpp:132-149: ReadSource for floats; the product is an uint32. *)
Definition ReadSourceFloats (a : arith) (n : option xml) (old : list Q) : option (list Q) :=
  match n with
  | None => Some old
  | Some n => let acc := FindTechniqueAccessor n in
      ToFloatList a (content_of (FindChildByType n "float_array")) (resize old (u32 (count_of acc * stride_of acc)) 0%Q)
  end.
(** FAXColladaParser.cpp:167-181: ReadSource for strings. *)
Definition ReadSourceStrings (n : option xml) (old : list (list Z)) : option (list (list Z)) :=
  match n with
  | None => Some old
  | Some n =>
      ToStringList (content_of (match FindChildByType n "Name_array" with Some c => Some c | None => FindChildByType n "IDREF_array" end))
        (resize old (count_of (FindTechniqueAccessor n)) [])
  end.
(** FUStringConversion.hpp:494-497: the loop over the existing matrices; result: the matrices, the number read, the rest. *)
Fixpoint matrices_fill (a : arith) (arr : list mat) (s : list Z) : option (list mat * nat * list Z) :=
  match arr, s with
  | [], _ | _, [] => Some (arr, 0, s)
  | m :: r, _ =>
      match ToMatrix a s m with
      | Some (m', s1) => match matrices_fill a r s1 with Some (l, k, s2) => Some (m' :: l, S k, s2) | None => None end
      | None => None
      end
  end.
(** FMMatrix44.cpp: FMMatrix44::Identity. *)
Definition identity_matrix : mat := fun i j => if i =? j then 1%Q else 0%Q.
(** FUStringConversion.hpp:499-504: the loop that appends matrices.  Each turn takes a character or more. *)
Fixpoint matrices_push (a : arith) (fuel : nat) (s : list Z) : option (list mat) :=
  match s, fuel with
  | [], _ => Some []
  | _, O => None
  | _, S f =>
      match ToMatrix a s identity_matrix with
      | Some (m, s1) => option_map (cons m) (matrices_push a f s1)
      | None => None
      end
  end.
(** FUStringConversion.hpp:485-505: ToMatrixList. *)
Definition ToMatrixList (a : arith) (s : list Z) (old : list mat) : option (list mat) :=
  match s with
  | [] => Some []
  | _ => match matrices_fill a old s with
         | Some (l, k, s1) => option_map (fun m => firstn (k + List.length m) (l ++ m)) (matrices_push a (List.length s) s1)
         | None => None
         end
  end.
(** FAXColladaParser.cpp:198-212: ReadSource for matrices; the entries made by resize are not initialised. *)
Definition ReadSourceMatrices (a : arith) (n : option xml) (old : list mat) : option (list mat) :=
  match n with
  | None => Some old
  | Some n => ToMatrixList a (content_of (FindChildByType n "float_array")) (resize old (count_of (FindTechniqueAccessor n)) (fun _ _ => 0%Q))
  end.

(** *** Skins *)
(** FCDSkinController.h:86-200: joints with id and inverse bind pose; for every vertex its pairs of joint number and weight. *)
Record skin := Skin { bind_shape : mat; joints : list (list Z * mat); influences : list (list pair) }.
(** FMath/FMFloat.h:29: IsEquivalent for floats. *)
Definition near (x y : Q) : bool := qlt (x - y) (1 # 10000) && qlt (y - x) (1 # 10000).
(** FAXControllerExport.cpp:66-77: the weights other than 1, in order. *)
Definition other_weights (ps : list pair) : list Q := filter (fun w => negb (near w 1)) (map weight ps).
Definition weight_table (s : skin) : list Q := 1%Q :: flat_map other_weights (influences s).
(** FAXControllerExport.cpp:97-101: the numbers of one vertex; [k] is weightOffset. *)
Fixpoint match_numbers (ps : list pair) (k : nat) : list Z :=
  match ps with
  | [] => []
  | p :: r => if near (weight p) 1 then joint p :: 0%Z :: match_numbers r k else joint p :: Z.of_nat k :: match_numbers r (S k)
  end.
(** FAXControllerExport.cpp:92-103: the numbers of all vertices.  weightOffset is an uint32; it does not wrap for fewer than 2^32
    weights. *)
Fixpoint all_numbers (l : list (list pair)) (k : nat) : list Z :=
  match l with
  | [] => []
  | ps :: r => match_numbers ps k ++ all_numbers r (k + List.length (other_weights ps))
  end.
(** FAXControllerExport.cpp:91-105: the texts: every number is followed by a blank; the last blank of vertexMatches is removed.
    Joint numbers are written with append(int32), the others with append(uint32), which give the same digits. *)
Definition vertexCounts (s : skin) : list Z := flat_map (fun ps => append_u32 (Z.of_nat (List.length ps)) ++ [32%Z]) (influences s).
Definition vertexMatches (s : skin) : list Z := removelast (flat_map (fun n => append_i32 n ++ [32%Z]) (all_numbers (influences s) 1)).
(** FAXControllerExport.cpp:30-107: WriteSkinController; [id] is the id of the controller, [tb], [tp] and [tw] are the texts of the
    bind shape, the bind poses and the weights.  Attributes come in the order in which they are added. *)
Definition skin_element (id : list Z) (s : skin) (tb tp tw : list Z) : xml :=
  let n := List.length (joints s) in
  let w := List.length (weight_table s) in
  Elem (tx "skin") []
    [Elem (tx "bind_shape_matrix") [] (content (AddContent tb));
     AddSource (id ++ tx "-joints") "Name_array" (strings_text (map fst (joints s))) n n 1 (Some [tx "JOINT"]) (tx "Name");
     AddSource (id ++ tx "-bind_poses") "float_array" tp (n * 16) n 16 None (tx "float4x4");
     AddSource (id ++ tx "-weights") "float_array" tw w w 1 (Some [tx "WEIGHT"]) (tx "float");
     Elem (tx "joints") []
       (AddInput (id ++ tx "-joints") (tx "JOINT") (-1) (-1) ++ AddInput (id ++ tx "-bind_poses") (tx "INV_BIND_MATRIX") (-1) (-1));
     Elem (tx "vertex_weights") [(tx "count", append_u64 (Z.of_nat (List.length (influences s))))]
       (AddInput (id ++ tx "-joints") (tx "JOINT") 0 (-1) ++ AddInput (id ++ tx "-weights") (tx "WEIGHT") 1 (-1) ++
        [Elem (tx "vcount") [] (content (AddContent (vertexCounts s))); Elem (tx "v") [] (content (AddContent (vertexMatches s)))])].
Definition WriteSkinController (eps : Q) (id : list Z) (s : skin) (n : xml) : Prop :=
  exists tb tp tw, ToString_matrix eps (fun i j => Fin (bind_shape s i j)) tb /\ matrices_text eps (map snd (joints s)) tp /\
    floats_text eps (weight_table s) tw /\ n = skin_element id s tb tp tw.

(** FAXControllerImport.cpp:106-117: the <input> elements before the first <v> or <vcount>, and the children from that one on. *)
Fixpoint combiner_children (l : list xml) : list xml * list xml :=
  match l with
  | [] => ([], [])
  | c :: r =>
      if named c "input" then let '(i, v) := combiner_children r in (c :: i, v)
      else if named c "v" || named c "vcount" then ([], l)
      else combiner_children r
  end.
(** FAXControllerImport.cpp:124-127: what is gathered from the inputs; [sids]: jointAreSids (59-67). *)
Record gathered := Gathered { joint_at : Z; weight_at : Z; names : list (list Z); sids : bool; poses : list mat; weights : list Q }.
(** FAXControllerImport.cpp:128-161: one input. *)
Definition gather (a : arith) (root : xml) (g : gathered) (input : xml) : option gathered :=
  let semantic := ReadNodeProperty input "semantic" in
  let source := FindChildById root (ReadNodeProperty input "source") in
  let at_attr (old : Z) := match ReadNodeProperty input "offset" with [] => Some old | t => option_map fst (ToInt32 a t) end in
  if text_eq semantic (tx "JOINT") then
    match at_attr (joint_at g) with
    | Some j =>
        match names g with
        | [] => match ReadSourceStrings source [] with
                | Some l => Some (Gathered j (weight_at g) l (match child_of source "Name_array" with Some _ => true | None => false end)
                                    (poses g) (weights g))
                | None => None
                end
        | _ => Some (Gathered j (weight_at g) (names g) (sids g) (poses g) (weights g))
        end
    | None => None
    end
  else if text_eq semantic (tx "INV_BIND_MATRIX") then
    match ReadSourceMatrices a source (poses g) with
    | Some l => Some (Gathered (joint_at g) (weight_at g) (names g) (sids g) l (weights g))
    | None => None
    end
  else if text_eq semantic (tx "WEIGHT") then
    match at_attr (weight_at g) with
    | Some w =>
        match ReadSourceFloats a source (weights g) with
        | Some l => Some (Gathered (joint_at g) w (names g) (sids g) (poses g) l)
        | None => None
        end
    | None => None
    end
  else Some g.
Fixpoint gather_all (a : arith) (root : xml) (g : gathered) (inputs : list xml) : option gathered :=
  match inputs with [] => Some g | i :: r => match gather a root g i with Some g => gather_all a root g r | None => None end end.
(** A list element at an index computed with size_t arithmetic: a negative one wraps and is behind the list. *)
Definition at_index {A} (l : list A) (i : Z) : option A := if (i <? 0)%Z then None else nth_error l (Z.to_nat i).
(** FAXControllerImport.cpp:202-216: one pair. *)
Definition load_pair (g : gathered) (idx : list Z) (offset : nat) : option pair :=
  match at_index idx (Z.of_nat offset + joint_at g), at_index idx (Z.of_nat offset + weight_at g) with
  | Some j, Some w =>
      let j := if ((j <? -1) || (s32 (Z.of_nat (List.length (names g))) <=? j))%Z then (-1)%Z else j in
      let w := if (Z.of_nat (List.length (weights g)) <=? u32 w)%Z then 0%Z else u32 w in
      option_map (Pair j) (at_index (weights g) w)
  | _, _ => None
  end.
(** FCDSkinController.h:41-49: the pairs made by SetPairCount. *)
Definition new_pair : pair := Pair (-1) 0.
(** FAXControllerImport.cpp:200-218: the pairs of one vertex; for an empty list of numbers combinerVertexIndexCount - 1 wraps. *)
Fixpoint load_pairs (g : gathered) (idx : list Z) (todo offset : nat) : option (list pair * nat) :=
  match todo with
  | O => Some ([], offset)
  | S t =>
      if match List.length idx with O => true | S k => offset <? k end then
        match load_pair g idx offset with
        | Some p => match load_pairs g idx t (offset + 2) with Some (r, o) => Some (p :: r, o) | None => None end
        | None => None
        end
      else Some (repeat new_pair todo, offset)
  end.
(** FAXControllerImport.cpp:195-219: all vertices; [todo] vertices remain, [counts] are the remaining entries of
    combinerVertexCounts. *)
Fixpoint load_vertices (g : gathered) (idx : list Z) (todo : nat) (counts : list Z) (offset : nat) : option (list (list pair)) :=
  match todo with
  | O => Some []
  | S t =>
      match counts with
      | [] => None
      | c :: r =>
          match load_pairs g idx (Z.to_nat c) offset with
          | Some (ps, o) => option_map (cons ps) (load_vertices g idx t r o)
          | None => None
          end
      end
  end.
(** FAXControllerImport.cpp:223-232: one vertex is normalized. *)
Definition normalize (ps : list pair) : list pair :=
  let s := total ps in if near s 0 || near s 1 then ps else map (scale (1 / s)) ps.
(** FAXControllerImport.cpp:235-240: the joints. *)
Fixpoint load_joints (names : list (list Z)) (poses : list mat) : option (list (list Z * mat)) :=
  match names, poses with
  | [], _ => Some []
  | n :: r, p :: q => option_map (cons (n, p)) (load_joints r q)
  | _ :: _, [] => None
  end.
(** What LoadSkinController does to a new controller: its status, the skin and jointAreSids. *)
Record loaded_skin := LoadedSkin { status : bool; the_skin : skin; joint_sids : bool }.
(** FAXControllerImport.cpp:77-83: the bind shape; ToMatrix(content) of an empty text is not initialised. *)
Definition load_bind_shape (a : arith) (n : xml) : option mat :=
  match FindChildByType n "bind_shape_matrix" with
  | None => Some identity_matrix
  | Some b => match ReadNodeContentDirect b with
              | [] => None
              | t => option_map fst (ToMatrix a t identity_matrix)
              end
  end.
(** FAXControllerImport.cpp:57-243: LoadSkinController on a new controller. *)
Definition LoadSkinController (a : arith) (n : xml) : option loaded_skin :=
  if negb (named n "skin") then Some (LoadedSkin true (Skin identity_matrix [] []) false)
  else
    match load_bind_shape a n with
    | None => None
    | Some b =>
        match FindChildByType n "joints", FindChildByType n "vertex_weights" with
        | Some jn, Some wn =>
            let '(inputs, values) := combiner_children (children_of wn) in
            match gather_all a n (Gathered 0 1 [] false [] []) (filter (fun c => named c "input") (children_of jn) ++ inputs) with
            | None => None
            | Some g =>
                match values with
                | [] => None
                | first :: rest =>
                    match find (fun c => match c with Elem _ _ _ => true | Text _ => false end) rest with
                    | None => None
                    | Some v =>
                        match ToUInt32List (ReadNodeContentDirect first) [], ToInt32List a (ReadNodeContentDirect v) [] with
                        | Some counts, Some idx =>
                            match load_vertices g idx (Z.to_nat (ReadNodeCount wn)) counts 0, load_joints (names g) (poses g) with
                            | Some vs, Some js => Some (LoadedSkin true (Skin b js (map normalize vs)) (sids g))
                            | _, _ => None
                            end
                        | _, _ => None
                        end
                    end
                end
            end
        | _, _ => Some (LoadedSkin false (Skin b [] []) false)
        end
    end.

(** *** Morphs *)
(** FCDMorphController.h: the method, the id of the base target (empty: none) and the targets: the id of the geometry (None: no
    geometry) and the weight. *)
Record morph := Morph { method : Z; base_target : list Z; targets : list (option (list Z) * Q) }.
(** FUtils/FUDaeEnum.cpp:177-193: FUDaeMorphMethod on texts. *)
Definition MethodFromString (t : list Z) : Z := from_chain (chain FUDaeMorphMethod) (otherwise FUDaeMorphMethod) t.
Definition MethodToString (v : Z) : list Z := tx (ToString FUDaeMorphMethod v).
(** FAXControllerExport.cpp:130: the id written for a target. *)
Definition target_id (t : option (list Z) * Q) : list Z := match fst t with Some i => i | None => tx "UNKNOWN_IDREF" end.
(** FAXControllerExport.cpp:109-159: WriteMorphController; [tw] is the text of the weights. *)
Definition morph_element (id : list Z) (m : morph) (tw : list Z) : xml :=
  let n := List.length (targets m) in
  Elem (tx "morph")
    ((tx "method", MethodToString (method m)) :: (match base_target m with [] => [] | b => [(tx "source", 35%Z :: b)] end))
    [AddSource (id ++ tx "-targets") "IDREF_array" (strings_text (map target_id (targets m))) n n 1 (Some [tx "MORPH_TARGET"]) (tx "IDREF");
     AddSource (id ++ tx "-morph_weights") "float_array" tw n n 1 (Some [tx "MORPH_WEIGHT"]) (tx "float");
     Elem (tx "targets") []
       (AddInput (id ++ tx "-targets") (tx "MORPH_TARGET") (-1) (-1) ++ AddInput (id ++ tx "-morph_weights") (tx "MORPH_WEIGHT") (-1) (-1))].
Definition WriteMorphController (eps : Q) (id : list Z) (m : morph) (n : xml) : Prop :=
  exists tw, floats_text eps (map snd (targets m)) tw /\ n = morph_element id m tw.
(** FAXControllerImport.cpp:280-299: the sources named by the inputs: targetSourceNode and weightSourceNode. *)
Definition morph_input (root : xml) (st : option xml * option xml) (input : xml) : option xml * option xml :=
  let semantic := ReadNodeProperty input "semantic" in
  let source := FindChildById root (ReadNodeProperty input "source") in
  if text_eq semantic (tx "MORPH_WEIGHT") || text_eq semantic (tx "WEIGHT") then (fst st, source)
  else if text_eq semantic (tx "MORPH_TARGET") || text_eq semantic (tx "TARGET") then (source, snd st)
  else st.
(** FAXControllerImport.cpp:318-333 with FCDMorphController.cpp:84-97 (the base target is not linked yet, so every target is
    added): the targets; [geometries]: the ids of the geometries of the document. *)
Fixpoint load_targets (geometries : list (list Z)) (ids : list (list Z)) (ws : list Q) : option (list (option (list Z) * Q)) :=
  match ids, ws with
  | [], _ => Some []
  | i :: r, w :: q => option_map (cons ((if existsb (text_eq i) geometries then Some i else None), w)) (load_targets geometries r q)
  | _ :: _, [] => None
  end.
(** FAXControllerImport.cpp:245-335: LoadMorphController on a new controller; the base target is the text that is linked later
    (271).  A missing <targets> element is used at 302. *)
Definition LoadMorphController (a : arith) (geometries : list (list Z)) (n : xml) : option morph :=
  if negb (named n "morph") then Some (Morph 0 [] [])
  else
    let m := MethodFromString (ReadNodeProperty n "method") in
    let b := ReadNodeProperty n "source" in
    match FindChildByType n "targets" with
    | None => None
    | Some t =>
        match fold_left (morph_input n) (filter (fun c => named c "input") (children_of t)) (None, None) with
        | (Some ts, Some ws) =>
            match ReadSourceStrings (Some ts) [], ReadSourceFloats a (Some ws) [] with
            | Some ids, Some l => option_map (Morph m b) (load_targets geometries ids l)
            | _, _ => None
            end
        | _ => Some (Morph m b [])
        end
    end.
