(** Animations in COLLADA XML: FArchiveXML::WriteAnimationChannel, WriteSource-, WriteSampler- and WriteChannelFCDAnimationCurve
    and their versions for merged curves (FColladaPlugins/FArchiveXML/FAXAnimationExport.cpp:22-153, 304-677), LoadAnimationChannel,
    FindChildByIdFCDAnimation and LoadAnimation (FAXAnimationImport.cpp:27-428), the sources they use (FAXColladaWriter.cpp:68-352,
    FAXColladaParser.cpp:77-428, FUtils/FUStringConversion.hpp:387-433), SplitTarget and ParseQualifier (FUStringConversion.cpp:
    210-241), on the XML tree of DaeModel.v with the texts of FloatModel.v and the sources of RigModel.v.  Times and values are
    finite rationals (0.0001f and the divisions by 3 are exact).  The list of interpolations that is written begins with memory
    that was never initialised (FAXAnimationExport.cpp:407-410); its contents are a parameter.  Not modelled: libxml2 itself, the
    decision whether to merge the curves of a channel (27-83; merging itself is in CurveModel.v), the links to the animated values,
    ids, names and extra data of the animations, error messages.  None is undefined behaviour (an element behind a list or a value
    that was never initialised is used). *)
From Coq Require Import List ZArith NArith QArith Bool String.
From Verif Require Import TextModel StringModel XmlModel EnumModel FloatModel DaeModel RigModel CrcModel.
From Verif Require IdModel.
Import ListNotations.
Local Open Scope nat_scope.
Local Open Scope list_scope.

(** *** Curves *)
(** FCDAnimationKey.h:26-71: the class of a key and the members of that class; [interpolation] of the other two classes is fixed
    (FCDAnimationCurve.cpp:141-156). *)
Inductive shape := Plain (interp : Z) | Bezier (i o : Q * Q) | Tcb (tension continuity bias easeIn easeOut : Q).
Record key := Key { input : Q; output : Q; kind : shape }.
(** FUtils/FUDaeEnum.h:29-40: BEZIER and TCB. *)
Definition interpolation (s : shape) : Z := match s with Plain z => z | Bezier _ _ => 2%Z | Tcb _ _ _ _ _ => 3%Z end.
Definition is_bezier (s : shape) : bool := match s with Bezier _ _ => true | _ => false end.
Definition is_tcb (s : shape) : bool := match s with Tcb _ _ _ _ _ => true | _ => false end.
(** FCDAnimationCurve.h: the keys, the infinities and the driver, as the pointer to the driving value and its index. *)
Record curve := Curve { keys : list key; pre_infinity : Z; post_infinity : Z; driver : option (list Z * Z) }.
(** FUtils/FUDaeEnum.cpp:28-52 and 196-220 on texts. *)
Definition InterpolationFromString (t : list Z) : Z := from_chain (chain FUDaeInterpolation) (otherwise FUDaeInterpolation) t.
Definition InterpolationToString (v : Z) : list Z := tx (ToString FUDaeInterpolation v).
Definition InfinityFromString (t : list Z) : Z := from_chain (chain FUDaeInfinity) (otherwise FUDaeInfinity) t.
Definition InfinityToString (v : Z) : list Z := tx (ToString FUDaeInfinity v).

(** *** Writing *)
(** FAXAnimationExport.cpp:314-319 and 432-439: hasTangents and hasTCB. *)
Definition has_tangents (ks : list key) : bool := existsb (fun k => is_bezier (kind k)) ks.
Definition has_tcb (ks : list key) : bool := existsb (fun k => is_tcb (kind k)) ks.
(** FAXAnimationExport.cpp:338-358 and 556-577: the numbers written for one key.  The lists never lag behind the list of
    interpolations, because every key adds to them, so they are never grown. *)
Definition in_numbers (k : key) : list Q :=
  match kind k with Bezier (u, v) _ => [u; v] | _ => [(input k - (1 # 10000))%Q; output k] end.
Definition out_numbers (k : key) : list Q :=
  match kind k with Bezier _ (u, v) => [u; v] | _ => [(input k + (1 # 10000))%Q; output k] end.
(** FAXAnimationExport.cpp:359-379 and 578-606. *)
Definition tcb_numbers (k : key) : list Q := match kind k with Tcb t c b _ _ => [t; c; b] | _ => [1 # 2; 1 # 2; 1 # 2]%Q end.
Definition ease_numbers (k : key) : list Q := match kind k with Tcb _ _ _ i o => [i; o] | _ => [0; 0]%Q end.
(** FAXColladaWriter.cpp:262-272, 274-305: AddSourceFloat and AddSourceTangent; a list of vectors gives the same text as the list of
    their components (FAXColladaWriter.cpp:77-108, FUStringConversion.hpp:265-275).  A stride 0 becomes 1. *)
Definition AddSourceFloat (id text : list Z) (length stride : nat) (parameters : option (list (list Z))) : xml :=
  let stride := if stride =? 0 then 1 else stride in
  AddSource id "float_array" text length (length / stride) stride parameters (if stride =? 16 then tx "float4x4" else tx "float").
(** FAXColladaWriter.cpp:329-352: AddSourceInterpolation. *)
Definition AddSourceInterpolation (id : list Z) (l : list Z) : xml :=
  AddSource id "Name_array" (strings_text (map InterpolationToString l)) (List.length l) (List.length l) 1 (Some [tx "INTERPOLATION"]) (tx "Name").
(** FAXAnimationExport.cpp:422-427: the infinities, in a new <technique> (FAXColladaWriter.cpp:33-46) of the source of the times. *)
Definition with_infinities (n : xml) (pre post : Z) : xml :=
  match n with
  | Elem k a ch => Elem k a (ch ++ [Elem (tx "technique") [(tx "profile", tx "MAYA")]
      [Elem (tx "pre_infinity") [] (content (AddContent (InfinityToString pre)));
       Elem (tx "post_infinity") [] (content (AddContent (InfinityToString post)))]])
  | Text t => Text t
  end.
(** FAXAnimationExport.cpp:309-310: a leading '.' is skipped. *)
Definition skip_dot (t : list Z) : list Z := match t with c :: r => if (c =? 46)%Z then r else t | [] => [] end.
(** The texts of the numbers: times, values, tangents, TCB values and eases. *)
Record texts := Texts { t_in : list Z; t_out : list Z; t_itan : list Z; t_otan : list Z; t_tcb : list Z; t_ease : list Z }.
(** The sources of [dimension] merged curves; [times], [interps]: the time and the interpolation of each key; [cells]: for each key
    the values of all curves.  Common part of FAXAnimationExport.cpp:329-427 (dimension 1, one cell for each key) and 537-638.
    [memory]: what the memory of the new list interpolations_ holds. *)
Definition sources (base : list Z) (dimension : nat) (times : list Q) (interps memory : list Z) (cells : list key)
    (parameters tcb_parameters : option (list (list Z))) (pre post : Z) (t : texts) : list xml :=
  with_infinities (AddSourceFloat (base ++ tx "-input") (t_in t) (List.length times) 1 (Some [tx "TIME"])) pre post ::
  AddSourceFloat (base ++ tx "-output") (t_out t) (List.length cells) dimension parameters ::
  AddSourceInterpolation (base ++ tx "-interpolations") (memory ++ interps) ::
  (if has_tangents cells then
     [AddSourceFloat (base ++ tx "-intangents") (t_itan t) (2 * List.length cells) (dimension * 2) (Some [tx "X"; tx "Y"]);
      AddSourceFloat (base ++ tx "-outtangents") (t_otan t) (2 * List.length cells) (dimension * 2) (Some [tx "X"; tx "Y"])]
   else []) ++
  (if has_tcb cells then
     [AddSourceFloat (base ++ tx "-tcbs") (t_tcb t) (3 * List.length cells) (dimension * 3) tcb_parameters;
      AddSourceFloat (base ++ tx "-eases") (t_ease t) (2 * List.length cells) (dimension * 2)
        (match tcb_parameters with None => None | Some _ => Some [tx "X"; tx "Y"] end)]
   else []).
(** t holds the texts of these numbers. *)
Definition texts_of (eps : Q) (times : list Q) (cells : list key) (t : texts) : Prop :=
  floats_text eps times (t_in t) /\ floats_text eps (map output cells) (t_out t) /\
  floats_text eps (flat_map in_numbers cells) (t_itan t) /\ floats_text eps (flat_map out_numbers cells) (t_otan t) /\
  floats_text eps (flat_map tcb_numbers cells) (t_tcb t) /\ floats_text eps (flat_map ease_numbers cells) (t_ease t).
(** FAXAnimationExport.cpp:304-428: WriteSourceFCDAnimationCurve. *)
Definition curve_sources (base qualifier memory : list Z) (c : curve) (t : texts) : list xml :=
  sources base 1 (map input (keys c)) (map (fun k => interpolation (kind k)) (keys c)) memory (keys c) (Some [skip_dot qualifier]) None
    (pre_infinity c) (post_infinity c) t.
(** FAXAnimationExport.cpp:460-474: the text for the driver; the index 0 is written twice. *)
Definition driver_text (p : list Z) (i : Z) : list Z :=
  p ++ (if (0 <=? i)%Z then 40%Z :: append_i32 i ++ [41%Z] else []) ++ (if (i =? 0)%Z then 40%Z :: append_i32 i ++ [41%Z] else []).
(** FAXAnimationExport.cpp:441-458 and 654-666: the inputs of a sampler. *)
Definition sampler_inputs (base : list Z) (cells : list key) : list xml :=
  AddInput (base ++ tx "-input") (tx "INPUT") (-1) (-1) ++ AddInput (base ++ tx "-output") (tx "OUTPUT") (-1) (-1) ++
  AddInput (base ++ tx "-interpolations") (tx "INTERPOLATION") (-1) (-1) ++
  (if has_tangents cells then
     AddInput (base ++ tx "-intangents") (tx "IN_TANGENT") (-1) (-1) ++ AddInput (base ++ tx "-outtangents") (tx "OUT_TANGENT") (-1) (-1)
   else []) ++
  (if has_tcb cells then AddInput (base ++ tx "-tcbs") (tx "TCB") (-1) (-1) ++ AddInput (base ++ tx "-eases") (tx "EASE_IN_OUT") (-1) (-1)
   else []).
(** FAXAnimationExport.cpp:430-479: WriteSamplerFCDAnimationCurve. *)
Definition curve_sampler (base : list Z) (c : curve) : xml :=
  Elem (tx "sampler") [(tx "id", base ++ tx "-sampler")]
    (sampler_inputs base (keys c) ++
     match driver c with Some (p, i) => AddInput (driver_text p i) (tx "DRIVER") (-1) (-1) | None => [] end).
(** FAXAnimationExport.cpp:481-500 and 668-677: WriteChannelFCDAnimationCurve; a merged curve has no qualifier. *)
Definition channel_node (base pointer : list Z) (element : Z) (qualifier : list Z) : xml :=
  Elem (tx "channel") [(tx "source", 35%Z :: base ++ tx "-sampler");
    (tx "target", pointer ++ (if (0 <=? element)%Z then 40%Z :: append_i32 element ++ [41%Z] else []) ++ qualifier)] [].
(** A curve of a channel with targetElement and targetQualifier of its FCDAnimationCurveData (FArchiveXML.h), and the memory met when
    it is written. *)
Record targeted := Targeted { t_curve : curve; element : Z; qualifier : list Z; memory : list Z }.
(** FAXAnimationExport.cpp:122-130: the id of a curve. *)
Definition curve_id (base : list Z) (c : targeted) : list Z :=
  IdModel.CleanId (base ++ (if (0 <=? element c)%Z then 95%Z :: append_i32 (element c) ++ [95%Z] else []) ++ qualifier c).
(** FAXAnimationExport.cpp:105-147: the curves of a channel that are not merged: all sources, then all samplers, then all
    channels. *)
Definition channel_elements (base pointer : list Z) (cs : list (targeted * texts)) : list xml :=
  flat_map (fun c => curve_sources (curve_id base (fst c)) (qualifier (fst c)) (memory (fst c)) (t_curve (fst c)) (snd c)) cs ++
  map (fun c => curve_sampler (curve_id base (fst c)) (t_curve (fst c))) cs ++
  map (fun c => channel_node (curve_id base (fst c)) pointer (element (fst c)) (qualifier (fst c))) cs.
(** FAXAnimationExport.cpp:28: baseId. *)
Definition base_id (animation pointer : list Z) : list Z := IdModel.CleanId (animation ++ [95%Z] ++ pointer).
Definition WriteCurves (eps : Q) (animation pointer : list Z) (cs : list targeted) (out : list xml) : Prop :=
  exists ts, Forall2 (fun c t => texts_of eps (map input (keys (t_curve c))) (keys (t_curve c)) t) cs ts /\
    out = channel_elements (base_id animation pointer) pointer (combine cs ts).
(** FCDAnimationKey.h:79-177 and FCDAnimationMultiCurve.h: a multi-dimensional key: its time, its interpolation and for each
    dimension the value and the members of the class of the key, all with the time of the key; a merged curve has [dimension]
    values in each key, an element and the qualifiers of the values. *)
Record mkey := MKey { m_input : Q; m_interpolation : Z; m_cells : list key }.
Record multi := Multi { dimension : nat; m_keys : list mkey; m_pre : Z; m_post : Z; m_element : Z }.
(** FAXAnimationExport.cpp:504-638: WriteSourceFCDAnimationMultiCurve; without dimensions nothing is written. *)
Definition multi_sources (base : list Z) (qualifiers : list (list Z)) (memory : list Z) (m : multi) (t : texts) : list xml :=
  if dimension m =? 0 then []
  else sources base (dimension m) (map m_input (m_keys m)) (map m_interpolation (m_keys m)) memory (flat_map m_cells (m_keys m))
         (if dimension m =? 16 then None else Some (map skip_dot qualifiers)) (Some [tx "X"; tx "Y"; tx "Z"; tx "W"]) (m_pre m) (m_post m) t.
(** FAXAnimationExport.cpp:85-103, 640-677: the merged curves of a channel. *)
Definition multi_elements (base pointer : list Z) (qualifiers : list (list Z)) (memory : list Z) (m : multi) (t : texts) : list xml :=
  multi_sources base qualifiers memory m t ++
  [Elem (tx "sampler") [(tx "id", base ++ tx "-sampler")] (sampler_inputs base (flat_map m_cells (m_keys m)));
   channel_node base pointer (m_element m) []].
Definition WriteMerged (eps : Q) (animation pointer : list Z) (qualifiers : list (list Z)) (memory : list Z) (m : multi) (out : list xml) : Prop :=
  exists t, texts_of eps (map m_input (m_keys m)) (flat_map m_cells (m_keys m)) t /\
    out = multi_elements (base_id animation pointer) pointer qualifiers memory m t.
(** FAXAnimationExport.cpp:22-153: WriteAnimationChannel, once it is decided (27-83) whether the curves are merged: a channel with its
    target and its curves. *)
Inductive track :=
| Separate (pointer : list Z) (cs : list targeted)
| Merged (pointer : list Z) (qualifiers : list (list Z)) (memory : list Z) (m : multi).
Definition WriteAnimationChannel (eps : Q) (animation : list Z) (t : track) (out : list xml) : Prop :=
  match t with
  | Separate pointer cs => WriteCurves eps animation pointer cs out
  | Merged pointer qualifiers memory m => WriteMerged eps animation pointer qualifiers memory m out
  end.
(** FCDAnimation: its id, channels and children. *)
Inductive tree := Tree (id : list Z) (tracks : list track) (subs : list tree).
(** FAXAnimationExport.cpp:176-199: WriteAnimation.  [attrs]: id and name of the animation (WriteToEntityXMLFCDEntity); <asset>, <note>
    and <extra> are left out. *)
Inductive WriteAnimation (eps : Q) : tree -> xml -> Prop :=
| WA : forall id tracks subs attrs outs nodes, Forall2 (WriteAnimationChannel eps id) tracks outs -> Forall2 (WriteAnimation eps) subs nodes ->
    WriteAnimation eps (Tree id tracks subs) (Elem (tx "animation") attrs (List.concat outs ++ nodes)).

(** *** Reading sources *)
(** FUtils/FUXmlParser.cpp:173-186: ReadNodePropertyCRC of the id: without an id 0; the text is not decoded. *)
Definition id_crc (n : xml) : N :=
  match n with
  | Elem _ a _ => match find_attr a (tx "id") with Some t => CRC32 (map Z.to_N t) | None => 0%N end
  | Text _ => 0%N
  end.
Definition is_element (n : xml) : bool := match n with Elem _ _ _ => true | Text _ => false end.
(** FAXAnimationImport.cpp:366-379 and FAXColladaParser.cpp:519-540: FindChildByIdFCDAnimation; [scopes]: the children of the
    animation, of its parent and so on.  Nodes are compared by the CRC of their ids. *)
Fixpoint FindChildByIdFCDAnimation (scopes : list (list xml)) (id : list Z) : option xml :=
  match scopes with
  | [] => None
  | l :: r =>
      match find (fun c => is_element c && (id_crc c =? CRC32 (map Z.to_N (drop_hash id)))%N) l with
      | Some c => Some c
      | None => FindChildByIdFCDAnimation r id
      end
  end.
(** One turn of the loops over the columns: [k] columns of vectors with [w] components; the pointers to the first [room] of them
    exist.  Reading stops at the end of the text. *)
Fixpoint read_row (a : arith) (w k room : nat) (s : list Z) : option (list (list Q) * list Z) :=
  match k, s with
  | O, _ => Some ([], s)
  | _, [] => Some ([], [])
  | S k, _ =>
      match room with
      | O => None
      | S room =>
          match ToFloats a w s with
          | Some (v, s1) => match read_row a w k room s1 with Some (r, s2) => Some (v :: r, s2) | None => None end
          | None => None
          end
      end
  end.
(** The loop over the entries that exist. *)
Fixpoint read_rows (a : arith) (w k count : nat) (s : list Z) : option (list (list (list Q)) * list Z) :=
  match count, s with
  | O, _ => Some ([], s)
  | _, [] => Some ([], [])
  | S count, _ =>
      match read_row a w k k s with
      | Some (r, s1) => match read_rows a w k count s1 with Some (l, s2) => Some (r :: l, s2) | None => None end
      | None => None
      end
  end.
(** The loop that appends entries.  Each turn takes a character or more, since k is not 0. *)
Fixpoint more_rows (a : arith) (fuel w k room : nat) (s : list Z) : option (list (list (list Q))) :=
  match s, fuel with
  | [], _ => Some []
  | _, O => None
  | _, S f =>
      match read_row a w k room s with
      | Some (r, s1) => option_map (cons r) (more_rows a f w k room s1)
      | None => None
      end
  end.
(** Column i after both loops: [count] entries that are not initialised (None) unless they were read, then the appended ones. *)
Definition column (count : nat) (rows more : list (list (list Q))) (i : nat) : list (option (list Q)) :=
  map (fun r => nth_error r i) rows ++ repeat None (count - List.length rows) ++
  flat_map (fun r => match nth_error r i with Some v => [Some v] | None => [] end) more.
Definition read_table (a : arith) (w k more_k count : nat) (s : list Z) : option (list (list (list Q)) * list (list (list Q))) :=
  match read_rows a w k count s with
  | Some (rows, s1) => option_map (fun more => (rows, more)) (more_rows a (List.length s1) w more_k k s1)
  | None => None
  end.
Definition float_text_of (n : xml) : list Z := content_of (FindChildByType n "float_array").
(** FAXColladaParser.cpp:214-233 with FUStringConversion.hpp:387-433: ReadSourceInterleaved for floats into [curves] new lists, for a
    stride that equals [curves]: the only caller takes [curves] from the stride.  The lists are cut to the entries that count. *)
Definition ReadInterleavedFloats (a : arith) (curves : nat) (n : xml) : option (list (list (option (list Q)))) :=
  let count := Z.to_nat (count_of (FindTechniqueAccessor n)) in
  match read_table a 1 curves curves count (float_text_of n) with
  | Some (rows, more) =>
      let valid := List.length rows + List.length (filter (fun r => List.length r =? curves) more) in
      Some (map (fun i => firstn valid (column count rows more i)) (seq 0 curves))
  | None => None
  end.
(** FAXColladaParser.cpp:235-307 and 309-402: ReadSourceInterleaved for FMVector2 ([w] = 2) and FMVector3 ([w] = 3) into [curves] new
    lists: the stride and the lists.  With the stride [curves] each entry has one number and the others are 0.  Otherwise there are
    as many lists as fit the stride, the last ones are left as they are, and the loop that appends goes to stride / 2 for
    FMVector3 as well. *)
Definition ReadInterleaved (a : arith) (w curves : nat) (n : xml) : option (nat * list (list (option (list Q)))) :=
  let acc := FindTechniqueAccessor n in
  let count := Z.to_nat (count_of acc) in
  let stride := Z.to_nat (stride_of acc) in
  if stride =? curves then
    match read_table a 1 stride stride count (float_text_of n) with
    | Some (rows, more) =>
        Some (stride, map (fun i => map (option_map (fun v => v ++ repeat 0%Q (w - 1))) (column count rows more i)) (seq 0 curves))
    | None => None
    end
  else
    let lists := (stride + w - 1) / w in
    match read_table a w lists ((stride + 1) / 2) count (float_text_of n) with
    | Some (rows, more) =>
        Some (stride, map (fun i => if i <? stride / w then column count rows more i else repeat None count) (seq 0 curves))
    | None => None
    end.
(** FAXColladaParser.cpp:404-428: ReadSourceInterpolation into a new list; i * stride is an uint32. *)
Definition ReadSourceInterpolation (n : option xml) : option (list Z) :=
  match n with
  | None => Some []
  | Some n =>
      let acc := FindTechniqueAccessor n in
      match ToStringList (content_of (FindChildByType n "Name_array")) (repeat [] (Z.to_nat (u32 (count_of acc * stride_of acc)))) with
      | Some l =>
          fold_right (fun i r => match nth_error l (Z.to_nat (u32 (Z.of_nat i * stride_of acc))), r with
                                 | Some t, Some r => Some (InterpolationFromString t :: r)
                                 | _, _ => None
                                 end) (Some []) (seq 0 (Z.to_nat (count_of acc)))
      | None => None
      end
  end.

(** *** Reading channels *)
(** FAXAnimationImport.cpp:56-80: the sources of a sampler and the driver. *)
Record found := Found { f_in : option xml; f_out : option xml; f_itan : option xml; f_otan : option xml; f_tcb : option xml;
  f_ease : option xml; f_interp : option xml; f_driver : list Z }.
Definition nothing_found : found := Found None None None None None None None [].
Definition sampler_input (scopes : list (list xml)) (f : found) (n : xml) : found :=
  let id := ReadNodeProperty n "source" in
  let s := FindChildByIdFCDAnimation scopes id in
  let semantic := ReadNodeProperty n "semantic" in
  if text_eq semantic (tx "INPUT") then Found s (f_out f) (f_itan f) (f_otan f) (f_tcb f) (f_ease f) (f_interp f) (f_driver f)
  else if text_eq semantic (tx "OUTPUT") then Found (f_in f) s (f_itan f) (f_otan f) (f_tcb f) (f_ease f) (f_interp f) (f_driver f)
  else if text_eq semantic (tx "IN_TANGENT") then Found (f_in f) (f_out f) s (f_otan f) (f_tcb f) (f_ease f) (f_interp f) (f_driver f)
  else if text_eq semantic (tx "OUT_TANGENT") then Found (f_in f) (f_out f) (f_itan f) s (f_tcb f) (f_ease f) (f_interp f) (f_driver f)
  else if text_eq semantic (tx "TCB") then Found (f_in f) (f_out f) (f_itan f) (f_otan f) s (f_ease f) (f_interp f) (f_driver f)
  else if text_eq semantic (tx "EASE_IN_OUT") then Found (f_in f) (f_out f) (f_itan f) (f_otan f) (f_tcb f) s (f_interp f) (f_driver f)
  else if text_eq semantic (tx "INTERPOLATION") then Found (f_in f) (f_out f) (f_itan f) (f_otan f) (f_tcb f) (f_ease f) s (f_driver f)
  else if text_eq semantic (tx "DRIVER") then Found (f_in f) (f_out f) (f_itan f) (f_otan f) (f_tcb f) (f_ease f) (f_interp f) id
  else f.
(** FAXAnimationImport.cpp:127-149 with FCDAnimationCurve.cpp:141-156: the key at the time number [j]. *)
Definition new_key (times : list Q) (j : nat) (t : Q) (interp : Z) (v : Q) : key :=
  let previous := match j with O => (t - 1)%Q | S i => nth i times 0%Q end in
  let next := if S j =? List.length times then (t + 1)%Q else nth (S j) times 0%Q in
  Key t v (if (interp =? 2)%Z then Bezier ((previous + 2 * t) / 3, v)%Q ((next + 2 * t) / 3, v)%Q
           else if (interp =? 3)%Z then Tcb (1 # 2) (1 # 2) (1 # 2) 0 0
           else Plain interp).
(** FAXAnimationImport.cpp:119-151: the keys of one curve; values that are missing are 0, one that is not initialised is not
    allowed. *)
Fixpoint new_keys (times : list Q) (j : nat) (rest : list Q) (interps : list Z) (values : list (option (list Q))) : option (list key) :=
  match rest, interps with
  | [], _ => Some []
  | _ :: _, [] => None
  | t :: r, i :: is =>
      match values with
      | [] => option_map (cons (new_key times j t i 0)) (new_keys times (S j) r is [])
      | Some v :: vs => option_map (cons (new_key times j t i (nth 0 v 0%Q))) (new_keys times (S j) r is vs)
      | None :: _ => None
      end
  end.
(** FAXAnimationImport.cpp:166-177, 184-196 and so on: the loops over the keys of one curve: those of a class get the entry. *)
Fixpoint update (class : shape -> bool) (f : list Q -> key -> key) (entries : list (option (list Q))) (ks : list key) : option (list key) :=
  match entries, ks with
  | e :: es, k :: r =>
      if class (kind k) then
        match e with Some v => option_map (cons (f v k)) (update class f es r) | None => None end
      else option_map (cons k) (update class f es r)
  | _, _ => Some ks
  end.
Fixpoint update_curves (class : shape -> bool) (f : list Q -> key -> key) (columns : list (list (option (list Q)))) (cs : list (list key))
    : option (list (list key)) :=
  match columns, cs with
  | e :: es, c :: r =>
      match update class f e c, update_curves class f es r with Some c, Some r => Some (c :: r) | _, _ => None end
  | _, _ => Some cs
  end.
Definition fst_number (v : list Q) : Q := nth 0 v 0%Q.
Definition snd_number (v : list Q) : Q := nth 1 v 0%Q.
(** FAXAnimationImport.cpp:170-175 and 190-194. *)
Definition set_in_1d (v : list Q) (k : key) : key :=
  match kind k with Bezier (u, _) o => Key (input k) (output k) (Bezier (u, (output k - fst_number v)%Q) o) | _ => k end.
Definition set_in (v : list Q) (k : key) : key :=
  match kind k with Bezier _ o => Key (input k) (output k) (Bezier (fst_number v, snd_number v) o) | _ => k end.
(** FAXAnimationImport.cpp:218-223 and 238-242. *)
Definition set_out_1d (v : list Q) (k : key) : key :=
  match kind k with Bezier i (u, _) => Key (input k) (output k) (Bezier i (u, (output k + fst_number v)%Q)) | _ => k end.
Definition set_out (v : list Q) (k : key) : key :=
  match kind k with Bezier i _ => Key (input k) (output k) (Bezier i (fst_number v, snd_number v)) | _ => k end.
(** FAXAnimationImport.cpp:265-271 and 294-299. *)
Definition set_tcb (v : list Q) (k : key) : key :=
  match kind k with Tcb _ _ _ i o => Key (input k) (output k) (Tcb (fst_number v) (snd_number v) (nth 2 v 0%Q) i o) | _ => k end.
Definition set_ease (v : list Q) (k : key) : key :=
  match kind k with Tcb t c b _ _ => Key (input k) (output k) (Tcb t c b (fst_number v) (snd_number v)) | _ => k end.
(** FAXAnimationImport.cpp:154-198 and 201-247: the tangents. *)
Definition load_tangents (a : arith) (f1 f2 : list Q -> key -> key) (n : option xml) (cs : list (list key)) : option (list (list key)) :=
  match n with
  | None => Some cs
  | Some n =>
      match ReadInterleaved a 2 (List.length cs) n with
      | Some (stride, columns) =>
          if stride =? List.length cs then update_curves is_bezier f1 columns cs
          else if stride =? 2 * List.length cs then update_curves is_bezier f2 columns cs
          else Some cs
      | None => None
      end
  end.
(** FAXAnimationImport.cpp:249-274 and 276-302: the TCB values and the eases. *)
Definition load_tcbs (a : arith) (w : nat) (f : list Q -> key -> key) (n : option xml) (cs : list (list key)) : option (list (list key)) :=
  match n with
  | None => Some cs
  | Some n => match ReadInterleaved a w (List.length cs) n with Some (_, columns) => update_curves is_tcb f columns cs | None => None end
  end.
(** FAXColladaParser.cpp:77-93: FindTechnique. *)
Definition FindTechnique (n : xml) (profile : string) : option xml :=
  find (fun c => named c "technique" && text_eq (ReadNodeProperty c "profile") (tx profile)) (children_of n).
(** FAXColladaParser.cpp:102-128: FindParameters: the elements other than <technique> and <extra>. *)
Definition FindParameters (n : option xml) : list xml :=
  match n with Some n => filter (fun c => is_element c && negb (named c "technique") && negb (named c "extra")) (children_of n) | None => [] end.
(** FAXAnimationImport.cpp:309-344: the infinities and the driver. *)
Definition parameter (st : Z * Z * list Z) (n : xml) : Z * Z * list Z :=
  let '(pre, post, d) := st in
  let t := ReadNodeContentDirect n in
  if named n "pre_infinity" then (InfinityFromString t, post, d)
  else if named n "post_infinity" then (pre, InfinityFromString t, d)
  else if named n "input" && text_eq (ReadNodeProperty n "semantic") (tx "DRIVER") then (pre, post, ReadNodeProperty n "source")
  else st.
(** FUtils/FUStringConversion.cpp:210-223: SplitTarget. *)
Fixpoint SplitTarget (t : list Z) : list Z * list Z :=
  match t with
  | [] => ([], [])
  | c :: r => if (c =? 40)%Z || (c =? 91)%Z || (c =? 46)%Z then ([], t) else let '(p, q) := SplitTarget r in (c :: p, q)
  end.
(** FUtils/FUStringConversion.cpp:225-241: ParseQualifier. *)
Fixpoint ParseQualifier (a : arith) (fuel : nat) (t : list Z) : option Z :=
  match t, fuel with
  | c :: r, S f =>
      if (c =? 40)%Z || (c =? 91)%Z then
        let rest := skip_while (fun c => (48 <=? c)%Z && (c <=? 57)%Z) r in
        match rest with
        | d :: _ => if (d =? 41)%Z || (d =? 93)%Z then option_map fst (ToInt32 a r) else ParseQualifier a f rest
        | [] => Some (-1)%Z
        end
      else Some (-1)%Z
  | _, _ => Some (-1)%Z
  end.
(** FAXAnimationImport.cpp:346-357: the driver; data.driverQualifier. *)
Definition load_driver (a : arith) (t : list Z) : option (option (list Z * Z)) :=
  match t with
  | [] => Some None
  | _ :: _ => let '(p, q) := SplitTarget (drop_hash t) in
         option_map (fun i => Some (p, if (i <? 0)%Z then 0%Z else i)) (ParseQualifier a (List.length q) q)
  end.
(** What LoadAnimationChannel makes of a channel: the target and the curves; the driver belongs to the channel
    (FCDAnimationChannelData) and is kept here in each curve. *)
Record channel := Channel { target_pointer : list Z; target_qualifier : list Z; curves : list curve }.
(** FAXAnimationImport.cpp:27-363: LoadAnimationChannel on a new channel; Some None: it returns false.  A source that is NULL has no
    text. *)
Definition LoadAnimationChannel (a : arith) (scopes : list (list xml)) (n : xml) : option (option channel) :=
  let '(p, q) := SplitTarget (ReadNodeProperty n "target") in
  match FindChildByIdFCDAnimation scopes (ReadNodeProperty n "source") with
  | None => Some None
  | Some sampler =>
      if negb (named sampler "sampler") then Some None
      else
        let f := fold_left (sampler_input scopes) (filter (fun c => named c "input") (children_of sampler)) nothing_found in
        match f_in f, f_out f with
        | Some inp, Some out =>
            let count := Z.to_nat (stride_of (FindTechniqueAccessor out)) in
            match ReadSourceFloats a (Some inp) [] with
            | None => None
            | Some [] => Some (Some (Channel p q (repeat (Curve [] 0 0 None) count)))
            | Some times =>
                match ReadSourceInterpolation (f_interp f), ReadInterleavedFloats a count out with
                | Some is, Some columns =>
                    let is := is ++ repeat (InterpolationFromString []) (List.length times - List.length is) in
                    match fold_right (fun c r => match new_keys times 0 times is c, r with Some k, Some r => Some (k :: r) | _, _ => None end)
                            (Some []) columns with
                    | None => None
                    | Some cs =>
                        match load_tangents a set_in_1d set_in (f_itan f) cs with
                        | None => None
                        | Some cs =>
                            match load_tangents a set_out_1d set_out (f_otan f) cs with
                            | None => None
                            | Some cs =>
                                match load_tcbs a 3 set_tcb (f_tcb f) cs with
                                | None => None
                                | Some cs =>
                                    match load_tcbs a 2 set_ease (f_ease f) cs with
                                    | None => None
                                    | Some cs =>
                                        let '(pre, post, d) :=
                                          fold_left parameter (FindParameters (FindTechnique inp "MAYA")) (0%Z, 0%Z, f_driver f) in
                                        option_map (fun d => Some (Channel p q (map (fun ks => Curve ks pre post d) cs))) (load_driver a d)
                                    end
                                end
                            end
                        end
                    end
                | _, _ => None
                end
            end
        | _, _ => Some None
        end
  end.
(** FAXAnimationImport.cpp:414-422: the channels of an animation in order; [st]: the status so far.  When the status is false the new
    channel is released. *)
Fixpoint load_channels (a : arith) (scopes : list (list xml)) (st : bool) (l : list xml) : option (bool * list channel) :=
  match l with
  | [] => Some (st, [])
  | c :: r =>
      match LoadAnimationChannel a scopes c with
      | None => None
      | Some o =>
          let st' := st && match o with Some _ => true | None => false end in
          match load_channels a scopes st' r with
          | Some (s, cs) => Some (s, match o with Some c => if st' then c :: cs else cs | None => cs end)
          | None => None
          end
      end
  end.
Inductive animation := Animation (status : bool) (channels : list channel) (children : list animation).
(** FAXAnimationImport.cpp:402-428: LoadAnimation on an <animation> element; [parents]: the children of the elements around it. *)
Fixpoint LoadAnimation (a : arith) (parents : list (list xml)) (n : xml) : option animation :=
  match n with
  | Text _ => None
  | Elem _ _ ch =>
      match load_channels a (ch :: parents) true (filter (fun c => named c "channel") ch) with
      | None => None
      | Some (st, cs) =>
          option_map (Animation st cs) ((fix go (l : list xml) : option (list animation) :=
             match l with
             | [] => Some []
             | c :: r =>
                 if named c "animation" then
                   match LoadAnimation a (ch :: parents) c, go r with Some x, Some y => Some (x :: y) | _, _ => None end
                 else go r
             end) ch)
      end
  end.
