(** Assets in COLLADA XML: WriteAsset, WriteAssetContributor (FColladaPlugins/FArchiveXML/FAXEntityExport.cpp:64-129), LoadAsset,
    LoadAssetContributor (FAXEntityImport.cpp:102-201) and the constructor, setters and Clone of FCDAsset and FCDAssetContributor
    (FCollada/FCDocument/FCDAsset.cpp:23-112, FCDAsset.h), on the XML tree of DaeModel.v, the dates of TextModel.v, the addresses of
    UriModel.v and the numbers of FloatModel.v.  Numbers are finite rationals; the time of day is a parameter; the writer is a relation
    because the digits printf chooses are.
    Not modelled: plug-ins that take over the writing of a contributor, dirty flags, error messages, which asset is in force (AxisModel.v).
    None is undefined behaviour (the port of an address, a number that ends too early). *)
From Coq Require Import String List ZArith QArith Bool.
From Verif Require Import TextModel StringModel XmlModel FloatModel UriModel DaeModel CustomModel.
Import ListNotations.
Local Open Scope Z_scope.
Local Open Scope list_scope.

(** FCDAsset.h:230-262. *)
Record contributor := Contributor { author : list Z; authoringTool : list Z; comments : list Z; copyright : list Z; sourceData : list Z }.
(** FCDAsset.cpp:83-91. *)
Definition new_contributor : contributor := Contributor [] [] [] [] [].
(** FMath/FMVector3.h. *)
Definition vec : Type := (Q * Q * Q)%type.
(** FCDAsset.h:50-78. *)
Record asset := Asset {
  contributors : list contributor; created : datetime; modified : datetime;
  keywords : list Z; revision : list Z; subject : list Z; title : list Z;
  upAxis : vec; hasUpAxis : bool; unitName : list Z; unitFactor : Q; hasUnits : bool }.
(** FMVector3::XAxis, YAxis, ZAxis. *)
Definition XAxis : vec := (1, 0, 0)%Q.
Definition YAxis : vec := (0, 1, 0)%Q.
Definition ZAxis : vec := (0, 0, 1)%Q.
(** FCDAsset.cpp:23-36, the constructor, at the time [now]. *)
Definition new_asset (now : datetime) : asset := Asset [] now now [] [] [] [] YAxis false (tx "meter") 1%Q false.

(** The setters of FCDAsset.h:105-197: the ones of the up-axis and of the factor also set the flags. *)
Definition AddContributor (c : contributor) (x : asset) : asset :=
  Asset (contributors x ++ [c]) (created x) (modified x) (keywords x) (revision x) (subject x) (title x) (upAxis x) (hasUpAxis x) (unitName x) (unitFactor x) (hasUnits x).
Definition SetCreated (d : datetime) (x : asset) : asset :=
  Asset (contributors x) d (modified x) (keywords x) (revision x) (subject x) (title x) (upAxis x) (hasUpAxis x) (unitName x) (unitFactor x) (hasUnits x).
Definition SetModified (d : datetime) (x : asset) : asset :=
  Asset (contributors x) (created x) d (keywords x) (revision x) (subject x) (title x) (upAxis x) (hasUpAxis x) (unitName x) (unitFactor x) (hasUnits x).
Definition SetKeywords (t : list Z) (x : asset) : asset :=
  Asset (contributors x) (created x) (modified x) t (revision x) (subject x) (title x) (upAxis x) (hasUpAxis x) (unitName x) (unitFactor x) (hasUnits x).
Definition SetRevision (t : list Z) (x : asset) : asset :=
  Asset (contributors x) (created x) (modified x) (keywords x) t (subject x) (title x) (upAxis x) (hasUpAxis x) (unitName x) (unitFactor x) (hasUnits x).
Definition SetSubject (t : list Z) (x : asset) : asset :=
  Asset (contributors x) (created x) (modified x) (keywords x) (revision x) t (title x) (upAxis x) (hasUpAxis x) (unitName x) (unitFactor x) (hasUnits x).
Definition SetTitle (t : list Z) (x : asset) : asset :=
  Asset (contributors x) (created x) (modified x) (keywords x) (revision x) (subject x) t (upAxis x) (hasUpAxis x) (unitName x) (unitFactor x) (hasUnits x).
Definition SetUpAxis (v : vec) (x : asset) : asset :=
  Asset (contributors x) (created x) (modified x) (keywords x) (revision x) (subject x) (title x) v true (unitName x) (unitFactor x) (hasUnits x).
Definition SetUnitName (t : list Z) (x : asset) : asset :=
  Asset (contributors x) (created x) (modified x) (keywords x) (revision x) (subject x) (title x) (upAxis x) (hasUpAxis x) t (unitFactor x) (hasUnits x).
Definition SetUnitConversionFactor (q : Q) (x : asset) : asset :=
  Asset (contributors x) (created x) (modified x) (keywords x) (revision x) (subject x) (title x) (upAxis x) (hasUpAxis x) (unitName x) q true.

(** FCDAsset.cpp:95-112: Clone and IsEmpty of a contributor. *)
Definition CloneContributor (c : contributor) : contributor := Contributor (author c) (authoringTool c) (comments c) (copyright c) (sourceData c).
Definition IsEmpty (c : contributor) : bool :=
  match author c, authoringTool c, comments c, copyright c, sourceData c with [], [], [], [], [] => true | _, _, _, _, _ => false end.
(** FCDAsset.cpp:49-76: Clone at the time [now] into [clone] (a new asset when NULL is given): the flags of the clone are only added to
    (FUParameterizable.h:86, 91). *)
Definition Clone (now : datetime) (all : bool) (x : asset) (clone : option asset) : asset :=
  let y := match clone with Some y => y | None => new_asset now end in
  Asset (contributors y ++ (if all then map CloneContributor (contributors x) else [])) (created x) now
        (keywords x) (revision x) (subject x) (title x) (upAxis x) (hasUpAxis y || hasUpAxis x) (unitName x) (unitFactor x) (hasUnits y || hasUnits x).

(** *** Writing *)
(** FUXmlWriter.cpp:82-87: AddChild with a content; FAXEntityExport.cpp: only when the text is not empty. *)
Definition AddChild (name : string) (t : list Z) : xml := Elem (tx name) [] (content (AddContent t)).
Definition optional (name : string) (t : list Z) : list xml := match t with [] => [] | _ => [AddChild name t] end.
(** FAXEntityExport.cpp:108-129, WriteAssetContributor. *)
Definition WriteAssetContributor (a : arith) (c : contributor) : option (list xml) :=
  if IsEmpty c then Some []
  else
    let l := optional "author" (author c) ++ optional "authoring_tool" (authoringTool c) ++ optional "comments" (comments c) ++ optional "copyright" (copyright c) in
    match sourceData c with
    | [] => Some [Elem (tx "contributor") [] l]
    | s => option_map (fun u => [Elem (tx "contributor") [] (l ++ [AddChild "source_data" (ConvertFilename (GetAbsoluteUri u))])]) (parse a s)
    end.
Fixpoint write_contributors (a : arith) (l : list contributor) : option (list xml) :=
  match l with
  | [] => Some []
  | c :: r => match WriteAssetContributor a c, write_contributors a r with Some x, Some y => Some (x ++ y) | _, _ => None end
  end.
(** FMath/FMFloat.h:29 and FMath/FMVector3.h:253: IsEquivalent. *)
Definition equivalent (x y : Q) : bool := negb (Qle_bool (1 # 10000) (x - y)) && negb (Qle_bool (1 # 10000) (y - x)).
Definition equivalent3 (v w : vec) : bool :=
  let '(x, y, z) := v in let '(x', y', z') := w in equivalent x x' && equivalent y y' && equivalent z z'.
(** FAXEntityExport.cpp:96-104. *)
Definition axis_text (v : vec) : string :=
  if equivalent3 v YAxis then "Y_UP" else if equivalent3 v XAxis then "X_UP" else if equivalent3 v ZAxis then "Z_UP" else "Y_UP".
(** FAXEntityExport.cpp:64-106, WriteAsset at the time [now]; [meter] is the text of the factor: the element. *)
Definition write_asset (a : arith) (now : datetime) (meter : list Z) (x : asset) : option xml :=
  option_map (fun cs =>
    Elem (tx "asset") []
      (cs ++ [AddChild "created" (ToString_date (created x))] ++ optional "keywords" (keywords x) ++ [AddChild "modified" (ToString_date now)]
       ++ optional "revision" (revision x) ++ optional "subject" (subject x) ++ optional "title" (title x)
       ++ (if hasUnits x then [Elem (tx "unit") [(tx "meter", AddAttribute meter); (tx "name", AddAttribute (unitName x))] []] else [])
       ++ (if hasUpAxis x then [AddChild "up_axis" (tx (axis_text (upAxis x)))] else [])))
    (write_contributors a (contributors x)).
(** The same with the text FUStringBuilder::set(float) writes; the asset gets the time as the time of modification. *)
Definition WriteAsset (a : arith) (eps : Q) (now : datetime) (x : asset) (n : xml) (x' : asset) : Prop :=
  exists meter, appends eps (Fin (unitFactor x)) meter /\ write_asset a now meter x = Some n /\ x' = SetModified now x.

(** *** Loading *)
(** FAXEntityImport.cpp:164-201, LoadAssetContributor: one child. *)
Definition LoadContributorChild (c : contributor) (n : xml) : contributor :=
  let t := ReadNodeContentFull n in
  if negb (is_element n) then c
  else if named n "author" then Contributor t (authoringTool c) (comments c) (copyright c) (sourceData c)
  else if named n "authoring_tool" then Contributor (author c) t (comments c) (copyright c) (sourceData c)
  else if named n "comments" then Contributor (author c) (authoringTool c) t (copyright c) (sourceData c)
  else if named n "copyright" then Contributor (author c) (authoringTool c) (comments c) t (sourceData c)
  else if named n "source_data" then Contributor (author c) (authoringTool c) (comments c) (copyright c) t
  else c.
Definition LoadAssetContributor (n : xml) (c : contributor) : contributor := fold_left LoadContributorChild (children_of n) c.
(** FAXEntityImport.cpp:141-147: the <unit>. *)
Definition LoadUnit (a : arith) (n : xml) (x : asset) : option asset :=
  match ToFloat a (ReadNodeProperty n "meter") with
  | Some (q, _) =>
      let x1 := SetUnitConversionFactor q (SetUnitName (ReadNodeProperty n "name") x) in
      let x2 := match unitName x1 with [] => SetUnitName (tx "UNKNOWN") x1 | _ => x1 end in
      Some (if equivalent (unitFactor x2) 0 || negb (Qle_bool 0 (unitFactor x2)) then SetUnitConversionFactor 1 x2 else x2)
  | None => None
  end.
(** FAXEntityImport.cpp:148-153: the <up_axis>. *)
Definition LoadUpAxis (t : list Z) (x : asset) : asset :=
  if text_eq t (tx "X_UP") then SetUpAxis XAxis x else if text_eq t (tx "Y_UP") then SetUpAxis YAxis x
  else if text_eq t (tx "Z_UP") then SetUpAxis ZAxis x else x.
(** FAXEntityImport.cpp:102-162, LoadAsset: one child. *)
Definition LoadAssetChild (a : arith) (x : asset) (n : xml) : option asset :=
  let t := ReadNodeContentFull n in
  if negb (is_element n) then Some x
  else if named n "contributor" then Some (AddContributor (LoadAssetContributor n new_contributor) x)
  else if named n "created" then Some (SetCreated (ToDateTime t (created x)) x)
  else if named n "keywords" then Some (SetKeywords t x)
  else if named n "modified" then Some (SetModified (ToDateTime t (modified x)) x)
  else if named n "revision" then Some (SetRevision t x)
  else if named n "subject" then Some (SetSubject t x)
  else if named n "title" then Some (SetTitle t x)
  else if named n "unit" then LoadUnit a n x
  else if named n "up_axis" then Some (LoadUpAxis t x)
  else Some x.
(** FAXEntityImport.cpp:102-162, LoadAsset into an asset (the caller gives one that exists already or a new one). *)
Definition LoadAsset (a : arith) (n : xml) (x : asset) : option asset :=
  fold_left (fun r c => match r with Some x => LoadAssetChild a x c | None => None end) (children_of n) (Some x).
