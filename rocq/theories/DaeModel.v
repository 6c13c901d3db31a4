(** Polygon sets in COLLADA XML: FArchiveXML::WriteGeometryPolygons (FColladaPlugins/FArchiveXML/FAXGeometryExport.cpp:144-310)
    and FArchiveXML::LoadGeometryPolygons with the part of LoadGeometryMesh that calls it
    (FColladaPlugins/FArchiveXML/FAXGeometryImport.cpp:123-148, 246-555), on an in-memory XML tree.
    Not modelled: libxml2 itself (writing the tree to a file and parsing it back is taken to return the same tree), extras,
    error messages, cancelling, inputs whose source is NULL, animated sources.  None is undefined behaviour (a NULL pointer or an
    element behind a list is used). *)
From Coq Require Import List ZArith Bool String.
From Verif Require Import TextModel StringModel XmlModel EnumModel PolyModel TriModel.
Import ListNotations.
Local Open Scope nat_scope.
Local Open Scope list_scope.

(** libxml2's xmlNode as far as it is used: an element with its name, attributes and children, or a text. *)
Inductive xml := Elem (name : list Z) (attrs : list (list Z * list Z)) (children : list xml) | Text (content : list Z).
Definition children_of (n : xml) : list xml := match n with Elem _ _ c => c | Text _ => [] end.
(** The test for an element node followed by IsEquivalent(node->name, type) (FUtils/FUString.h:536-539). *)
Definition named (n : xml) (type : string) : bool := match n with Elem k _ _ => text_eq k (tx type) | Text _ => false end.
(** xmlGetProp: the first attribute of that name. *)
Fixpoint find_attr (l : list (list Z * list Z)) (k : list Z) : option (list Z) :=
  match l with [] => None | (a, v) :: r => if text_eq a k then Some v else find_attr r k end.
(** FUtils/FUXmlParser.cpp:155-170: ReadNodeProperty. *)
Definition ReadNodeProperty (n : xml) (k : string) : list Z :=
  match n with
  | Elem _ a _ => match find_attr a (tx k) with Some v => XmlToString v | None => [] end
  | Text _ => []
  end.
(** FUtils/FUXmlParser.cpp:189-194: ReadNodeContentDirect. *)
Definition ReadNodeContentDirect (n : xml) : list Z := match children_of n with Text t :: _ => t | _ => [] end.
(** FUtils/FUXmlParser.cpp:71-84: FindChildByType. *)
Definition FindChildByType (n : xml) (type : string) : option xml := find (fun c => named c type) (children_of n).
(** FArchiveXML/FAXColladaParser.cpp:503-507: ReadNodeCount. *)
Definition ReadNodeCount (n : xml) : Z := fst (ToUInt32 (ReadNodeProperty n "count")).
(** FUtils/FUXmlWriter.cpp:189-192: AddContentUnprocessed into a new element: xmlNodeAddContent adds no node for an empty text. *)
Definition content (t : list Z) : list xml := match t with [] => [] | _ => [Text t] end.
(** FUtils/FUDaeEnum.cpp:266-305: FUDaeGeometryInput::FromString and ToString on texts. *)
Fixpoint from_chain (l : list (string * Z)) (d : Z) (t : list Z) : Z :=
  match l with [] => d | (k, v) :: r => if text_eq t (tx k) then v else from_chain r d t end.
Definition SemanticFromString (t : list Z) : Z := from_chain (chain FUDaeGeometryInput) (otherwise FUDaeGeometryInput) t.
Definition SemanticToString (v : Z) : list Z := tx (ToString FUDaeGeometryInput v).
(** FUtils/FUDaeEnum.h:303-322: the enumerators used by name. *)
Definition POSITION := 0%Z.
Definition VERTEX := 1%Z.
Definition UNKNOWN := (-1)%Z.

(** FCDocument/FCDGeometrySource.h: a source's COLLADA id, its type and its number of values. *)
Record src := Src { src_id : list Z; src_type : Z; src_values : nat }.
(** FCDocument/FCDGeometryMesh.h: the id, the sources and the numbers of the per-vertex sources. *)
Record mesh := Mesh { mesh_id : list Z; srcs : list src; vertex_srcs : list nat }.
(** FCDocument/FCDGeometryPolygons.h: the set as in TriModel, with the [set] of each input and the material. *)
Record dset := DSet { base : pset Z; sets : list Z; material : list Z }.

(** FCDocument/FCDGeometryMesh.h:225: IsVertexSource. *)
Definition IsVertexSource (m : mesh) (s : nat) : bool := existsb (Nat.eqb s) (vertex_srcs m).
(** A leading '#' is dropped (FCDGeometryMesh.cpp:83, FAXGeometryImport.cpp:288). *)
Definition drop_hash (t : list Z) : list Z := match t with c :: r => if Z.eqb c 35 then r else t | [] => [] end.
Fixpoint find_id (l : list src) (id : list Z) : option nat :=
  match l with [] => None | s :: r => if text_eq (src_id s) id then Some 0 else option_map S (find_id r id) end.
(** FCDocument/FCDGeometryMesh.cpp:80-89: FindSourceById. *)
Definition FindSourceById (m : mesh) (id : list Z) : option nat := find_id (srcs m) (drop_hash id).
(** FCDocument/FCDGeometryMesh.cpp:92-99 and FCDGeometryMesh.h (GetPositionSource): FindSourceByType(POSITION). *)
Definition PositionSource (m : mesh) : option src := find (fun s => Z.eqb (src_type s) POSITION) (srcs m).
(** FAXGeometryImport.cpp:706-729: SetTypeFCDGeometrySource, without the animations. *)
Definition SetSourceType (m : mesh) (s : nat) (t : Z) : mesh :=
  match nth_error (srcs m) s with
  | Some x => Mesh (mesh_id m) (set_nth (srcs m) s (Src (src_id x) t (src_values x))) (vertex_srcs m)
  | None => m
  end.

(** *** Writing *)
(** FArchiveXML/FAXColladaWriter.cpp:57-66: AddInput. *)
Definition AddInput (sourceId semantic : list Z) (offset set : Z) : list xml :=
  match sourceId, semantic with
  | [], _ | _, [] => []
  | _, _ =>
      [Elem (tx "input")
         ([(tx "semantic", semantic); (tx "source", 35%Z :: sourceId)]
          ++ (if (0 <=? offset)%Z then [(tx "offset", append_i32 offset)] else [])
          ++ (if (0 <=? set)%Z then [(tx "set", append_i32 set)] else [])) []]
  end.
(** FCDocument/FCDGeometryPolygons.cpp:275-285: TestPolyType. *)
Definition TestPolyType (counts : list nat) : Z :=
  match counts with [] => (-1)%Z | c :: r => if forallb (Nat.eqb c) r then Z.of_nat c else (-1)%Z end.
(** FAXGeometryExport.cpp:152-175: the name of the element, hasHoles and hasNPolys. *)
Definition element_kind (p : pset Z) : string * bool * bool :=
  match ptype p with
  | POLYGONS =>
      if 0 <? List.length (pholes p) then ("polygons"%string, true, true)
      else if negb (Z.eqb (TestPolyType (pcounts p)) 3) then ("polylist"%string, false, true) else ("triangles"%string, false, false)
  | LINES => ("lines"%string, true, true)
  | LINE_STRIPS => ("linestrips"%string, true, true)
  | TRIANGLE_FANS => ("trifans"%string, true, true)
  | TRIANGLE_STRIPS => ("tristrips"%string, true, true)
  | POINTS => ("points"%string, false, true)
  end.
(** FAXGeometryExport.cpp:181-206: the <input> elements; [found] is isVertexInputFound. *)
Fixpoint write_inputs (m : mesh) (ins : list (input Z)) (sts : list Z) (found : bool) : option (list xml) :=
  match ins with
  | [] => Some []
  | x :: r =>
      match nth_error (srcs m) (source x), sts with
      | Some s, set :: sr =>
          let off := Z.of_nat (offset x) in
          if IsVertexSource m (source x) then
            match write_inputs m r sr true with
            | Some l => Some ((if found then [] else AddInput (mesh_id m ++ tx "-vertices") (tx "VERTEX") off (-1)) ++ l)
            | None => None
            end
          else
            match write_inputs m r sr found with
            | Some l => Some (AddInput (src_id s) (SemanticToString (src_type s)) off set ++ l)
            | None => None
            end
      | _, _ => None
      end
  end.
(** FAXGeometryExport.cpp:203-204 and FAXGeometryImport.cpp:293: resize of a list of pointers: NULL is appended. *)
Definition at_least (l : list (option nat)) (n : nat) : list (option nat) := l ++ repeat None (n - List.length l).
(** FAXGeometryExport.cpp:201-205: idxOwners: for each offset the last input that owns indices. *)
Definition index_owners (ins : list (input Z)) : list (option nat) :=
  fold_left (fun w i => match nth_error ins i with
                        | Some x => if owns x then set_nth (at_least w (S (offset x))) (offset x) (Some i) else w
                        | None => w
                        end) (seq 0 (List.length ins)) [].
(** FAXGeometryExport.cpp:255-263: the numbers of one corner. *)
Fixpoint corner_text (ins : list (input Z)) (owners : list (option nat)) (fv : nat) : option (list Z) :=
  match owners with
  | [] => Some []
  | o :: r =>
      match (match o with
             | Some i => option_map append_u32 (nth_error (get_indices ins i) fv)
             | None => Some (tx "0")
             end), corner_text ins r fv with
      | Some a, Some b => Some (a ++ [32%Z] ++ b)
      | _, _ => None
      end
  end.
(** FAXGeometryExport.cpp:253-264: the corners of one face or hole. *)
Fixpoint corners_text (ins : list (input Z)) (owners : list (option nat)) (fvs : list nat) : option (list Z) :=
  match fvs with
  | [] => Some []
  | fv :: r => match corner_text ins owners fv, corners_text ins owners r with Some a, Some b => Some (a ++ b) | _, _ => None end
  end.
(** FAXGeometryExport.cpp:249-281: a face and its holes: entries pos .. pos + todo - 1 of the counts; result: the text of each and
    the new faceVertexOffset. *)
Fixpoint write_loops (ins : list (input Z)) (owners : list (option nat)) (counts : list nat) (pos todo off : nat)
  : option (list (list Z) * nat) :=
  match todo with
  | O => Some ([], off)
  | S t =>
      match nth_error counts pos with
      | None => None
      | Some c =>
          match corners_text ins owners (seq off c), write_loops ins owners counts (S pos) t (off + c) with
          | Some a, Some (r, off1) => Some (a :: r, off1)
          | _, _ => None
          end
      end
  end.
(** FAXGeometryExport.cpp:228-283: all the faces; GetHoleCount is called only if hasHoles. *)
Fixpoint write_faces (hasHoles : bool) (p : pset Z) (owners : list (option nat)) (fi n off holeOffset : nat)
  : option (list (list (list Z))) :=
  match n with
  | O => Some []
  | S n1 =>
      let hc := if hasHoles then GetHoleCount (Polys (pcounts p) 0 (pholes p) []) fi else 0 in
      match write_loops (pinputs p) owners (pcounts p) (fi + holeOffset) (hc + 1) off with
      | None => None
      | Some (ts, off1) =>
          match write_faces hasHoles p owners (S fi) n1 off1 (holeOffset + hc) with
          | Some r => Some (ts :: r)
          | None => None
          end
      end
  end.
(** FAXGeometryExport.cpp:269, 288: the last space is taken out. *)
Definition trim (t : list Z) : list Z := removelast t.
(** FAXGeometryExport.cpp:232-247, 267-278: the elements of one face if hasHoles. *)
Definition face_element (ts : list (list Z)) : list xml :=
  match ts with
  | [] => []
  | [t] => [Elem (tx "p") [] (content (trim t))]
  | t :: hs => [Elem (tx "ph") [] (Elem (tx "p") [] (content (trim t)) :: map (fun h => Elem (tx "h") [] (content (trim h))) hs)]
  end.
(** FAXGeometryExport.cpp:299-303: the value of the count attribute. *)
Definition primitive_count (p : pset Z) : option nat :=
  let n := List.length (pcounts p) - List.length (pholes p) in
  match ptype p with
  | LINES => if 0 <? n then option_map (fun c => c / 2) (GetFaceVertexCount (Polys (pcounts p) 0 (pholes p) []) 0) else Some n
  | _ => Some n
  end.
(** FAXGeometryExport.cpp:144-310: WriteGeometryPolygons.  More holes than entries make GetFaceCount wrap (None). *)
Definition WriteGeometryPolygons (m : mesh) (d : dset) : option xml :=
  let p := base d in
  let '(name, hasHoles, hasNPolys) := element_kind p in
  let owners := index_owners (pinputs p) in
  if List.length (pcounts p) <? List.length (pholes p) then None else
  match write_inputs m (pinputs p) (sets d) false,
        write_faces hasHoles p owners 0 (List.length (pcounts p) - List.length (pholes p)) 0 0, primitive_count p with
  | Some inputs, Some faces, Some count =>
      let vcount := if negb hasHoles && hasNPolys
                    then [Elem (tx "vcount") [] (content (ToString_u32s [] (map Z.of_nat (pcounts p))))] else [] in
      let ps := if hasHoles then flat_map face_element faces
                else [Elem (tx "p") [] (content (trim (List.concat (List.concat faces))))] in
      Some (Elem (tx name)
              ((match material d with [] => [] | t => [(tx "material", t)] end) ++ [(tx "count", append_u64 (Z.of_nat count))])
              (inputs ++ vcount ++ ps))
  | _, _, _ => None
  end.

(** *** Reading *)
(** FCDocument/FCDGeometryMesh.cpp:119-134: AddPolygons; FAXGeometryImport.cpp:146: SetPrimitiveType.
    FCDGeometryPolygonsInput.cpp:22-29: a new input has set -1. *)
Definition AddPolygons (m : mesh) (t : prim) : dset :=
  DSet (PSet t [] [] (map (fun s => Input 0 s []) (vertex_srcs m))) (map (fun _ => (-1)%Z) (vertex_srcs m)) [].
(** FCDocument/FCDGeometryPolygons.cpp:226-233: FindInput(source): the first input with that source. *)
Fixpoint find_input (ins : list (input Z)) (s : nat) : option nat :=
  match ins with [] => None | x :: r => if Nat.eqb (source x) s then Some 0 else option_map S (find_input r s) end.
(** FCDocument/FCDGeometryPolygons.cpp:173-181: AddInput, and SetSet of the new input. *)
Definition add_input (d : dset) (s off : nat) (set : Z) : dset :=
  DSet (PSet (ptype (base d)) (pcounts (base d)) (pholes (base d)) (pinputs (base d) ++ [Input off s []])) (sets d ++ [set]) (material d).
(** The state of the loop over the <input> elements. *)
Record rstate := RState { rmesh : mesh; rset : dset; rowners : list (option nat); has_vertex : bool }.
(** FAXGeometryImport.cpp:319, 331: the first input of an offset is its owner. *)
Definition claim_owner (w : list (option nat)) (off i : nat) : list (option nat) :=
  match nth_error w off with Some None => set_nth w off (Some i) | _ => w end.
(** FAXGeometryImport.cpp:314-321: the inputs of the per-vertex sources; an input that already exists keeps its offset. *)
Definition vertex_input (off : nat) (set : Z) (s : rstate) (v : nat) : rstate :=
  let d := rset s in
  match find_input (pinputs (base d)) v with
  | Some i => RState (rmesh s) (DSet (base d) (set_nth (sets d) i set) (material d)) (claim_owner (rowners s) off i) (has_vertex s)
  | None => RState (rmesh s) (add_input d v off set) (claim_owner (rowners s) off (List.length (pinputs (base d)))) (has_vertex s)
  end.
(** FAXGeometryImport.cpp:285-339: one <input> element.  The set is read as a signed number; reading it may overflow (None). *)
Definition read_input (s : rstate) (n : xml) : option rstate :=
  let sourceId := drop_hash (ReadNodeProperty n "source") in
  let idx := ReadNodeProperty n "offset" in
  let off := match idx with [] => S (List.length (rowners s)) | _ => Z.to_nat (fst (ToUInt32 idx)) end in
  let w := at_least (rowners s) (S off) in
  match (match ReadNodeProperty n "set" with [] => Some (-1)%Z | t => option_map fst (ToInt32 Strict t) end) with
  | None => None
  | Some set =>
      let sem := SemanticFromString (ReadNodeProperty n "semantic") in
      Some (
        if Z.eqb sem UNKNOWN then RState (rmesh s) (rset s) w (has_vertex s)
        else if Z.eqb sem VERTEX then
          if has_vertex s then RState (rmesh s) (rset s) w true
          else fold_left (vertex_input off set) (vertex_srcs (rmesh s)) (RState (rmesh s) (rset s) w true)
        else
          match FindSourceById (rmesh s) sourceId with
          | Some k => RState (SetSourceType (rmesh s) k sem) (add_input (rset s) k off set)
                             (claim_owner w off (List.length (pinputs (base (rset s))))) (has_vertex s)
          | None => RState (rmesh s) (rset s) w (has_vertex s)
          end)
  end.
(** FAXGeometryImport.cpp:280-354: the loop up to the first <p>, <vcount> or <ph>; result: the state and the nodes from that one on. *)
Fixpoint read_inputs (s : rstate) (l : list xml) : option (rstate * list xml) :=
  match l with
  | [] => Some (s, [])
  | n :: r =>
      if named n "input" then match read_input s n with Some s1 => read_inputs s1 r | None => None end
      else if named n "extra" then read_inputs s r
      else if named n "p" || named n "vcount" || named n "ph" then Some (s, l)
      else read_inputs s r
  end.
(** FCDocument/FCDGeometryPolygons.cpp:207-215: AddFaceVertexCount, and the counts set as a whole; FCDGeometryPolygonsInput.cpp:119-123:
    AddIndices; changes of the inputs' lists. *)
Definition with_counts (p : pset Z) (c : list nat) : pset Z := PSet (ptype p) c (pholes p) (pinputs p).
Definition with_inputs (p : pset Z) (l : list (input Z)) : pset Z := PSet (ptype p) (pcounts p) (pholes p) l.
Definition add_indices (ins : list (input Z)) (i : nat) (l : list Z) : list (input Z) := set_indices ins i (get_indices ins i ++ l).
(** FAXGeometryImport.cpp:424-435: allIndices: one list for each offset with an owner. *)
Definition index_lists (w : list (option nat)) : list (option (list Z)) :=
  map (fun o : option nat => match o with Some _ => Some [] | None => None end) w.
(** FAXGeometryImport.cpp:432: masterIndices: the first list; its address does not change. *)
Fixpoint master {A} (l : list (option A)) : option A := match l with [] => None | Some a :: _ => Some a | None :: r => master r end.
(** FAXGeometryImport.cpp:486-490, 500-504: the lists are appended to the owners' lists. *)
Fixpoint push_lists (ins : list (input Z)) (w : list (option nat)) (all : list (option (list Z))) : option (list (input Z)) :=
  match w, all with
  | Some i :: w1, Some l :: a1 => push_lists (add_indices ins i l) w1 a1
  | None :: w1, _ :: a1 => push_lists ins w1 a1
  | [], _ => Some ins
  | _, _ => None
  end.
(** FAXGeometryImport.cpp:459-475: the content of the <p> element of a <ph> element and the nodes from the first <h> on. *)
Fixpoint scan_ph (t : list Z) (l : list xml) : list Z * list xml :=
  match l with
  | [] => (t, [])
  | c :: r => if named c "p" then scan_ph (ReadNodeContentDirect c) r else if named c "h" then (t, l) else scan_ph t r
  end.
(** FCDocument/FCDGeometryPolygons.cpp:194-205: AddHole on the set. *)
Definition add_hole (p : pset Z) (i : nat) : pset Z :=
  PSet (ptype p) (pcounts p) (holes (AddHole (Polys (pcounts p) 0 (pholes p) []) i)) (pinputs p).
(** FAXGeometryImport.cpp:493-510: the holes of a face: every element behind the first <h>. *)
Fixpoint read_holes (w : list (option nat)) (l : list xml) (p : pset Z) (all : list (option (list Z)))
  : option (pset Z * list (option (list Z))) :=
  match l with
  | [] => Some (p, all)
  | Text _ :: r => read_holes w r p all
  | n :: r =>
      match ToInterleavedUInt32List (ReadNodeContentDirect n) all with
      | None => None
      | Some all1 =>
          match push_lists (pinputs p) w all1, master all1 with
          | Some ins, Some ms =>
              let p1 := add_hole (with_inputs p ins) (List.length (pcounts p)) in
              read_holes w r (with_counts p1 (pcounts p1 ++ [List.length ms])) all1
          | _, _ => None
          end
      end
  end.
(** FAXGeometryImport.cpp:256-267: how the faces are counted. *)
Inductive kind := IsPolygons | IsTriangles | IsPolylist.
(** FAXGeometryImport.cpp:447-511: one <p> or <ph> element. *)
Definition read_face (k : kind) (w : list (option nat)) (n : xml) (p : pset Z) (all : list (option (list Z)))
  : option (pset Z * list (option (list Z))) :=
  let '(t, hs) := if named n "ph" then scan_ph [] (children_of n) else (ReadNodeContentDirect n, []) in
  match ToInterleavedUInt32List t all with
  | None => None
  | Some all1 =>
      match push_lists (pinputs p) w all1, master all1 with
      | Some ins, Some ms =>
          let c := match k with
                   | IsTriangles => pcounts p ++ repeat 3 (List.length ms / 3)
                   | IsPolygons => pcounts p ++ [List.length ms]
                   | IsPolylist => pcounts p
                   end in
          read_holes w hs (with_counts (with_inputs p ins) c) all1
      | _, _ => None
      end
  end.
(** FAXGeometryImport.cpp:438-528: the loop over the tessellation. *)
Fixpoint read_faces (k : kind) (w : list (option nat)) (l : list xml) (p : pset Z) (all : list (option (list Z))) : option (pset Z) :=
  match l with
  | [] => Some p
  | n :: r =>
      if named n "p" || named n "ph" then
        match read_face k w n p all with Some (p1, all1) => read_faces k w r p1 all1 | None => None end
      else read_faces k w r p all
  end.
(** FAXGeometryImport.cpp:376-417: the <vcount> element.  Go: go on with these counts; Stop: return this status at once. *)
Inductive vres := Go (p : pset Z) | Stop (status : bool) (p : pset Z).
Definition read_vcount (m : mesh) (k : kind) (n : xml) (p : pset Z) : option vres :=
  match k, FindChildByType n "vcount" with
  | IsPolylist, None => Some (Stop true p)
  | IsPolylist, Some v =>
      match ToUInt32List (ReadNodeContentDirect v) [] with
      | None => None
      | Some cs =>
          match PositionSource m with
          | None => None
          | Some ps =>
              let p1 := with_counts p (map Z.to_nat cs) in
              Some (if forallb (fun c => Nat.leb (Z.to_nat c) (src_values ps)) cs then Go p1 else Stop false p1)
          end
      end
  | _, None => Some (Go p)
  | _, Some _ => Some (Stop true p)
  end.
(** FAXGeometryImport.cpp:246-555: LoadGeometryPolygons: status, mesh (the types of the sources may change) and set. *)
Definition LoadGeometryPolygons (m : mesh) (d0 : dset) (n : xml) : option (bool * mesh * dset) :=
  let expected := ReadNodeCount n in
  match (match ptype (base d0) with
         | POLYGONS => if named n "polygons" then Some IsPolygons else if named n "triangles" then Some IsTriangles
                       else if named n "polylist" then Some IsPolylist else None
         | _ => Some IsPolygons
         end) with
  | None => Some (false, m, d0)
  | Some k =>
      let d := DSet (base d0) (sets d0) (ReadNodeProperty n "material") in
      match read_inputs (RState m d [] false) (children_of n) with
      | None => None
      | Some (s, rest) =>
          let d1 := rset s in
          match rest with
          | [] => Some (true, rmesh s, d1)
          | _ =>
              if negb (has_vertex s) then Some (true, rmesh s, d1) else
              match (if Z.eqb expected 0 then Some (Go (base d1)) else read_vcount (rmesh s) k n (base d1)) with
              | None => None
              | Some (Stop st p) => Some (st, rmesh s, DSet p (sets d1) (material d1))
              | Some (Go p) =>
                  match read_faces k (rowners s) rest p (index_lists (rowners s)) with
                  | Some p1 => Some (true, rmesh s, DSet p1 (sets d1) (material d1))
                  | None => None
                  end
              end
          end
      end
  end.
(** FAXGeometryImport.cpp:131-142: the primitive type of a child of <mesh>. *)
Definition prim_of_element (n : xml) : option prim :=
  if named n "source" then None else if named n "vertices" then None
  else if named n "polygons" || named n "triangles" || named n "polylist" then Some POLYGONS
  else if named n "lines" then Some LINES else if named n "linestrips" then Some LINE_STRIPS
  else if named n "trifans" then Some TRIANGLE_FANS else if named n "tristrips" then Some TRIANGLE_STRIPS
  else if named n "points" then Some POINTS else None.
(** FAXGeometryImport.cpp:131-147: a child of <mesh>; result None inside: the child is no polygon set. *)
Definition LoadMeshChild (m : mesh) (n : xml) : option (option (bool * mesh * dset)) :=
  match prim_of_element n with
  | None => Some None
  | Some t => option_map Some (LoadGeometryPolygons m (AddPolygons m t) n)
  end.
