# Formal model of parts of FCollada (seragh/fcollada) in Rocq

Build: `cd rocq && coq_makefile -f _CoqProject -o Makefile && make -j4` (Coq 8.16.1).

## 1. Conventions

* Source of truth: `/repo/FCollada` at the pinned commit, Linux branches, `UNICODE` off
  (CMakeLists.txt:23,45), so `fchar = char` and `fstring = fm::string`.
* Each area has up to three files: `<Area>Model.v` (definitions following the C++ function by
  function, each with a comment citing file and lines), `<Area>Proofs.v` (lemmas), and
  `<Area>Props.v` (small independent specification, the property theorems, `Print Assumptions`,
  and beside each theorem an `Example` with a concrete non-trivial instance).
* Undefined behaviour (out-of-bounds access, use after free, signed overflow, division by zero) is a
  distinct outcome of the model (`None`/`Error`), never a hypothesis left implicit.
* `FUAssert(c, fallback)`: in the release configuration a false condition runs `fallback` and goes on.
  We model that: the fallback is executed; an empty fallback means execution continues.
* Loops become structural recursion, or recursion on explicit fuel with a distinct `OutOfFuel` outcome
  that the theorem excludes (or, for non-termination results, is shown to be reached for all fuel).
* `_refuted` theorems: the full claim is false of the code; the theorem proves the negation with a
  concrete witness. A `_partial` theorem proves the claim on the part of its domain where it holds.
* Machine integers: `Z`/`N` with explicit wrap-around where reachable values can wrap.
* Floats: code that only compares/copies floats is modelled over an arbitrary total order or `Z`/`Q`;
  algebraic code over exact rationals/reals or an arbitrary commutative ring/field (rounding not
  modelled, stated at the theorem); bit-exact single precision via Coq's stdlib `SpecFloat`.

## 2. Plan per property

| Id | Model | Statement / proof method |
|----|-------|--------------------------|
| C01 | tree nodes with stored `weight`; insert/erase as descent + bottom-up rebalancing with the code's stop conditions and rotations | refinement to finite map (association function) by invariant over operation lists |
| C02 | in-order walk; `++`/`--` on paths (parent links = zipper) | iterating `++` from begin enumerates the sorted list |
| C03 | same model | AVL invariant: stored weight = height difference, within [-1,1]; Fibonacci-type bound |
| C04 | node identities kept in the tree; erase copies data between nodes as the code does | refuted by a witness; positive part for erases of nodes without two children |
| C05 | buffer of optional cells + size + capacity | refinement to lists over operation sequences |
| C06 | argument passed as address into the buffer | refuted (use after free when full; shifted value when not full) |
| C07 | quicksort on arrays with bounds-checked access | permutation/termination/in-bounds for any comparator; sortedness for strict weak orders |
| C08, C09 | encode/decode loops with checked reads | round trip by induction on triples; over-read and wrong-size witnesses |
| C10 | table + loop on bytes | table = 8 bit-steps (finite, computed); linearity of the step over xor, injectivity |
| C11, C12, C13 | digit loops on char lists | round trips by induction on digits; CountValues disagreement witnesses |
| C14 | suffix map, SplitString, insert/erase/contains | freshness under no-wrap hypothesis stated on the requested strings; wrap witness |
| C15 | document id map + objects | invariant over histories; Clone witness |
| C16 | character maps | pointwise, finite byte case analysis lifted to all strings |
| C17 | path segment stacks | no escape, MakeAbsolute/MakeRelative inverse |
| C18, C19 | escape tables, XmlToString | round trip; '%' witness |
| C20 | child list insertion | sortedness/stability; text-first witness |
| C21 | two/four digit formatting and parsing | round trip |
| C22, C23 | heap of objects, owners, trackers | invariants over histories; copy/duplicate/transfer witnesses |
| C24 | handler list | exact-one removal; 0/2 witnesses |
| C25, C26 | boxes over a total order, spheres over reals | containment; witnesses for first-point and nested spheres |
| C27–C30 | key lists, searches, infinity modes, clip offsets, merges | sortedness, bounds, interpolation facts in exact arithmetic; witnesses |
| C31 | influence list filter/insertion sort | bound, dominance, total weight |
| C32–C36 | polygon set: face counts, hole list, index lists | invariants over histories, exact effect, witnesses |
| C37–C39 | parent/child lists of node ids, iterator stacks | acyclicity invariant; traversal equals tree expansion; witnesses |
| C40 | recursive extra tree | clone equality by tree induction |
| C41 | control vertex lists | index arithmetic on lists |
| C42, C43 | 16 / 4 field elements over a commutative ring/field | `ring`/`field`; convention witnesses |
| C44 | triples of naturals + the operators as written | order laws; `>`/`>=` witnesses |
| C45 | SpecFloat binary32 | all 256 values computed, lifted to all colours |
| C46 | Z arithmetic with C remainder | `lia`/`Z` lemmas |
| C47 | parent function on finite hierarchy | induction on chains |
| C48, C49 | reference state machines | invariants; witnesses |
| C50 | strings, root stack | find_last_of facts, stack invariant |
| C51 | targets with vertex counts | invariant over histories |
| C52 | exact real/rational angle arithmetic | termination and bound |
| C53 | strings | concatenation, parse results |
| C54 | lock state machine | deadlock witness; return value |
| C55, C56 | constructor/destructor balance and cost of growth of `fm::vector` | witnesses; cost by induction on the number of appends |
| C57, C58 | list parsers writing into existing containers, interleaved parsing | exact final contents by induction on the text; witnesses |
| C59, C61 | URI escaping; printing and parsing | list reasoning; witnesses |
| C60 | string object as cells with terminator | agreement with texts for each operation; witnesses |
| C62 | attribute writer/reader of the XML layer | round trip on safe texts; witness |
| C63 | child lists of XML nodes | list reasoning |
| C64, C65, C66 | transforms of boxes and spheres | `nra`/`lra` on each sign pattern; witnesses |
| C67 | multi-curves against single curves | exact arithmetic; witness |
| C68 | shared index lists of polygon inputs | invariant; witness |
| C69 | extra-tree attributes | read-back after cleaning; witness |
| C70–C74 | rotation builders, decomposition, look-at, Euler and slerp conversions over reals | `ring`/`field` on trigonometric identities; witnesses |
| C75 | tables of the enumeration conversions, generated by script from FUDaeEnum.cpp | table checks computed once, lifted to all strings/values by lemmas on chain and switch |
| C76 | sub ids of scene nodes: search down, search up, choice of a free text | search = first in pre-order (tree induction); upward loop = breadth-first order of the reversed graph; pigeonhole for uniqueness; star of 514 nodes as witness |
| C77 | transformations of scene nodes over reals | matrix algebra of C42/C70; termination of the world transform from acyclicity (C37); witnesses |
| C78 | float readers and writers over exact rationals; the format library as a relation | digit accumulation lemmas; decimal exponent and rounding lemmas on Q; list parsing lemma of C13 |
| C79 | string builders: blocks with size and life, cells written or not, any number of builders | invariant over histories (owner of every block is unique); each operation characterised by new text + frame condition |
| C80 | searching, copying and vectors of string builders | on top of C79; witnesses |
| C81 | animatable list parameters: values, buffer identity and capacity, helpers with place and address | slots that carry their helper as specification; binary search correct on strictly ordered places; one lemma per operation |
| C82 | addresses kept by the helpers, evaluation through them | on top of C81: the addresses are all right or all wrong after a `calm` operation, so testing the first suffices |
| C83 | controllers, their base targets and the id a reference keeps | inductive paths along base targets (unique, without repetition); cutting and extending paths; one lemma per operation |
| C84 | kinds and vertex counts along the chains | invariant over paths on top of C83; only the changed controller needs an argument when nothing is based on it |
| C85 | polygon sets, an XML tree, the writer and the reader of polygon sets | interleaved text parsed back row by row (on C13/C14 lemmas); `covers`: writer and reader have owners at the same offsets; `sees`: what all inputs at an offset see, kept by AddIndices |
| C86 | the reader on any element of a valid document | a table of numbers seen as columns of artificial inputs, so the lemmas of C85 apply |
| C87 | the conversion of the up-axis and unit: functors, transformations, nodes and their pivots, sources, skins, cameras | `carries`: a change of frame as a relation on 4×4 matrices, closed under products, shown for every kind of transformation; induction over the loop on nodes with an `after` record; world matrices along inductive paths |
| C88 | the lists of assets an entity looks through | direct, on `find` over the list of assets |
| C89 | the conversion, twice | the converted graph is sound again, so the lemma of one conversion applies twice; each converting function has its inverse |
| C90 | skin controllers, the writer with its weight table, sources | the written texts are lists of numbers (on C78 lemmas), so the written element `holds` data and C91 applies; weights found in the table by position |
| C91 | the reader of `<skin>`: sources, inputs, pairs, normalization | `describes`: the meaning of an element, independent of the layout; lists of numbers, words and matrices parsed for every spacing |
| C92 | the same reader on other elements | direct: each crash class reaches the undefined step whatever the rest of the element is |
| C93 | morph controllers, writer and reader | as C90; both lists have one entry per target |
| C94 | the reader of `<channel>`, its sampler and its sources | `describes`: the meaning of a channel, independent of layout, scopes and order; tables of any width parsed for every spacing; `channel_is`: keys by row and column |
| C95 | the writers and the reader of animations, as trees | every written channel is a described channel with known data; induction over the tree |
| C96 | the loop over the channels | the status is sticky: induction over the channels behind the bad one |
| C97 | FindChildById, the ids of written curves | `refers`; a computed CRC collision; the second of two curves with one id describes the first's data |
| C98 | the same reader on other elements | computation on four malformed documents |
| C99 | the writers and readers of the six kinds of transformation, AddNodeSid | every written element is a described one (`transform_in`); induction over the list; computed witnesses |
| C100 | WriteSceneNode and LoadSceneNode, LoadLibrary | the written tree is an `image` of the unfolding of the graph; it describes a tree whose nodes are known; `saved_children` says which children come back |
| C101 | the reader on well-formed content | `library_is`: the meaning of the content; invariant of the reader: graph and ids are those of the entries read so far |
| C102 | the reader on any content | induction over the XML tree: `sound` is preserved, the search for an id ends because the graph has no cycles |
| C103 | WriteExtra … WriteExtraNode, LoadExtra … LoadExtraNode | induction over the tree: reading what was written; distinct names turn the de-duplicating additions into appends; invariant of the calls for `C103_built_partial` |
| C104 | LoadExtra … LoadExtraNode on any document | invariant over the elements read so far: `types_of`, `techs`; induction over the XML tree for `says` |
| C105 | WriteTargetedEntityExtra, LoadTargetedEntity | the parameters added for the export are the ones taken out on loading; computed witnesses |
| C106 | WriteLight, LoadLight | C105 for the tree with the light's parameters; LoadLight as two folds where the last hit counts; `printed_number` |
| C107 | LoadLight on any document | `fold_last`: the last hit of a fold decides; totality of the readers without the letter I |
| C108 | WriteCamera, LoadCamera, SetFovX/SetFovY | C109 on the written elements, by cases of the two flags |
| C109 | LoadCamera on any document | `fold_last` per value; for the aspect ratio the list is split at the last element that can change it |
| C110 | WriteAsset, LoadAsset, FUUri of file addresses | step lemmas: each written element sets its field in the fold of LoadAsset; `parse` of "file://" paths; `close6` keeps 0.11 mm above the threshold |
| C111 | LoadAsset on any document | `fold_last` per field; the axis counts only when its text is one of three |
| C112 | FCDAsset::Clone | by computation on the fields; computed witness for an existing clone |
| C113 | WriteGeometrySpline, LoadGeometrySpline | the written source is found by its id among all children; parsed numbers against the printed ones; induction over the list of splines with SetType releasing the earlier ones |
| C114 | LoadGeometrySpline, LoadSpline, LoadGeometry on any document | last input of each semantic; `technique_for` as first match; NULL outcome for unknown types |
| C115 | WriteGeometryMesh, WriteGeometrySource, LoadGeometryMesh | the written document says the sources and inputs (C116's spec); induction over the polygon sets with C85 and `loading`; types never become unknown again; `view` after the sets of the per-vertex inputs are given |
| C116 | LoadGeometryMesh, LoadGeometrySource, AddVertexSource on any document | fold over the inputs (`once`, last type); the frame of LoadGeometryPolygons: ids, values and primitive type are kept, types change only for mentioned sources |
| C117 | FCDGeometryMesh::Clone, FCDGeometrySource::Clone, FCDGeometryPolygons::Clone | loop invariant: the inputs of the copy are a table from sources to input and set; permutation of the pairs; the effective indices depend only on the set of pairs when each offset has one owner |
| C118 | WriteEffectStandard, LoadEffectStandard, Write/Parse(Color\|Float)TextureParameter | the written elements are a list of items; loading is a fold over them; case analysis on lighting model and flags |
| C119 | LoadEffectStandard, the constructor of FCDEffectStandard | fold with one observable at a time: the last element of a name decides, the others leave it alone |
| C120 | FCDEffectStandard::GetOpacity, GetReflectivity | rational arithmetic; counterexamples with coloured light |
| C121 | FCDEffectStandard::Clone | step by step over the setters |
| C122 | WritePASBox ... WritePASSphere, LoadPASBox ... LoadPASSphere | fold with one part at a time; texts from C78; counterexample for planes |
| C123 | FMVolume, FCDPAS*::CalculateVolume | antiderivatives of the areas of sections, their uniqueness; real arithmetic |
| C124 | FCDPAS*::Clone | case analysis |
| C125 | WritePhysicsRigidConstraint, LoadPhysicsRigidConstraint (limits and springs) | paths of first children; one field at a time through folds; counterexample for springs |
| C126 | WritePhysicsMaterial, LoadPhysicsMaterial, the material of a shape | the same; counterexample for shapes |
| C127 | WritePhysicsShape, LoadPhysicsShape: hollow, mass, density | last element of each name, induction for the flag, printed numbers; counterexample for mass and density 0 |
| C128 | FCDPhysicsShape::Clone: hollow, mass, density | cases; counterexample for the flag |

## 3. Trusted base

* The Coq 8.16.1 kernel, including `vm_compute`. No kernel check is switched off; no axiom, parameter,
  functor or module type is declared; nothing is admitted.
* The standard-library axioms listed in section 5 for the theorems over real numbers; all others are closed.
* The faithfulness of the hand-written models to the C++ text. Every definition cites the lines it models and
  every deliberate simplification is stated in its comment. The models were never run against the compiled code.

### 3.1 Code modelled (file headers, generated)

* `AngleModel.v` — Model of AngleApproach and PatchEuler, FMath/FMQuaternion.cpp:18-40: in exact arithmetic, with the values that the constants really have, and AngleApproach in binary32 arithmetic. [None] is running out of fuel: the loop is still running after that many iterations.
* `AnimModel.v` — Animations in COLLADA XML: FArchiveXML::WriteAnimationChannel, WriteSource-, WriteSampler- and WriteChannelFCDAnimationCurve and their versions for merged curves (FColladaPlugins/FArchiveXML/FAXAnimationExport.cpp:22-153, 304-677), LoadAnimationChannel, FindChildByIdFCDAnimation and LoadAnimation (FAXAnimationImport.cpp:27-428), the sources they use (FAXColladaWriter.cpp:68-352, FAXColladaParser.cpp:77-428, FUtils/FUStringConversion.hpp:387-433), SplitTarget and ParseQualifier (FUStringConversion.cpp: 210-241), on the XML tree of DaeModel.v with the texts of FloatModel.v and the sources of RigModel.v. Times and values are finite rationals (0.0001f and the divisions by 3 are exact). The list of interpolations that is written begins with memory that was never initialised (FAXAnimationExport.cpp:407-410); its contents are a parameter. Not modelled: libxml2 itself, the decision whether to merge the curves of a channel (27-83; merging itself is in CurveModel.v), the links to the animated values, ids, names and extra data of the animations, error messages. None is undefined behaviour (an element behind a list or a value that was never initialised is used).
* `AssetModel.v` — Assets in COLLADA XML: WriteAsset, WriteAssetContributor (FColladaPlugins/FArchiveXML/FAXEntityExport.cpp:64-129), LoadAsset, LoadAssetContributor (FAXEntityImport.cpp:102-201) and the constructor, setters and Clone of FCDAsset and FCDAssetContributor (FCollada/FCDocument/FCDAsset.cpp:23-112, FCDAsset.h), on the XML tree of DaeModel.v, the dates of TextModel.v, the addresses of UriModel.v and the numbers of FloatModel.v. Numbers are finite rationals; the time of day is a parameter; the writer is a relation because the digits printf chooses are. Not modelled: plug-ins that take over the writing of a contributor, dirty flags, error messages, which asset is in force (AxisModel.v). None is undefined behaviour (the port of an address, a number that ends too early).
* `AxisModel.v` — The conversion of a document to another up-axis and another unit of length: FCDocumentTools::StandardizeUpAxisAndLength (FCDocument/FCDocumentTools.cpp:43-257, 385-707) with the search for the asset in force (FCDEntity.cpp:104-108, FCDSceneNode.cpp:236-246), in exact real arithmetic on the transformations of TransformModel.v and the scene graphs of SceneModel.v. Not modelled: animations (FCDocumentTools.cpp:259-383), documents that are referred to (438-475: one document without external references), names and ids of nodes, NURBS surfaces and morph controllers (the code leaves them alone).
* `Base64Model.v` — Model of FCollada/FUtils/FUBase64.cpp. Bytes are integers 0..255; a byte list (UInt8List) is a [list Z]; a pointer into the input is the remaining suffix, so reading [*p] at the end of the buffer is the outcome [None]; so are a write outside the output buffer, a signed overflow and a resize to a negative size. Little-endian host, as assumed by the temp[3..0] accesses.
* `BodyModel.v` — Mass, density and hollowness of a physics shape: the constructor, Clone, SetMass, SetDensity, GetMass and GetDensity of FCDPhysicsShape (FCollada/FCDocument/FCDPhysicsShape.cpp:27-38, 119-191), WritePhysicsShape (FColladaPlugins/FArchiveXML/FAXPhysicsExport.cpp:27-61) and LoadPhysicsShape (FAXPhysicsImport.cpp:245-364). Numbers are finite rationals. The volume that CalculateVolume gives for the loaded shape is a parameter; it is not 0. The elements of the material, of the geometry and of the transforms are given; what is loaded from them is not modelled. None is undefined behaviour.
* `BoxModel.v` — FUBoundingBox (FUtils/FUBoundingBox.h, FUtils/FUBoundingBox.cpp). Coordinates are rational numbers. Every finite float is one, and Reset, Include, Contains, IsValid, Equals and Overlaps only compare and copy coordinates, so for finite coordinates they are modelled without error; NaN and infinities are not modelled. The overlap centre and Transform use exact arithmetic instead of rounding.
* `BuilderModel.v` — Model of the string builder, FUtils/FUStringBuilder.{h,hpp} (FUStringBuilderT<char>). Builders own blocks of a heap. A block is the list of its cells, a cell is uninitialised ([None]) or holds a character (a byte value); a freed block is [None]. Every access is checked: a read or write outside a block, in a freed block, or through a NULL buffer gives [None] for the whole operation, and so does freeing a freed block. Reading an uninitialised cell by memcpy copies it (as C++ does), reading it as a character gives [None]. Sizes are unbounded naturals (no wrap-around of size_t, no failing [new]); int32 parameters are integers, signed overflow is [None]. A text argument is a list of characters that lives outside the builders' own buffers. The texts of numbers are modelled elsewhere (TextModel.v, FloatModel.v). The build is a release build (the default constructor reserves 32 cells).
* `ColorModel.v` — Model of FCollada/FMath/FMColor.cpp in IEEE binary32 arithmetic (standard library SpecFloat, precision 24, emax 128, round to nearest even; FLT_EVAL_METHOD 0 is assumed).
* `ControlModel.v` — Model of controllers and of the entities they deform: FCDocument/FCDController.cpp, FCDMorphController.cpp, FCDSkinController.cpp (the target and the number of influences) and, as far as a skin uses it, FCDEntityReference.cpp. Entities are numbers; a number is never used twice, which stands for the unique ids (C15). Simplifications: one document; an entity is tracked by the library that lists it and by the controllers here, instances in scenes are not modelled; an entity found again by its id (LoadEntity) is not stored in the reference, as finding it again gives the same entity; weights, methods, joints, matrices and dirty flags are left out. A call that uses a released entity or never returns gives [None].
* `CrcModel.v` — Model of FCollada/FUtils/FUCrc32.cpp. A NUL-terminated string is the list of its bytes (1..255) before the terminator; uint32 values are [N] below 2^32.
* `CurveModel.v` — FCDAnimationCurve: key insertion and removal, clip selection and Evaluate (FCDocument/FCDAnimationCurve.cpp) in exact rational arithmetic. Every finite float is a rational, so stored times and comparisons are exact; rounding and overflow of computed values are not modelled. A division by zero (infinity or NaN in the code) is a separate outcome.
* `CustomModel.v` — Extra trees, notes and targets in COLLADA XML: WriteExtra, WriteExtraType, WriteExtraTechnique, WriteExtraNode (FColladaPlugins/FArchiveXML/FAXEntityExport.cpp:24-62, 161-213), LoadExtra, LoadExtraType, LoadExtraTechnique, LoadExtraNode (FAXEntityImport.cpp:26-100, 230-245), the note and target of an entity (FAXSceneExport.cpp:266-320, FAXSceneImport.cpp:41-102), on the in-memory XML tree of DaeModel and the extra trees of ExtraModel. Not modelled: libxml2 itself (writing the tree to a file and parsing it back is taken to return the same tree), namespace prefixes, the animated value of a node, plug-ins that take over the writing or loading of a type or node (LetWriteObject and LoadSwitch call the functions below when there are none), ids, names and assets of the entity. None is undefined behaviour (the absent default type is used).
* `DaeModel.v` — Polygon sets in COLLADA XML: FArchiveXML::WriteGeometryPolygons (FColladaPlugins/FArchiveXML/FAXGeometryExport.cpp:144-310) and FArchiveXML::LoadGeometryPolygons with the part of LoadGeometryMesh that calls it (FColladaPlugins/FArchiveXML/FAXGeometryImport.cpp:123-148, 246-555), on an in-memory XML tree. Not modelled: libxml2 itself (writing the tree to a file and parsing it back is taken to return the same tree), extras, error messages, cancelling, inputs whose source is NULL, animated sources. None is undefined behaviour (a NULL pointer or an element behind a list is used).
* `EnumModel.v` — The conversions between the COLLADA enumerations and their strings: FCollada/FUtils/FUDaeEnum.h, FUDaeEnum.cpp, FUDaeEnumSyntax.h, FUDaeSyntax.h. Each namespace of FUDaeEnum.cpp holds one FromString, an if/else chain of strcmp tests, and (but for FUDaeTextureChannel) one ToString, a switch. An enumerator is its integer value. A C string is a Coq [string] (no NUL inside, never a null pointer). The macros are replaced by their text.
* `EventModel.v` — FUEvent (FUtils/FUEvent.h) and the reports of FUError (FUtils/FUError.cpp:15-72). Functions and objects are named by numbers; an entry of the handler list is (object, function), the function being None when the std::function is empty because its content was moved elsewhere (libstdc++). What a function does to the event while it runs is given by [body]. The destruction or relocation of a std::function during its own call is not tracked.
* `ExtraModel.v` — Model of the extra trees: FCDocument/FCDExtra.cpp and FCDExtra.h. A string is a list of non-zero byte values, so IsEquivalent (strcmp, FUString.h:536-539) is equality. Objects are owned by exactly one container, so a tree of values stands for the tree of objects; a call on an inner object is a call at a path. Not modelled: the dirty and new-child flags, the animated value of a node and the plug-in object of a technique (neither is looked at by the functions below; the node's animated value is left out of Clone by the code itself, FCDExtra.cpp:344).
* `FileModel.v` — Model of the file-name helpers and the root-path stack of FCollada/FUtils/FUFileManager.cpp. A string is the list of its bytes, without NUL.
* `FitModel.v` — FCDGeometryPolygonsTools::FitIndexBuffers (FCDocument/FCDGeometryPolygonsTools.cpp:1087-1181) and the parts of FCDGeometryMesh::AddPolygons it uses. The material names are not modelled; numbers are unbounded.
* `FloatModel.v` — Model of the floating point text conversions: FUStringConversion::ToFloat, ToVector2/3/4, ToMatrix and ToFloatList (FUtils/FUStringConversion.hpp:55-129, 181-192, 213-252, 366-382), FloatToString and append(float/double) (FUtils/FUStringBuilder.hpp:26-57, 206-260) and the ToString functions of vectors, matrices and float lists (FUStringConversion.hpp:256-283, 558-568). Texts are as in TextModel.v. Numbers are exact rationals: the rounding of the accumulator [val] (a double, exact up to 2^53), of [decimals] (a float, exact up to 10^10), of the final division, of [powf] and of the product with it are not modelled, nor is their overflow to infinity (more than 38 digits after the point, or exponents outside the float range); a floating point variable is [Fin q], an infinity or a NaN. The text produced by the external library call fmt::format("{:.6g}", f) is not computed but specified by the relation [formatted], after the library's documentation (the "%g" conversion of C, ISO C 7.21.6.1). NULL pointers are not modelled. [None] is a read beyond the terminator, or (from ToInt32) a signed overflow under the [Strict] reading of the standard.
* `IdModel.v` — Model of the ids and names of COLLADA objects: FCDocument/FCDObjectWithId.cpp, and the name cleaners of FCDocument/FCDEntity.cpp and FCDocument/FCDExtra.cpp. A string is a list of non-zero byte values; values above 127 are the negative chars, which fail every range test like their signed forms.
* `JointModel.v` — Limits and springs of rigid constraints and the numbers of physics materials in documents: the constructor of FCDPhysicsRigidConstraint (FCollada/FCDocument/FCDPhysicsRigidConstraint.cpp:25-40), WritePhysicsRigidConstraint and LoadPhysicsRigidConstraint (FColladaPlugins/FArchiveXML/FAXPhysicsExport.cpp:199-260, FAXPhysicsImport.cpp:709-871), the constructor of FCDPhysicsMaterial (FCDPhysicsMaterial.cpp:16-21), WritePhysicsMaterial and LoadPhysicsMaterial (FAXPhysicsExport.cpp:148-160, FAXPhysicsImport.cpp:598-640) and the material that a shape owns (FAXPhysicsExport.cpp:39-43, FAXPhysicsImport.cpp:275-279). Numbers are finite rationals. The elements of the attachments, of the two flags and of the extra tree are given; what is loaded from them, the entity itself and animations are not modelled. None is undefined behaviour; a vector that is None is uninitialised.
* `LampModel.v` — Lights and cameras in COLLADA XML: WriteLight and LoadLight (FColladaPlugins/FArchiveXML/FAXLightExport.cpp:16-106, FAXLightImport.cpp:16-185), LoadPenumbra (FCollada/FCDocument/FCDLightTools.cpp:24-41), WriteCamera and LoadCamera (FAXCameraExport.cpp:15-78, FAXCameraImport.cpp:15-97), the setters of FCDCamera (FCollada/FCDocument/FCDCamera.cpp:41-61), on the XML tree of DaeModel.v, the extra trees of CustomModel.v and the texts of FloatModel.v. Numbers are finite rationals and the arithmetic on them is exact; the writers are relations because the digits printf chooses are. Not modelled: animated values, the id, name and asset of the entity, error messages, the deprecated penumbraAngle (never written nor read). None is undefined behaviour.
* `MatrixModel.v` — FMMatrix44 and FMMatrix33 (FMath/FMMatrix44.cpp, FMath/FMMatrix33.cpp) in exact real arithmetic: rounding, overflow and NaN of the float computations are not modelled. As in the code, m[c][r] is the element in column c and row r (FMMatrix44.cpp:43-49 reads rows).
* `MeshCopyModel.v` — Copies of meshes: FCDGeometryMesh::Clone (FCDocument/FCDGeometryMesh.cpp:235-265), FCDGeometrySource::Clone (FCDocument/FCDGeometrySource.cpp:43-63) and FCDGeometryPolygons::Clone (FCDocument/FCDGeometryPolygons.cpp:288-337), on the meshes of MeshModel.v and the polygon sets of DaeModel.v. Not modelled: extras and animations (they are not copied by these functions or only by the extra's own Clone), the numbers of faces, holes and corners (copied as they are), which of two equal ids is renamed later (IdModel.v), copying into a mesh that is not empty. None: an input without source is asked for its id (a NULL pointer is used).
* `MeshModel.v` — Meshes in COLLADA XML: FArchiveXML::WriteGeometrySource and WriteGeometryMesh (FColladaPlugins/FArchiveXML/FAXGeometryExport.cpp:23-128), LoadGeometrySource and LoadGeometryMesh (FColladaPlugins/FArchiveXML/FAXGeometryImport.cpp:22-190), the choice of the kind of mesh in LoadGeometry (209-230), SetTypeFCDGeometrySource (706-729), FCDGeometryMesh::AddVertexSource (FCDocument/FCDGeometryMesh.cpp:173-194) and FCDGeometrySource::GetValueCount (FCDGeometrySource.h:112), on the XML tree of DaeModel.v, with the polygon sets of DaeModel.v and the sources of RigModel.v. Numbers are finite rationals; the writers are relations because the digits printf chooses are. Not modelled: libxml2 itself, extras and animations of sources, the document's renaming of ids that are empty or taken (IdModel.v), cancelling, error messages (a warning is not fatal and an error is, as by default), the counts and offsets of Recalculate, the encoding of texts (theorems about texts are about plain ones). None is undefined behaviour (a NULL pointer is used, a text is left, or a number overflows).
* `NodeModel.v` — Scene nodes in COLLADA XML: FArchiveXML::WriteSceneNode and the writers of transformations (FColladaPlugins/FArchiveXML/FAXSceneExport.cpp:39-264, 358-373), LoadSceneNode, LoadEntity and the readers of transformations (FAXSceneImport.cpp:24-78, 104-200, 307-431), AddNodeSid (FAXColladaWriter.cpp:365-405), LoadLibrary for the visual scenes (FArchiveXML.cpp:928-962) and FindDaeId (FCDocument/FCDSceneNode.cpp:164-175, FCDocument/FCDLibrary.hpp:50-72), on the XML tree of DaeModel.v, the scene graphs of SceneModel.v, the sub ids of SubIdModel.v, the ids of IdModel.v and the texts of FloatModel.v. Numbers are finite rationals; the writers are relations because the digits printf chooses are. Not modelled: libxml2 itself, animated transformations and visibilities, extras, assets, notes, layers, the instances of entities other than scene nodes (they are elements given from outside, with the status their reader returns), instances of scene nodes that are not children, references to other files, error messages. Bad is undefined behaviour, Fuel a search that does not end.
* `OwnerModel.v` — FUObject, FUObjectRef and FUObjectContainer (FUtils/FUObject.h, FUObject.cpp) over a heap of objects. Objects, references and containers are named by numbers (their addresses). The objects are leaves: their destructors run no further owners. A failed FUAssert takes its fall-back (FUAssert.h:64). None: an object, reference or container is used after its destruction, or an iterator that points behind the list is dereferenced.
* `PackModel.v` — FCDGeometryPolygonsTools::GenerateVertexPackingMap (FCDocument/FCDGeometryPolygonsTools.cpp:988-1017).
* `ParamModel.v` — Animatable list parameters (FCollada/FCDocument/FCDParameterAnimatable.h, .hpp, .cpp:143-281): a list of values of which some have an animation helper ([FCDAnimated]) with the index of the value ("array element"), a pointer to the value and possibly a curve. The value vector is a list of values with its capacity and the identity of its buffer, a new one after each reallocation (FMArray.h:306-354; the growth rules of FMArray.h are those of VectorModel.v). [None] as a value is a float never written (FMArray.h:273). A pointer is a buffer identity and an index. The outcome [None] of an operation stands for undefined behaviour (a write through a pointer whose buffer is gone, the address of a value that does not exist, a helper that was released) and for the endless loop of OnRemoval. Simplified: one component and one pointer per value (OnPotentialSizeChange sets the pointers of all components alike, hpp:216-219); at most one curve, given by the result of its evaluation; vector functions are used as in C05, that is as operations on lists; array elements are unbounded integers, whereas offsets are cast to int32 as in the code. Not modelled: change flags of the parent, GetDataList/GetDataPtr, SetArrayElement called from outside, arguments that refer into the list.
* `PolyModel.v` — FCDGeometryPolygons: faces, holes and the index lists of the inputs (FCDocument/FCDGeometryPolygons.cpp:58-205, FCDocument/FCDGeometryPolygonsInput.cpp:56-138). Numbers are unbounded: uint32/size_t overflow of counts is not modelled.
* `QuatModel.v` — FMQuaternion (FMath/FMQuaternion.h, FMath/FMQuaternion.cpp) in exact real arithmetic: rounding, overflow and NaN of the float computations are not modelled.
* `RefModel.v` — Model of entity references and document placeholders: FCDocument/FCDEntityReference.cpp, FCDPlaceHolder.cpp, FCDExternalReferenceManager.cpp. Document 0 owns all the references and placeholders here; the other documents are the externally referenced ones. Simplifications: a URI is given as the absolute file path it resolves to, if it names a file, and its fragment (resolution itself: UriModel); a file on the disk is the list of the ids of its entities, or nothing when it cannot be loaded; FindEntity goes through the entities of a document in order of creation (FCDocument.cpp:222-246 goes library by library; the ids of one document are unique, C15). Not modelled: a placeholder for the URL of document 0 itself, references owned by the external documents, and the dirty flags.
* `ReindexModel.v` — FCDGeometryPolygonsTools: unique index buffers (FCDocument/FCDGeometryPolygonsTools.cpp:436-827, FCDocument/FCDGeometryMesh.cpp:174-194). The values of a source are modelled as one element of type A per value (the stride is at least one and divides the number of floats); numbers are unbounded (no uint32 overflow of the number of new vertices). The animated values of the sources and the texture set numbers of the inputs are not modelled.
* `RigModel.v` — Skin and morph controllers in COLLADA XML: FArchiveXML::WriteSkinController and WriteMorphController (FColladaPlugins/FArchiveXML/FAXControllerExport.cpp:30-159), LoadSkinController and LoadMorphController (FAXControllerImport.cpp:57-335), the sources they use (FAXColladaWriter.cpp:57-335, FAXColladaParser.cpp:23-212, 503-516) and ToMatrixList (FUtils/FUStringConversion.hpp:485-505), on the XML tree of DaeModel.v and with the texts of FloatModel.v. Weights and matrix components are finite rationals. The writers are relations because the digits printf chooses are. Not modelled: libxml2 itself, the reference to the skinned geometry (attribute source of <skin>), the animations of the morph weights, error messages. None is undefined behaviour (a NULL pointer, an element behind a list or a matrix that was not initialised is used).
* `RotModel.v` — The builders of transformations in FMMatrix44 (FMath/FMMatrix44.cpp:107-176, 313-421) and the conversions and the interpolation of FMQuaternion (FMath/FMQuaternion.cpp:96-177), in exact real arithmetic: rounding, overflow and NaN are not modelled, sinf and cosf are the sine and cosine, FMath::Pi is pi.
* `ScalarModel.v` — Model of the scalar helpers of FCollada/FMath/FMath.h on integer types. Signed overflow and division by zero are the outcome [None].
* `SceneModel.v` — The graph of scene nodes: FCDocument/FCDSceneNode.cpp, FCDocument/FCDSceneNode.h and the iterator of FCDocument/FCDSceneNodeIterator.hpp. Nodes are numbers; the transforms, names, flags and the kinds of instances that do not lead to scene nodes are not modelled. The lists of parents and children are tracked lists (FUtils/FUTracker.h), see TrackerModel.v.
* `ShadeModel.v` — Standard effects (the COMMON profile of materials): FCDEffectStandard with its constructor, GetOpacity, GetReflectivity and Clone (FCollada/FCDocument/FCDEffectStandard.cpp:66-147, 226-278), WriteEffectStandard (FColladaPlugins/FArchiveXML/FAXMaterialExport.cpp:898-987), WriteColorTextureParameter, WriteFloatTextureParameter and WriteTextureParameter (FAXMaterialExport.cpp:1085-1140), LoadEffectStandard (FAXMaterialImport.cpp:1216-1399), ParseColorTextureParameter, ParseFloatTextureParameter and ParseSimpleTextureParameter (FAXMaterialImport.cpp:1584-1728), on the XML tree of DaeModel.v and the texts of FloatModel.v. Numbers are finite rationals and the arithmetic on them is exact; the writer is a relation because the digits printf chooses are. Not modelled: what is in a texture (they are counted), the parameters, images and extra tree of the profile, the attributes kept in the extra tree of the effect (faceted, double_sided, wireframe, face_map), animated values, the annotations of a parameter, error messages. None is undefined behaviour.
* `SkinModel.v` — FCDSkinController::ReduceInfluences (FCDocument/FCDSkinController.cpp:142-188) and the target bookkeeping of FCDMorphController (FCDocument/FCDMorphController.cpp:47-202). Weights are rationals (exact arithmetic).
* `SolidModel.v` — The analytical shapes of physics: the constructors, Clone and CalculateVolume of FCDPASBox, FCDPASPlane, FCDPASSphere, FCDPASCylinder, FCDPASCapsule, FCDPASTaperedCapsule and FCDPASTaperedCylinder (FCollada/FCDocument/FCDPhysicsAnalyticalGeometry.cpp:40-275), FMVolume (FCollada/FMath/FMVolume.cpp:12-56), WritePASBox ... WritePASSphere (FColladaPlugins/FArchiveXML/FAXPhysicsExport.cpp:74-146) and LoadPASBox ... LoadPASSphere (FAXPhysicsImport.cpp:371-596), on the XML tree of DaeModel.v and the texts of FloatModel.v. Numbers in documents are finite rationals; volumes are in exact real arithmetic with the real number pi for FMath::Pi. Not modelled: the entity that a shape is (id, name, extra tree), error messages, Clone into an object of another type. None is undefined behaviour.
* `SortModel.v` — Model of [fm::comparator<T>::sort], FCollada/FMath/FMSort.h. An array is a list; every access is bounds checked ([None] = access outside the array or fuel exhausted). The comparison function is an arbitrary boolean function of two values (simplification: a comparator with internal mutable state is not modelled).
* `SphereModel.v` — FUBoundingSphere (FUtils/FUBoundingSphere.h, FUtils/FUBoundingSphere.cpp) in exact real arithmetic: rounding, overflow and NaN of the float computations are not modelled.
* `SplineModel.v` — Splines and their conversions, FCDocument/FCDGeometrySpline.cpp. A control vertex (FMVector3) is a value of any type [A]; weights and knots are rational numbers. Reading a control vertex that does not exist (fm::vector's operator[] does not check) is [None].
* `StringModel.v` — Model of fm::stringT<char> (FCollada/FUtils/FUString.h). A string object is its fm::vector of characters, here the list of the cells from begin() to end() (sizes and capacities of fm::vector are the subject of VectorModel.v; insertion of a string into itself, where buffers alias, is not modelled here). The class intends the last cell to be the terminator 0, but the constructors and clear() also produce an object with no cell at all. Characters are signed char values. [None] is an access outside the cells.
* `SubIdModel.v` — The sub ids of scene nodes: FCDSceneNode::SetSubId and FCDSceneNode::FindSubId (FCDocument/FCDSceneNode.cpp:177-233), on the scene graphs of SceneModel.v. [sub n] is the member daeSubId of the node n, a list of byte values.
* `TargetModel.v` — Model of targeted entities (cameras, lights) and the target count of scene nodes: FCDocument/FCDTargetedEntity.cpp and FCDocument/FCDSceneNode.h. Objects are numbers; the memory is a record of functions. Not modelled: what else a clone copies, and the dirty flags.
* `TextModel.v` — Model of the text/number conversions of FUtils/FUStringConversion.{h,hpp,cpp} and of the number writers of FUtils/FUStringBuilder.{h,hpp,cpp}. A NUL-terminated C string is the list of its characters before the terminator; a character is its byte value 0..255 ([schar] gives the value of the signed type [char] of the Linux targets). The pointer into the string is the remaining suffix. None of the modelled loops steps over the terminator, so the suffix representation loses nothing. NULL pointers are not modelled.
* `TrackerModel.v` — FUTrackable, FUTracker, FUTrackedPtr and FUTrackedList (FUtils/FUTracker.h, FUTracker.cpp). Objects, tracked pointers and tracked lists are named by numbers (their addresses). The owner of an object (FUObject) is left out (see OwnerModel.v), and lists hold no NULL entries. A failed FUAssert takes its fall-back (FUAssert.h:64). None: something is used after its destruction or behind the end of a list.
* `TransformModel.v` — The transformations of scene nodes: FCDTransform and its sub-classes (FCDocument/FCDTransform.cpp) and the functions of FCDSceneNode that use them (FCDocument/FCDSceneNode.cpp:151-162, 248-272, 307-311), in exact real arithmetic on the matrices of MatrixModel.v and RotModel.v and the scene graphs of SceneModel.v; tanf is the tangent and FMath::Pi is pi. Animation is not modelled.
* `TreeModel.v` — Model of [fm::tree] (the class behind [fm::map]), FCollada/FMath/FMTree.h. Representation. A C++ node carries [left], [right], [parent], [weight] and [data]. The model keeps everything except the [parent] pointer: a node reached by walking from the sentinel [root] is represented by a zipper (the subtree hanging at the node and the list of frames between the node and the sentinel), so "go to the parent" is "pop a frame". The sentinel node itself (FMTree.h:360, [root]) is not represented: the user's tree is [root->right]; the sentinel's own [weight] is written but never read by the code. Each node also carries an address [id], so that moving data between nodes is visible. A NULL dereference is the outcome [None]. Not modelled: allocation failure, key/data destructors, the 32-bit range of [weight] (proved to stay within -2..2) and of [sized].
* `TriModel.v` — FCDGeometryPolygonsTools::Triangulate (FCDocument/FCDGeometryPolygonsTools.cpp:36-122).
* `TypeModel.v` — Model of FCollada/FUtils/FUObjectType.cpp.
* `UniqueModel.v` — Model of FUtils/FUUniqueStringMap.h and .cpp (char instantiation).
* `UriModel.v` — Model of FUUri (FCollada/FUtils/FUUri.cpp), Linux branches. Strings are texts (lists of character values without 0): C60 shows that the string operations used here (find of a character, substr, append of a C string, erase) agree with texts. The exception is Escape, modelled on cells (StringModel.v) because it uses push_back. User name and password are left out: no constructor that parses sets them.
* `VectorModel.v` — Model of [fm::vector<T>] for trivially copyable [T], FCollada/FMath/FMArray.h. The heap buffer is a list of cells, [None] being an uninitialised cell; its length is the allocated capacity ([reserved]). Every access to the buffer is bounds checked and the outcome [None] of an operation means that memory outside the buffer (or a released buffer) is accessed. Indices stand for iterators ([begin() + index]). Not modelled: allocation failure, the INT_MAX sanity check of reserve (FMArray.h:311, no effect in release), 64-bit overflow of sizes, and element types with constructors/destructors (see [lifetime] below for the part concerning constructor/destructor balance).
* `WireModel.v` — Splines in COLLADA XML: FArchiveXML::WriteGeometrySpline, WriteNURBSSpline and WriteSpline (FColladaPlugins/FArchiveXML/FAXGeometryExport.cpp:312-380), the choice of the shape in LoadGeometry (FAXGeometryImport.cpp:209-235), LoadGeometrySpline, LoadSpline, LoadBezierSpline, LoadLinearSpline and LoadNURBSSpline (FAXGeometryImport.cpp:558-704), FCDGeometrySpline::SetType and AddSpline and the IsValid functions (FCDocument/FCDGeometrySpline.cpp:94-97, 173-181, 228-250, 286-315), ReadSource for points (FAXColladaParser.cpp:181-194) and ToVector3List (FUtils/FUStringConversion.hpp:525-538), on the XML tree of DaeModel.v and with the sources of RigModel.v. Numbers are finite rationals; the writers are relations because the digits printf chooses are. Not modelled: libxml2 itself, the entity around the shape, meshes, error messages (a warning is not fatal, as by default). None is undefined behaviour (a NULL pointer is used, or a text is left).
* `XmlModel.v` — Model of the text side of FUXmlWriter.cpp and FUXmlParser.cpp, and of AddChildSorted. A text is a list of byte values 1..255; storing a text in a libxml2 node or attribute and reading it back is taken to be the identity (libxml2 is not modelled).

### 3.2 Code not modelled

* The import/export layer (FArchiveXML) except polygon sets (C85, C86), controllers (C90-C93), animations (C94-C98), scene
  nodes (C99-C102), extra trees (C103-C105), lights and cameras (C106-C109), assets (C110-C112), splines (C113, C114), meshes (C115, C116), standard effects (C118, C119), analytical shapes of physics (C122), limits and springs of rigid constraints (C125), physics materials (C126), mass and density of physics shapes (C127); transient objects (LetWriteObject), CancelLoading, the clean-up of the sub ids of instances before writing
  (FCDSceneNode.cpp:274-289), the temporary instance that is never released (FAXSceneExport.cpp:135); libxml2, the plug-ins
  and the archive formats; the dirty flags and the events sent on changes.
* FCDEffect*, FCDMaterial*, FCDTexture, FCDImage, animated camera and light values, FCDPhysics*, FCDForceField*,
  FCDEmitter*, FCDLibrary and the document class itself, except where a section above names a function.
* FCDParameterAnimatable for single values, FCDAnimated except its value addresses; the decision to merge the curves of a channel (FAXAnimationExport.cpp:27-83), the links from channels to animated values (FAXAnimationImport.cpp:430-700), animation clips; the sampled-animation tools.
* Threads (FUThread, FUCriticalSection) except the lock in FUError; the date/time of the system; files and networks.
* Floating-point rounding, NaN and infinity, except in ColorModel and AngleModel (binary32 by `SpecFloat`); the
  conversions between text and floats are modelled with exact rationals (FloatModel).
* Integer overflow of counts and sizes, except where a theorem speaks of it (C08, C11, C14, C46, C50).
* Memory exhaustion, and the Unicode (wide character) and Windows builds.

## 4. Findings

Each item is proved by the theorem in brackets (a `_refuted` theorem, or a hypothesis of a `_partial`
theorem that its counterexample shows to be needed). File names are relative to `/repo/FCollada`.

**Containers (FMath)**
* Erasing a tree node with two children moves another element's data into it, so iterators to that other
  element dangle [C04].
* `vector::insert`/`push_back` of a reference into the vector itself reads freed memory when it must grow,
  and a shifted element when not [C06].
* Growing copies elements without destroying the old ones [C55], and appending n elements one by one moves a
  quadratic number of elements [C56].

**Strings, numbers and text (FUtils)**
* `ToInt32` has signed overflow for numbers from 2147483600 on and does not stop at `'\r'` [C11].
* `HexToUInt32` and `UInt32ToHex` disagree in byte order for several bytes [C12].
* `CountValues` counts differently from the list parsers for some separators [C13]; parsing a list into a
  non-empty container appends or leaves stale entries [C57, C58]; interleaved parsing writes past short lists [C58].
* `>` and `>=` of the version type are exchanged [C44].
* `ParseQualifier("()")` returns 0; a target of one character is not split [C53].
* Base64: sizes are limited by `int` [C08]; decoding over-reads on a trailing newline or an empty text,
  produces spurious zero bytes, and accepts `"=\n="` [C09].
* `Wrap` with equal bounds divides by zero [C46].
* File names: a name without separator is returned as its own folder, MAX_PATH truncation, a failing `getcwd`
  leaves an empty root stack [C50].
* Unique names: `"a"` and `"a4294967295"`, `"a01"` and `"a1"` are taken for the same name; a string that is
  contained can be handed out again; the first clash gives suffix 1 [C14].
* Cleaning an id leaves the empty string empty [C16].
* URIs: absolute targets keep dot segments, `"#id"` resolves to `"/"`, the root becomes `""`, `MakeRelative` is
  undefined for a document in the root folder, a final slash is lost [C17]; `Escape` always returns the empty
  string [C59]; folders gain a `/`, a query with a fragment gains a `#` [C61].
* String builder strings: `push_back` writes after the terminator, `append(char)` on an object without cells and
  `pop_back` of `""` write outside, `resize` leaves an old terminator, searching fails for negative characters,
  `find_first_of` gives up when the set is longer than the text, `find_last_of` is wrong for sets of two or more
  characters, the order is wrong for negative characters [C60].
* XML: `%` is not escaped in content but decoded on reading [C18]; attributes are not escaped but decoded [C62];
  a sorted insertion puts the smallest element at the end when the first child is text [C20].

**Geometry and numbers**
* Bounding box: the first point after `Reset` only sets the minimum [C25]; `Transform` is wrong when a row has the
  signs (-,+,-) [C64].
* Bounding sphere: `Include(sphere)` is right only for equal radii or nested spheres [C26]; `Transform` is wrong for
  shears [C65].
* `ApproachAngle`/`PatchEuler`: a turn is `2*Pif` (float) but the comparison uses the double pi: angles in a band move
  farther away; for large or infinite angles the loop does not end [C52].
* Matrices: `TransformCoordinate` of a product drops the fourth coordinate; the 3x3 inverse treats every determinant
  below 0.0001 as zero (a scale by 1/200 has no inverse); near-singular 4x4 matrices silently get a zero inverse [C42].
* Quaternions: the product is Hamilton's with exchanged factors; rotating a vector applies the inverse of
  `ToMatrix`; `SetToMatrix` compares pointers and overwrites the position only for the object `Identity` [C43].
  Every rotation matrix survives the conversion to a quaternion and back [C43_every_rotation].
* `AxisRotationMatrix` with a nearly unit axis is no rotation; `EulerRotationMatrix` drops angles below 0.0001;
  `FMMatrix33` turns the other way than `FMMatrix44` [C70].
* `Recompose` multiplies the rotations in the opposite order of `Decompose`; near the poles angles are rounded [C71].
* `LookAtMatrix` along the up direction is degenerate or singular [C72].
* `ToEuler` misses a factor 2 in the x angle and has a wrong sign at the south pole [C73].
* `slerp` never reaches a nearly equal quaternion; opposite ones divide by zero [C74].
* Splines: a closed Bezier spline with fewer than two control vertices reads outside the list, one with
  incomplete segments gets pieces that do not join, and an open line converted into a closed Bezier object stays
  closed; the documentation (h:155) says a closed spline begins with its first control vertex, the code begins with
  the second [C41].

**Animation**
* LINEAR pre-infinity is mirrored; a STEP key returns the previous output at its own time; a zero-length range
  with CYCLE/OSCILLATE reads behind the keys [C28].
* `AddClip` reads clip offsets out of bounds; a new offset for the selected clip is ignored; selecting an unknown
  clip does not restore the curve [C29].
* Merged key times come out of order when keys are closer than the tolerance [C30].
* Multi-curves evaluate BEZIER and TCB differently from single curves and ignore infinities [C67].

**Ownership**
* Assigning an object reference to another keeps the old owner (dangling, use after free); assigning the object
  already held is a use after free; a second owner keeps a dangling entry [C22].
* Copied tracked pointers and lists are not registered and dangle; list assignment stays registered with the old
  objects; an object twice in a list leaves a dangling entry [C23].
* `ReleaseHandler` without a match erases `end()`; with two matches entries stay; releasing others during a call
  reads behind the vector [C24].
* Using `FUError` from an error callback deadlocks; the documented return value differs (FUError.h:260) [C54].
* Cloning an object with an id duplicates ids and changes the source's id [C15].

**Scene and documents**
* Skin: if no influence reaches the minimum, or the maximum is 0, all weight is lost; kept weights of sum 0 give
  0/0 [C31].
* Morph targets: setting a target's own only-tracked geometry is a use after free, a rejected geometry still
  destroys the old one, `SetGeometry(NULL)` with a base keeps the old one [C51].
* Polygons: `RemoveFace(i>=1)` removes no face entry and does not update holes; a first face of degree 0 stops
  index allocation; `AddFace` leaves new indices uninitialised though documented zero [C32]; releasing the source
  of the first input at an offset clears the shared indices [C68]; over-reads for short lists [C33]; re-indexing
  gives a source used by two inputs only the first one's data, stops at POINTS sets and zeroes unreferenced
  sources [C34]; a reused packing map collides [C35]; fitting loops forever for an oversize face, loses the
  primitive type and holes, and gives wrong indices to per-vertex sources at a non-zero offset [C36].
* Scene nodes: pre-order iteration leaves out instanced nodes with children; pushing on a full stack writes through
  a dangling reference; the documentation of POSTORDER is wrong [C38]; destroying a node destroys all descendants
  including shared children [C39].
* Extra trees: cloning renames, merges and reorders parts, and drops animated values [C40]; attributes whose name
  the cleaner changes cannot be read back [C69].
* Targets: destroying a targeted entity never tells the target [C48]. Entity references keep the cached entity
  after `SetUri`, find the old entity again after `SetEntity(NULL)`, and lose the stored id when unloading the last
  reference [C49].
* Enumerations: `FUDaeTextureFilterFunction::ToString` has no case for LINEAR and writes it as `"UNKNOWN"`; the empty
  interpolation text is read as BEZIER; an unknown morph method, infinity or blend mode turns into a real one when
  written or read [C75].
* Sub ids: `FCDSceneNode::SetSubId` gives up after 513 numbered texts and then keeps one that a relative has; the
  numbered texts are built from the uncleaned text, so `"a b"` next to a used `"a_b"` becomes the illegal `"a b_0"` [C76].
* Transformations: `FCDTRotation::IsInverse` compares axes before they are normalised, so rotations about short X and Y
  axes count as opposite; opposite scales, matrices, skews and turns by 90/270 degrees are never recognised; a skew turns
  the axis documented as the one "around which to rotate" and leaves "the axis which is rotated" alone; cloning a node
  drops the sub ids of its transformations [C77].
* Float texts: `ToFloat` resets its infinity flag and never sets it again, so `INF` and `-INF` (which `append` writes)
  are read as 0; a text ending in `I` or `IN` is read beyond its terminator; `+1.5` is read as 0 and `1e+08` as 1; a
  number with an exponent followed by a lone carriage return swallows the next number; every value below 1.2e-7 is
  written as `0`; NaN is written as `nan` because no value equals a NaN [C78].
* String builders: `index` looks at one cell behind the text (reads outside the buffer of a full builder, or finds a
  removed character); `rindex` never looks at the first character; the implicit copy constructor shares the buffer,
  which is then deleted twice; the test for white space before appending a vector joins `!=` by `||` and is always
  true [C80].
* Animatable list parameters: `resize(count, value)` to a smaller count passes `count - size` as offset and `size` as
  count to `OnRemoval`, so helpers of kept values are released and helpers of removed ones get negative places [C81];
  `OnPotentialSizeChange` looks only at the first helper, so after an insertion or removal between two animated values
  the second keeps its old address and evaluation writes to another value or behind the last one [C82].  By reading:
  `erase(start, end)` with `end` behind the last value removes no value but releases the helpers; animated skew
  parameters get the qualifiers of a look-at; if the assertion in `OnRemoval` failed, its loop would never end.
- **Controllers** [C83, C84].  `FCDEntityReference::SetEntity(NULL)` keeps `entityId`, and `GetEntity` looks it up again.
  So `FCDSkinController::SetTarget(NULL)` does not take the target away, and `SetTarget` of a skin that has a target
  accepts the skin itself or a controller based on it: `GetBaseGeometry` then never returns.  `SetTargetUri` checks
  nothing.  Changing the base of a controller in the middle of a chain, or the mesh itself, leaves the targets and
  influences above as they were.  `FCDMorphTarget::SetGeometry` with the geometry the target already has releases it
  first if the target is its only tracker, then uses it.
- **Polygon sets in XML** [C85, C86].  Points are written with `<vcount>`, which the reader accepts only in `<polylist>`:
  they come back without faces.  A polylist face with more corners than the mesh has positions makes the reader fail.
  A `VERTEX` input at an offset other than 0 is read into the lists of offset 0, because `AddPolygons` has already added
  the per-vertex inputs there: with another input at offset 0 the two index lists are mixed.
- **Up-axis and unit** [C87, C88, C89].  `PrepareFunctor` takes "from X to Z" for a rotation that sends X to Y (and Z to Y
  the other way; FCDocumentTools.cpp:156, 159), so the document is labelled with an up-axis it does not have.  A wanted
  unit below 1e-4 m is ignored, and units whose quotient is within 1e-4 of 1 change the label but no length.  A look-at is
  multiplied on one side only (line 497).  The asset of a parent node is reset (line 549) before its children look it up;
  the document's asset is looked at before the library's (237-238); an entity's asset whose flags were reset still hides
  the document's asset (FCDEntity.cpp:104-108), so the next conversion skips the entity, or takes the library's unit and
  converts it twice.  Orthographic magnifications, NURBS, lights and physics are not converted.  A document that tells no
  up-axis is not turned but is labelled with the wanted one.
- **Skins and morphs in XML** [C90–C93].  Reading divides the weights of a vertex by their sum unless that is within 1e-4
  of 0 or 1, and writing replaces weights within 1e-4 of 1 by 1.  Joint ids are written separated by blanks: an id with a
  blank gives more names than poses and `invertedBindPoses[i]` is read behind the list; an empty id shifts the joints.
  `LoadSkinController` reports a missing `<v>`/`<vcount>` but goes on with the NULL pointer (FAXControllerImport.cpp:118-121,
  164-170); the count attribute is used without a look at the number of `<vcount>` entries; an empty `<v>` makes
  `combinerVertexIndexCount - 1` wrap; with no weights at all weight 0 is still used; an empty `<bind_shape_matrix>` gives a
  matrix that was not initialised.  The stride of `<v>` is fixed at 2, so a third input misreads everything.
  `LoadMorphController` goes on with a missing `<targets>` element and with fewer weights than targets.
- **Animations in XML** [C94–C98].  `fm::vector<Interpolation> interpolations_(interpolations.size())` followed by `push_back`
  (FAXAnimationExport.cpp:407-410 and 609-612) writes twice as many interpolations as keys, the first half from memory that was
  never initialised; the reader uses the first half.  So no animation keeps its interpolations reliably, and uninitialised memory
  goes to the file.  A curve without keys loses its infinities and its driver.  The index 0 of a driver is written twice.
  `LoadAnimation` keeps `status` false once a channel failed, so all later channels are released.  `FindChildById` compares
  CRC32s: "#buckeroo" finds "plumless".  Ids of curves are made with `CleanId` from the animation id and the pointer: "a/b" and
  "a_b" collide, and so do all curves of an animation with a 512-character id; the second curve is then read with the first's
  keys.  Tangents, TCB values, values and interpolations with a count that does not match the array use uninitialised values or
  run behind lists; the loop that appends TCB values goes to stride / 2 instead of stride / 3 lists.
- **Scene nodes in XML** [C99–C102].  WriteSceneNode writes a child whose *first* parent is another node as `<instance_node>`
  (FAXSceneExport.cpp:116-141); LoadSceneNode resolves the reference at once, so the child is lost if its first parent is written later.
  Instances are written before the other children, so the order of children changes.  A visual scene loses its sub id and joint
  flag.  A transformation whose sub id is taken in the hierarchy is renamed, and written without sub id if 99 numbers are taken
  (AddNodeSid, FAXColladaWriter.cpp:389-404).  A skew with an axis shorter than 1/10000 makes its own reader fail.  In LoadSceneNode
  `status = ...` for a later `<node>` overwrites the failure of an earlier transformation, and a failed child ends the loop with
  all later siblings dropped (FAXSceneImport.cpp:104-200).  A `<matrix>` with missing numbers is accepted and filled with zeros.  Ids "n1"
  and "n01" are the same for the map of unique names: the second is replaced, and references to it are lost.  A number text that
  ends in "I" is read behind its end; a port number in a url overflows.
- **Extra trees in XML** [C103–C105].  SetContent releases the children "as COLLADA doesn't allow for mixed content", but AddChildNode on a node
  with a content keeps the content, is written as mixed content, and the content is lost on loading (FAXEntityImport.cpp:56-60).  Attributes set on
  a technique are not written (FAXEntityExport.cpp:42-50).  If no technique has a child nothing at all is written, otherwise empty types and
  techniques are.  Attribute names "a-b" and "a.b" of a document become one attribute.  LoadEntity takes any childless `note` or `user_properties`
  of the MAYA, MAX3D and FCOLLADA techniques for the note and removes it (FAXSceneImport.cpp:49-73); LoadTargetedEntity takes the first node named
  `target` of *any* technique of the default type for the target, so a user's parameter of that name replaces the real target.  Exporting an entity
  with a note releases a childless FCOLLADA technique of the user with its attributes (FAXSceneExport.cpp:283-287).  If the default type was
  renamed, exporting a note uses a NULL pointer.
- **Lights and cameras in XML** [C106–C109].  A `<light>` without `<technique_common>` makes LoadLight use a NULL pointer (FAXLightImport.cpp:28-31).
  An empty `<color>` leaves the colour uninitialised.  LoadLight takes parameters named `intensity`, `dropoff`, `falloff_angle` … from the
  techniques of *all* profiles and releases them, so a user's own `intensity` replaces the light's and is gone (FAXLightImport.cpp:101-173).
  Values a kind of light has no use for are not saved; an `outer_cone` next to a `penumbra_angle` is ignored, and of two penumbras the
  first stays in the tree.  Loading a light leaves an empty FCOLLADA technique behind, which the next export releases.  A camera without view flags
  is saved with its vertical view and comes back with the flag set and without its horizontal view; an aspect ratio set next to both views is
  not saved.  SetFovX/SetFovY test the horizontal view against 0 but divide by the vertical one (FCDCamera.cpp:44, 52), and the quotient is
  horizontal over vertical although FCDCamera.h:40-48 documents vertical over horizontal.  A camera with both `<perspective>` and `<orthographic>` is
  loaded with no parameters.
- **Assets in XML** [C110–C112].  A unit below 0.1 mm (micrometres) is written correctly but read as one metre (FAXEntityImport.cpp:145 compares with the
  general tolerance of 1e-4).  Up-axes other than X, Y, Z are written as Y_UP.  SetUnitName alone does not mark the unit as set.  The source data of
  contributors go through FUUri: "file:///scenes/" gains a slash, `\\server\a.ma` becomes `file:////server/a.ma`, and an address with a query and a
  fragment gets a second '#' because the query is cut one character too late (FUUri.cpp:191).  A '%' in a text is decoded though it was not encoded.  Dates
  in other legal forms are ignored and any text of twenty characters is taken for a date.  FCDAsset::Clone into an existing asset keeps its contributors and
  flags.
- **Splines in XML** [C113, C114].  LoadGeometrySpline calls SetType for every `<spline>`, which releases the splines read before, so a geometry with several
  splines comes back with the last one only (FAXGeometryImport.cpp:582-591, FCDGeometrySpline.cpp:294-315).  The name of a spline is not written, and every form
  but closed is read as open.  An unknown `<type>` makes AddSpline return NULL, which is used.  The check of a NURBS searches its sources by the address
  without the first character, so for sources named without '#' the weights and knots are neither read nor checked (FAXGeometryImport.cpp:681-700).
  A geometry without splines is read back without shape.
- **Meshes in XML** [C115, C116].  A convex mesh that has its own shape is written as `<mesh>`, so it is read as not convex
  (FAXGeometryExport.cpp:70-82); one with a hull is written without sources and polygon sets.  Sources of the types POINT_SIZE and
  POINT_ROTATION are not exported (FAXGeometryExport.cpp:45-49), but their `<input>` is; the importer stops there, and because
  FUError::Error returns true for an error (FAXGeometryImport.cpp:105) it reports success although no polygon set was read.
  The same happens for any `<vertices>` input that names no source.  The sets of per-vertex inputs are taken from the first polygon
  set only (FAXGeometryExport.cpp:95-96) and given to all (FAXGeometryImport.cpp:174-180).  The type of a source no input names is
  lost.  A `<mesh>` without `<vertices>` makes the importer read the line of a NULL node (FAXGeometryImport.cpp:110-118).
- **Copies of meshes** [C117].  `FCDGeometryPolygons::Clone` does not copy the primitive type: lines, strips, fans and points become
  POLYGONS (FCDGeometryPolygons.cpp:292-299).  Per-vertex sources come back in the order of the sources.  A source that two inputs
  use gets one input, with the set and indices of the last.  An input whose source was released makes Clone use a NULL pointer (313).
  A per-vertex input moved to another offset by SetOffset is at offset 0 in the copy and shares another input's indices.
- **Standard effects written and read again** [C118].  A colour with a texture comes back white.  `WriteEffectStandard` writes the emission
  element only without an emission factor, and the emission level without its textures, so the emission textures of an effect with a factor
  are lost.  The specular level is written only when its value is not 1 (FAXMaterialExport.cpp:937), also when it is a reference.  A
  refraction texture is written as `<index_of_refraction>`, which makes the effect refractive with the index 1.  An effect of type UNKNOWN is
  written as `<unknown>`, which the reader does not look for: it becomes a constant black one.
- **Loading the COMMON profile** [C119].  In documents before COLLADA 1.4.1 the mode is RGB_ZERO and the transparent colour of a new effect is
  black, so a lone `<transparency>` leaves the effect opaque.  A `<color>` without text gives an uninitialised colour.
- **Opacity and reflectivity** [C120].  FCDEffectStandard.cpp:230 and 238 add the x component three times instead of x, y and z.
- **Copies of standard effects** [C121].  `FCDEffectStandard::Clone` leaves out isReflective, isRefractive and the references, so a copy of a
  reflective effect is written without its reflectivity.
- **Planes in documents** [C122].  `WritePASPlane` (FAXPhysicsExport.cpp:132-134) puts normal.x into w, normal.y into x and so on, so the
  equation a b c d is written as b c d a; every save and load turns it by one more place.
- **Volumes of slightly tapered shapes** [C123].  Radii that differ by less than the tolerance 1e-4 are taken as equal, so a small tapered
  shape gets a volume that is less than a tenth of what it is.  The volume of a plane is 1.
- **Copies of planes** [C124].  `FCDPASPlane::Clone` (FCDPhysicsAnalyticalGeometry.cpp:79-92) does not copy d.
- **Springs of rigid constraints** [C125].  `WritePhysicsRigidConstraint` puts <spring> into <technique_common> (FAXPhysicsExport.cpp:246), as
  COLLADA 1.4.1 does; `LoadPhysicsRigidConstraint` looks for it in <rigid_constraint> (FAXPhysicsImport.cpp:841).  Springs are never loaded.
- **Materials of shapes** [C126].  `WritePhysicsShape` adds <physics_material> and lets `WritePhysicsMaterial` add another one inside it
  (FAXPhysicsExport.cpp:41-42); on loading the outer one has no <technique_common>, so friction and restitution are 0.
- **Shapes without mass** [C127].  `WritePhysicsShape` leaves out a mass or density of 0; `LoadPhysicsShape` then sets the density 1 and the mass
  to the volume.
- **Copies of shapes** [C128].  `FCDPhysicsShape::Clone` does not copy `isDensityMoreAccurate`: the clone of a shape with an accurate density is
  written with its mass.  (Read, not modelled: line 131 clones `instanceMaterialRef` into itself instead of into the new instance.)

## 5. Print Assumptions

**Closed under the global context** (433 theorems): every theorem of MANIFEST.json that is not listed below:

`C01_tree_is_finite_map`, `C02_tree_iteration_sorted_complete`, `C03_tree_balanced`, `C04_erase_keeps_other_iterators_refuted`, `C04_erase_keeps_other_iterators_partial`, `C05_vector_is_list`, `C06_self_insert_refuted`, `C06_self_insert_partial`, `C07_sort_safe_and_correct`, `C08_encode_is_base64`, `C08_base64_round_trip`, `C08_encode_limit`, `C09_decode_ignores_foreign_refuted`, `C09_decode_ignores_foreign_partial`, `C09_decode_safe_iff`, `C10_crc_is_standard`, `C10_single_byte_change`, `C10_burst_change`, `C100_scene_partial`, `C100_writable`, `C100_forest`, `C100_children_refuted`, `C100_order_refuted`, `C101_meaning_partial`, `C101_wrong_count`, `C101_siblings_refuted`, `C101_status_refuted`, `C101_matrix_refuted`, `C101_ids_refuted`, `C102_ends`, `C102_safe_partial`, `C102_infinity_refuted`, `C102_port_refuted`, `C103_round_trip_partial`, `C103_built_partial`, `C103_mixed_refuted`, `C103_percent_refuted`, `C103_technique_refuted`, `C103_empty_refuted`, `C103_profiles_refuted`, `C104_import`, `C104_order`, `C104_names_refuted`, `C105_entity_partial`, `C105_note_refuted`, `C105_target_refuted`, `C105_export_refuted`, `C105_default_type_refuted`, `C106_round_trip_partial`, `C106_writable`, `C106_fields_refuted`, `C106_words_refuted`, `C106_release_refuted`, `C107_import`, `C107_penumbra`, `C107_safe`, `C107_common_refuted`, `C107_color_refuted`, `C107_penumbra_refuted`, `C108_round_trip_partial`, `C108_writable`, `C108_flags_refuted`, `C108_aspect_refuted`, `C109_import`, `C109_safe`, `C109_both_refuted`, `C109_zero_refuted`, `C109_ratio_refuted`, `C11_unsigned_round_trip`, `C11_signed_round_trip_refuted`, `C11_signed_round_trip_partial`, `C110_round_trip_partial`, `C110_writable`, `C110_small_unit_refuted`, `C110_axis_refuted`, `C110_name_refuted`, `C110_source_refuted`, `C110_percent_refuted`, `C111_import`, `C111_safe`, `C111_date_refuted`, `C111_padded_refuted`, `C112_clone`, `C112_texts`, `C112_existing_refuted`, `C113_last_partial`, `C113_many_refuted`, `C113_round_trip_partial`, `C113_name_refuted`, `C113_writable`, `C113_counts`, `C113_empty_refuted`, `C114_import`, `C114_last`, `C114_broken`, `C114_unknown_refuted`, `C114_unchecked_refuted`, `C114_safe`, `C115_round_trip_partial`, `C115_writable`, `C115_layout`, `C115_convex_refuted`, `C115_hull_refuted`, `C115_point_size_refuted`, `C115_input_set_refuted`, `C115_unused_type_refuted`, `C116_import`, `C116_defined`, `C116_status`, `C116_no_vertices_refuted`, `C116_unknown_source_refuted`, `C117_clone_partial`, `C117_vertex_order`, `C117_primitive_type_refuted`, `C117_shared_source_refuted`, `C117_released_refuted`, `C117_vertex_offset_refuted`, `C118_saved_partial`, `C118_writable`, `C118_saved_refuted`, `C119_import`, `C119_safe`, `C119_opaque`, `C119_defaults_refuted`, `C12_hex_round_trip_refuted`, `C12_hex_round_trip_partial`, `C120_means_partial`, `C120_means_refuted`, `C121_copy_partial`, `C121_copy_refuted`, `C122_written`, `C122_saved_partial`, `C122_plane`, `C122_plane_refuted`, `C122_writable`, `C122_names`, `C122_import`, `C122_safe`, `C125_import`, `C125_nothing`, `C125_safe`, `C125_saved_partial`, `C125_writable`, `C125_springs_refuted`, `C126_import`, `C126_safe`, `C126_saved`, `C126_shape_refuted`, `C126_writable`, `C127_import`, `C127_safe`, `C127_saved_partial`, `C127_loads`, `C127_writable`, `C127_saved_refuted`, `C128_copy_partial`, `C128_copy_refuted`, `C13_unsigned_list_round_trip`, `C13_signed_list_round_trip_partial`, `C13_count_agrees_refuted`, `C13_count_agrees_partial`, `C14_unique_map_refuted`, `C14_unique_map_partial`, `C14_handed_out_distinct_partial`, `C15_ids_refuted`, `C15_ids_distinct_partial`, `C15_id_stable_partial`, `C15_id_reusable_partial`, `C16_clean_empty_refuted`, `C16_clean_partial`, `C17_resolve_refuted`, `C17_resolve_partial`, `C17_walk_deterministic_partial`, `C17_round_trip_partial`, `C18_content_refuted`, `C18_content_round_trip_partial`, `C19_filename_round_trip`, `C20_sorted_refuted`, `C20_sorted_partial`, `C21_date_round_trip`, `C22_ownership_partial`, `C22_release_removes`, `C22_move_refuted`, `C22_same_object_refuted`, `C22_two_owners_refuted`, `C23_tracking_partial`, `C23_trackers_exact`, `C23_copied_pointer_refuted`, `C23_copied_list_refuted`, `C23_duplicate_refuted`, `C24_handlers_partial`, `C24_self_release`, `C24_release_none_refuted`, `C24_release_many_refuted`, `C24_release_many_effect`, `C24_release_others_refuted`, `C25_include_refuted`, `C25_include_valid_partial`, `C25_include_after_reset_partial`, `C25_contains_overlaps`, `C27_add_key`, `C27_delete_key`, `C27_always_sorted`, `C28_evaluate_partial`, `C28_safe_partial`, `C28_safe_refuted`, `C28_hits_keys_partial`, `C28_hits_keys_refuted`, `C28_linear_between`, `C28_linear_before_refuted`, `C29_clips_partial`, `C29_clips_refuted`, `C30_merge_complete`, `C30_merge_interpolation`, `C30_merge_sorted_partial`, `C30_merge_sorted_refuted`, `C31_reduce_vertex`, `C31_reduce_partial`, `C31_all_vertices`, `C31_nothing_kept_refuted`, `C31_zero_total_refuted`, `C32_queries`, `C32_representable`, `C32_add_face_partial`, `C32_add_hole`, `C32_remove_face`, `C32_remove_first_partial`, `C32_remove_other_refuted`, `C32_stale_holes_refuted`, `C32_empty_face_refuted`, `C32_histories_partial`, `C33_triangulate`, `C33_in_step`, `C34_unique_indices_partial`, `C34_points_unchanged`, `C34_source_used_twice_refuted`, `C35_packing_map_partial`, `C35_reused_map_refuted`, `C35_no_vertices_refuted`, `C36_fit_partial`, `C36_oversized_face_refuted`, `C36_primitive_type_refuted`, `C36_holes_refuted`, `C36_vertex_offset_refuted`, `C37_acyclic`, `C37_remove`, `C38_iteration_partial`, `C38_all_reached`, `C38_scene_graph`, `C38_instanced_parent_refuted`, `C38_deep_instance_refuted`, `C39_release_partial`, `C39_shared_child_refuted`, `C40_clone_partial`, `C40_clone_of_clone_partial`, `C40_clone_built_partial`, `C40_clone_refuted`, `C41_pieces_partial`, `C41_joined_partial`, `C41_reads_refuted`, `C41_joined_refuted`, `C41_gap_refuted`, `C41_linear_partial`, `C41_straight`, `C41_linear_refuted`, `C41_convert_all`, `C44_version_order_refuted`, `C44_version_order_partial`, `C45_color_round_trip`, `C46_clamp`, `C46_wrap_int`, `C46_wrap_uint32`, `C46_wrap_generic`, `C47_includes_is_descent`, `C48_count_partial`, `C48_no_dangling_target`, `C48_destroyed_entity_refuted`, `C49_set_entity`, `C49_set_uri_partial`, `C49_clear_then_uri_partial`, `C49_released`, `C49_stale_entity_refuted`, `C49_set_null_refuted`, `C49_unload_overwrites_id_refuted`, `C50_strip_refuted`, `C50_names_partial`, `C50_root_stack`, `C51_targets_fit_partial`, `C51_calls_succeed_partial`, `C51_same_geometry_refuted`, `C51_rejected_geometry_loses_old`, `C52_approach_partial`, `C52_patch_partial`, `C52_half_turn_refuted`, `C52_farther_refuted`, `C52_patch_refuted`, `C52_float_hang_refuted`, `C53_split_refuted`, `C53_target_split_and_qualifier_partial`, `C54_report_partial`, `C54_report_refuted`, `C54_callbacks`, `C55_element_lifetimes_balanced_refuted`, `C55_element_lifetimes_balanced_partial`, `C56_append_linear_refuted`, `C57_word_list_refuted`, `C57_word_list_partial`, `C58_interleaved_refuted`, `C58_interleaved_partial`, `C59_escape_refuted`, `C60_string_refuted`, `C60_string_partial`, `C61_uri_print_parse_refuted`, `C61_uri_print_parse_partial`, `C62_attribute_refuted`, `C62_attribute_round_trip_partial`, `C63_children_by_name`, `C64_transform_refuted`, `C64_transform_partial`, `C67_multi_safe`, `C67_multi_agrees_partial`, `C67_multi_agrees_refuted`, `C68_indices_lost_refuted`, `C68_indices_kept_partial`, `C69_read_back_partial`, `C69_set_content_partial`, `C69_read_back_refuted`, `C75_round_trip_refuted`, `C75_round_trip_partial`, `C75_from_string_named`, `C75_no_alias_refuted`, `C75_no_alias_partial`, `C75_from_string_injective_partial`, `C75_to_string_injective`, `C75_outside_is_fallback`, `C75_keeps_unknown_refuted`, `C76_find`, `C76_choice`, `C76_unique_partial`, `C76_unique_refuted`, `C76_legal_partial`, `C76_legal_refuted`, `C78_read`, `C78_writable`, `C78_round_trip_partial`, `C78_list_partial`, `C78_matrix_partial`, `C78_vectors_partial`, `C78_safe`, `C78_list_safe`, `C78_small_refuted`, `C78_infinity_refuted`, `C78_overread_refuted`, `C78_plus_refuted`, `C78_cr_refuted`, `C79_content`, `C79_no_leak`, `C79_chars`, `C80_index_partial`, `C80_rindex_partial`, `C80_index_refuted`, `C80_rindex_refuted`, `C80_copy_refuted`, `C80_blank_refuted`, `C81_follow_partial`, `C81_resize_refuted`, `C81_resize_stale_refuted`, `C82_evaluate_partial`, `C82_evaluate_refuted`, `C82_erase_refuted`, `C83_chains_partial`, `C83_base`, `C83_target`, `C83_self_refuted`, `C83_uri_refuted`, `C83_clear_refuted`, `C84_fit_partial`, `C84_targets`, `C84_middle_refuted`, `C84_mesh_refuted`, `C84_geometry_refuted`, `C85_round_trip_partial`, `C85_points_round_trip_refuted`, `C85_large_face_round_trip_refuted`, `C86_polygons_import_partial`, `C86_triangles_import_partial`, `C86_vertex_offset_refuted`, `C90_round_trip_partial`, `C90_writable`, `C90_exact_partial`, `C90_normalized_refuted`, `C90_near_one_refuted`, `C90_more_words_refuted`, `C90_fewer_words_refuted`, `C91_import_partial`, `C91_accessor_refuted`, `C91_third_input_refuted`, `C92_refused_partial`, `C92_no_numbers_refuted`, `C92_count_refuted`, `C92_poses_refuted`, `C92_bind_shape_refuted`, `C92_empty_v_refuted`, `C92_weights_refuted`, `C93_round_trip_partial`, `C93_writable`, `C93_unknown_method_refuted`, `C93_more_words_refuted`, `C93_no_targets_refuted`, `C94_import`, `C95_round_trip_partial`, `C95_writable`, `C95_lucky_memory_partial`, `C95_interpolation_refuted`, `C95_keyless_refuted`, `C96_all_channels_partial`, `C96_later_channels_refuted`, `C97_found_partial`, `C97_collision_refuted`, `C97_shared_ids_refuted`, `C97_long_id`, `C97_slash`, `C98_described_partial`, `C98_tangents_refuted`, `C98_words_refuted`, `C98_values_refuted`, `C98_tcb_refuted`, `C99_transforms_partial`, `C99_writable`, `C99_sids_distinct`, `C99_equal_sids_refuted`, `C99_lost_sid_refuted`, `C99_skew_refuted`

**Axioms `ClassicalDedekindReals.sig_forall_dec`** (2 theorems), all declared by the standard library (real numbers, classical logic, functional extensionality):

`C124_copy_refuted`, `C42_set`

**Axioms `ClassicalDedekindReals.sig_forall_dec`, `FunctionalExtensionality.functional_extensionality_dep`** (42 theorems), all declared by the standard library (real numbers, classical logic, functional extensionality):

`C42_product`, `C42_associative`, `C42_identity`, `C42_transpose`, `C42_points4`, `C42_points_partial`, `C42_points_refuted`, `C42_determinant`, `C42_determinant_product`, `C42_determinant_others`, `C42_inverse`, `C42_inverse_unique`, `C42_inverse_undoes`, `C42_inverse_product`, `C42_inverse_singular`, `C42_product3`, `C42_laws3`, `C42_inverse3_partial`, `C42_inverse3_refuted`, `C43_algebra`, `C43_matrix_product_partial`, `C43_matrix_product_refuted`, `C43_matrix_rotation`, `C43_matrix_multiples`, `C43_rotate_partial`, `C43_rotate_refuted`, `C43_set_partial`, `C43_set_refuted`, `C70_move_scale`, `C77_inverse_symmetric`, `C87_x_z_refuted`, `C87_small_unit_refuted`, `C87_close_units_refuted`, `C88_entities_partial`, `C88_inherited_refuted`, `C88_library_refuted`, `C88_own_asset_refuted`, `C89_there_and_back_partial`, `C89_again_partial`, `C89_own_asset_refuted`, `C89_library_refuted`, `C89_detour_refuted`

**Axioms `ClassicalDedekindReals.sig_forall_dec`, `ClassicalDedekindReals.sig_not_dec`, `FunctionalExtensionality.functional_extensionality_dep`** (33 theorems), all declared by the standard library (real numbers, classical logic, functional extensionality):

`C123_volume_partial`, `C123_cone`, `C123_volume_refuted`, `C124_copy_partial`, `C26_include_sphere_refuted`, `C26_include_sphere_partial`, `C26_include_points_and_boxes`, `C43_euler`, `C43_from_matrix`, `C65_transform_refuted`, `C65_transform_partial`, `C66_sphere_tests`, `C70_axis_partial`, `C70_axis_refuted`, `C70_angles_add`, `C70_same_rotations`, `C70_euler_partial`, `C70_clockwise`, `C72_look_at_partial`, `C72_parallel_refuted`, `C72_singular_refuted`, `C77_stack`, `C77_add`, `C77_world`, `C77_skew`, `C77_skew_axes`, `C77_inverse_partial`, `C77_inverse_refuted`, `C77_inverse_missed_refuted`, `C77_clone_partial`, `C77_clone_refuted`, `C87_placement_partial`, `C87_look_at_refuted`

**Axioms `ClassicalDedekindReals.sig_forall_dec`, `ClassicalDedekindReals.sig_not_dec`, `Classical_Prop.classic`, `FunctionalExtensionality.functional_extensionality_dep`** (14 theorems), all declared by the standard library (real numbers, classical logic, functional extensionality):

`C123_unique`, `C43_every_rotation`, `C70_euler_refuted`, `C71_decompose_partial`, `C71_recompose_partial`, `C71_recompose_refuted`, `C71_pole_refuted`, `C73_axis_partial`, `C73_euler_partial`, `C73_north`, `C73_south_refuted`, `C73_euler_refuted`, `C74_slerp_partial`, `C74_slerp_refuted`

## 6. Mutation testing

`seeded/LOG.jsonl` lists 1091 edits of the model that make a claim false.  They are not equally conclusive, and the field
`evidence` of each line says which of these was seen:

* 619: counterexample computed
* 7: equivalent edit: the behaviour is unchanged, only the proof script fails
* 208: the proof of a lemma fails; no counterexample computed
* 257: the proof of a theorem of the claim fails

A counterexample is an input that meets the theorem's hypotheses and on which the edited model does not do what the
theorem says, or a concrete example beside the theorem that no longer computes.  If a theorem's own proof fails, the
theorem no longer goes through as written.  If only a lemma's proof fails, that may also be because the proof script
is sensitive to the edit: such a line shows that the build notices the edit, not that the theorem is false of it.
A proof stopped by a time limit counts as nothing.  Three early lines that rested on a time limit were withdrawn; two
were entered again with a counterexample, one after its theorem's own proof was seen to fail.
