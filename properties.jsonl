{"id": "C01", "title": "fm::tree / fm::map behaves as a finite map over every history", "statement": "After any sequence of insert(k,v), operator[](k)=v, erase(k) and clear() on an fm::tree, find(k) yields the value given by the most recent write of k not followed by an erase of k or a clear, and yields end() if there is none; size() is the number of distinct such keys.", "quantifier": "every finite sequence of operations, every key and value, any tree size", "why_tests_cant": "rotations and the predecessor/successor replacement in erase make the pointer shape depend on the whole history; unit tests exercise a handful of insertion orders", "anchors": ["FCollada/FMath/FMTree.h: tree::insert, tree::find, tree::operator[], tree::erase, tree::clear, tree::size, node::rotateLeft, node::rotateRight"]}
{"id": "C02", "title": "fm::tree iteration visits every key once, in increasing order", "statement": "In every reachable tree, walking begin(), ++, ... reaches end() after exactly size() steps and visits the stored pairs in strictly increasing key order; walking back with -- from last() visits them in the reverse order.", "quantifier": "every reachable tree (any operation history), any size", "why_tests_cant": "successor/predecessor search climbs parent links, so correctness is a property of all shapes; tests only see a few", "anchors": ["FCollada/FMath/FMTree.h: iterator::operator++, iterator::operator--, begin, end, last"]}
{"id": "C03", "title": "fm::tree stays height-balanced", "statement": "In every reachable tree each node's stored weight equals (height of right subtree - height of left subtree) and lies in {-1,0,1}, so a look-up visits at most about 1.44*log2(n+2) nodes (stated as: 2^(height/2) <= n+1).", "quantifier": "every operation history, any size", "why_tests_cant": "a wrong weight update after a rotation shows up only for particular shapes reached by particular insertion/erasure orders", "anchors": ["FCollada/FMath/FMTree.h: tree::insert, tree::erase, node::rotateLeft, node::rotateRight"]}
{"id": "C04", "title": "Erasing one key of an fm::tree leaves iterators at other keys usable", "statement": "After erase(it), every iterator positioned on a different key still designates that key and its value.", "quantifier": "every reachable tree, every erased key, every other key", "why_tests_cant": "whether a neighbour's data is moved depends on the shape at the moment of the erase", "anchors": ["FCollada/FMath/FMTree.h: tree::erase(const iterator&)"]}
{"id": "C05", "title": "fm::vector is a sequence over every history", "statement": "Any sequence of push_back, pop_back, insert(index,value), insert(range), erase(index), erase(first,last), resize(n,v), reserve(n), clear and assignment whose indices are in range has exactly the effect of the same list operations on the visible elements; no cell outside the allocated capacity is touched; size() never exceeds the capacity.", "quantifier": "every finite history with in-range arguments, every element value, every size", "why_tests_cant": "reallocation happens at sizes that depend on the history (growth by at most 32, exact reserve, truncating reserve), so which path runs is history dependent", "anchors": ["FCollada/FMath/FMArray.h: vector::reserve, resize, insert, push_back, pop_back, erase, clear, operator="]}
{"id": "C06", "title": "Inserting one of a vector's own elements stores that element's value", "statement": "v.push_back(v[i]) and v.insert(p, v[i]) leave the vector with a copy of the value v[i] had before the call at the insertion point, for every i < size().", "quantifier": "every vector content and capacity, every i and p", "why_tests_cant": "the failure depends on whether the buffer is full and on the relative position of source and destination", "anchors": ["FCollada/FMath/FMArray.h: vector::insert(iterator,const T&), push_back, reserve"]}
{"id": "C07", "title": "fm::comparator sorting is safe and correct", "statement": "Sorting a range permutes it, never accesses outside the range and terminates for every comparison function whatsoever; if the comparison is a strict weak order the result is ordered.", "quantifier": "every array and every (even inconsistent) comparator", "why_tests_cant": "quicksort partition errors appear for rare pivot/duplicate patterns and adversarial comparators", "anchors": ["FCollada/FMath/FMSort.h: fm::comparator, quicksort"]}
{"id": "C08", "title": "Base64 encode then decode is the identity", "statement": "For every non-empty byte sequence, encode produces 4*ceil(n/3) characters of the base64 alphabet with at most two trailing '=', and decode of that text returns the original bytes exactly.", "quantifier": "every byte sequence of every length up to the int overflow limit (1610612733 bytes)", "why_tests_cant": "the padding cases and the bit packing interact for every length mod 3 and every byte value", "anchors": ["FCollada/FUtils/FUBase64.cpp: FUBase64::encode, FUBase64::decode"]}
{"id": "C09", "title": "Base64 decode only reads its input and ignores foreign characters", "statement": "decode never reads past the end of its input and, for any text obtained from an encoding by inserting line breaks anywhere, returns the encoded bytes exactly.", "quantifier": "every input byte sequence; every placement of ignored characters", "why_tests_cant": "over-reads do not crash on most allocators and only occur for particular placements", "anchors": ["FCollada/FUtils/FUBase64.cpp: FUBase64::decode"]}
{"id": "C10", "title": "CRC32 of a string is the standard reflected CRC-32 and detects every single-byte change", "statement": "CRC32(text) equals the bit-serial reflected CRC-32 (polynomial 0xEDB88320, initial and final complement) of the bytes before the first NUL; two strings of the same length that differ in exactly one byte have different CRCs.", "quantifier": "every NUL-terminated string of every length, every position and byte change", "why_tests_cant": "a single wrong table entry only affects 1/256 of the inputs", "anchors": ["FCollada/FUtils/FUCrc32.cpp: FUCrc32::CRC32, crc table"]}
{"id": "C11", "title": "Decimal integers survive the text round trip", "statement": "ToInt32(ToString(n)) = n for every int32 and ToUInt32(ToString(n)) = n for every uint32, and the read position stops right after the number and its trailing blanks.", "quantifier": "every 32-bit value (signed and unsigned), any following text that starts with a blank or the terminator", "why_tests_cant": "2^32 values and the overflow corner at INT_MIN", "anchors": ["FCollada/FUtils/FUStringConversion.hpp: ToInt32, ToUInt32", "FCollada/FUtils/FUStringBuilder.hpp: append(int32), append(uint32)"]}
{"id": "C12", "title": "Hexadecimal integers survive the text round trip", "statement": "HexToUInt32 of the text written by appendHex(n) returns n for every uint8/uint16/uint32, with or without a leading 0x, and the count argument limits how many characters are consumed.", "quantifier": "every value of each width", "why_tests_cant": "2^32 values", "anchors": ["FCollada/FUtils/FUStringConversion.hpp: HexToUInt32", "FCollada/FUtils/FUStringBuilder.hpp: appendHex"]}
{"id": "C13", "title": "Number lists survive the text round trip and agree with CountValues", "statement": "Writing a list of integers with ToString and reading it back with ToInt32List/ToUInt32List returns the same list, whatever the previous content of the output list; CountValues of a text equals the number of values the list readers produce from it.", "quantifier": "every list of integers of every length, every previous output content; every text for the count agreement", "why_tests_cant": "separator/terminator handling differs between functions (e.g. carriage return, leading/trailing blanks) and only specific texts expose it", "anchors": ["FCollada/FUtils/FUStringConversion.hpp: ToInt32List, ToUInt32List, CountValues, ToString(list)"]}
{"id": "C14", "title": "A unique-string map always hands out a string it does not already contain", "statement": "insert(s) changes s into a string that was not contained before, after which it is contained and every other string's membership is unchanged; erase(s) removes exactly s.", "quantifier": "every history of insert/erase, every string", "why_tests_cant": "clashes come from numeric suffix parsing, leading zeros and 32-bit wrap-around of suffixes accumulated over long histories", "anchors": ["FCollada/FUtils/FUUniqueStringMap.cpp: FUUniqueStringMapT::insert, contains, erase", "FCollada/FUtils/FUStringConversion.cpp: SplitString"]}
{"id": "C15", "title": "Two live objects of a document never report the same COLLADA id", "statement": "After any history of object creation, SetDaeId, GetDaeId, RemoveDaeId, Clone and release, the ids reported by GetDaeId for distinct live objects are distinct, and the id an object reported once stays the same until SetDaeId/RemoveDaeId is called on it.", "quantifier": "every history over any number of objects and any requested ids", "why_tests_cant": "the lazily registered ids and the id hand-over in Clone make the outcome depend on the order of calls", "anchors": ["FCollada/FCDocument/FCDObjectWithId.cpp: GetDaeId, SetDaeId, RemoveDaeId, Clone", "FCollada/FUtils/FUUniqueStringMap.cpp"]}
{"id": "C16", "title": "Cleaned ids and names are always legal and cleaning is idempotent", "statement": "CleanId / CleanSubId / CleanName of any string is at most 512 characters (extra-tree names: unbounded), starts with a letter or '_', contains only the permitted characters, leaves an already legal short string unchanged, and applying it twice equals applying it once.", "quantifier": "every string", "why_tests_cant": "character-class boundaries: 256 byte values at every position, signed char included", "anchors": ["FCollada/FCDocument/FCDObjectWithId.cpp: CleanId, CleanSubId", "FCollada/FCDocument/FCDEntity.cpp: CleanName", "FCollada/FCDocument/FCDExtra.cpp: FCDENode::CleanName"]}
{"id": "C17", "title": "Relative paths resolve without escaping the root and re-relativise consistently", "statement": "Resolving a path against a base removes every '.' and '..' segment, never climbs above the root, and resolving the relative form of an absolute path against the same base gives the path back.", "quantifier": "every base folder and every target path (any depth, any number of '..')", "why_tests_cant": "the number and placement of '..' segments is unbounded", "anchors": ["FCollada/FUtils/FUUri.cpp: FUUri::MakeAbsolute, FUUri::MakeRelative, ExtractPathStack"]}
{"id": "C18", "title": "Text content written to XML is read back unchanged", "statement": "XmlToString(the escaped form AddContent writes for s) = s for every NUL-free string s.", "quantifier": "every NUL-free string", "why_tests_cant": "depends on which of the 256 characters the table escapes and on neighbouring characters forming an accidental escape", "anchors": ["FCollada/FUtils/FUXmlWriter.cpp: AddContent, xmlValidityTable", "FCollada/FUtils/FUXmlParser.cpp: XmlToString"]}
{"id": "C19", "title": "File names written to XML are read back unchanged", "statement": "XmlToString(ConvertFilename(s)) = s for every NUL-free string s, and ConvertFilename's output consists of valid URI characters only.", "quantifier": "every NUL-free string", "why_tests_cant": "depends on all 256 table entries and on neighbouring characters", "anchors": ["FCollada/FUtils/FUXmlWriter.cpp: ConvertFilename, filenameValidityTable", "FCollada/FUtils/FUXmlParser.cpp: XmlToString"]}
{"id": "C20", "title": "Sorted child insertion keeps element children sorted and is stable", "statement": "If the element children of a node are in non-decreasing name order then AddChildSorted keeps them so, keeps all existing children in their relative order, and places the new child after the existing children of the same name.", "quantifier": "every child list (including text nodes), every new name", "why_tests_cant": "the position depends on the whole child list; mixed text/element lists are rarely tested", "anchors": ["FCollada/FUtils/FUXmlWriter.cpp: AddChildSorted"]}
{"id": "C21", "title": "Dates survive the text round trip", "statement": "ToDateTime(ToString(d)) = d for every date whose fields have their usual widths (year below 10000, the rest below 100).", "quantifier": "every such date", "why_tests_cant": "all digit/padding combinations", "anchors": ["FCollada/FUtils/FUStringConversion.cpp: ToString(FUDateTime)", "FCollada/FUtils/FUStringConversion.hpp: ToDateTime"]}
{"id": "C22", "title": "Every owned object is destroyed exactly once and never stays referenced by its owner", "statement": "Over any history of FUObjectRef/FUObjectContainer assignment, insertion, erase, pop, clear and object Release, no object is destroyed twice, an object held by a container or reference is live, and releasing an object removes it from its owner.", "quantifier": "every history over any number of objects, references and containers", "why_tests_cant": "double releases and stale entries require particular interleavings of ownership transfers", "anchors": ["FCollada/FUtils/FUObject.h: FUObjectRef, FUObjectContainer, FUObject::Release", "FCollada/FUtils/FUObject.cpp"]}
{"id": "C23", "title": "Tracked pointers and lists never refer to a destroyed object", "statement": "Over any history of assigning tracked pointers, adding to/removing from tracked lists, copying them and releasing objects, every non-NULL tracked pointer and every tracked-list element designates a live object.", "quantifier": "every history over any number of trackers and objects", "why_tests_cant": "dangling requires copying or duplicating a tracker and then releasing the object later", "anchors": ["FCollada/FUtils/FUTracker.h: FUTrackable, FUTracker, FUTrackedPtr, FUTrackedList", "FCollada/FUtils/FUTracker.cpp"]}
{"id": "C24", "title": "Event handlers are called exactly while registered", "statement": "Raising an event calls every registered handler exactly once; releasing a handler removes exactly that handler, and releasing one that is not registered changes nothing.", "quantifier": "every history of insert/release, any handler multiplicity", "why_tests_cant": "only multiplicities 0 and >=2 expose the erase idiom", "anchors": ["FCollada/FUtils/FUEvent.h: FUEvent::InsertHandler, ReleaseHandler, operator()"]}
{"id": "C25", "title": "A bounding box contains everything included in it", "statement": "After Reset and any sequence of Include(point)/Include(box), the box contains every included point and box, and is the smallest such box; Overlaps is symmetric and true exactly when the boxes share a point.", "quantifier": "every sequence of points/boxes with ordinary (non-NaN) coordinates", "why_tests_cant": "depends on the order in which points arrive", "anchors": ["FCollada/FUtils/FUBoundingBox.cpp: Reset, Include, Contains, Overlaps"]}
{"id": "C26", "title": "A bounding sphere contains everything included in it", "statement": "After including a point or sphere into a valid sphere, the result contains the previous sphere and the included object.", "quantifier": "all centres and radii", "why_tests_cant": "continuous input space; only concentric/nested/unequal-radius cases reveal errors", "anchors": ["FCollada/FUtils/FUBoundingSphere.cpp: Include(FMVector3), Include(FUBoundingSphere)"]}
{"id": "C27", "title": "Animation keys stay sorted", "statement": "AddKey(interpolation,input,index) keeps the keys sorted by input, keeps the existing keys in order, puts the new key after every key with the same input, and reports the position at which the new key sits.", "quantifier": "every sorted key list of every length, every input; by induction every history of AddKey/DeleteKey", "why_tests_cant": "position depends on the full list", "anchors": ["FCollada/FCDocument/FCDAnimationCurve.cpp: AddKey, DeleteKey"]}
{"id": "C28", "title": "Evaluating a curve is memory-safe, hits the keys and respects the infinity modes", "statement": "For a sorted curve with at least one key, Evaluate reads only existing keys for every input; at a key's input it returns the key's output; with linear keys the value lies between the two surrounding outputs; outside the range CONSTANT holds the end value, LINEAR continues the end slope, CYCLE and OSCILLATE map the input into the range.", "quantifier": "every curve (any number of keys and any interpolation mix) and every input", "why_tests_cant": "the mix of binary search, linear search, infinity remapping and interpolation yields unbounded combinations", "anchors": ["FCollada/FCDocument/FCDAnimationCurve.cpp: Evaluate, FindT"]}
{"id": "C29", "title": "Switching animation clips restores the original key times", "statement": "After any sequence of SetCurrentAnimationClip calls, every key's input is its original input plus the offset of the clip selected last, and selecting a clip with offset 0 restores the original times.", "quantifier": "every sequence of clip selections, any number of clips and keys", "why_tests_cant": "drift only shows over long sequences or with clips registered through different entry points", "anchors": ["FCollada/FCDocument/FCDAnimationCurve.cpp: SetCurrentAnimationClip, RegisterAnimationClip, AddClip, SetClipOffset"]}
{"id": "C30", "title": "Merging curves keeps every key time exactly once and in order", "statement": "The key times of MergeCurves' result are sorted, every input curve's key time is represented within tolerance, every result time comes from an input curve, and no two result times coincide.", "quantifier": "every list of sorted curves", "why_tests_cant": "two-pointer merges with tolerance go wrong only for particular interleavings", "anchors": ["FCollada/FCDocument/FCDAnimationCurveTools.cpp: MergeCurves", "FCollada/FCDocument/FCDSceneNodeTools.cpp: GenerateSampledAnimation"]}
{"id": "C31", "title": "Reducing skin influences keeps the strongest ones and the total weight", "statement": "ReduceInfluences(max,min) leaves at most max influences per vertex, each of weight at least min before rescaling, none weaker than a discarded one that passed the threshold, and the total weight of each vertex is unchanged.", "quantifier": "every influence list, every max and min", "why_tests_cant": "ties, thresholds that drop everything and zero totals are corner cases of an unbounded list", "anchors": ["FCollada/FCDocument/FCDSkinController.cpp: ReduceInfluences"]}
{"id": "C32", "title": "Adding and removing faces keeps the polygon set consistent", "statement": "After any history of AddFace/AddHole/RemoveFace, the number of indices of each index owner equals the sum of the face-vertex counts, RemoveFace(i) removes exactly face i with its holes and leaves the other faces and their indices as they were, and GetFaceVertexOffset/GetFaceVertexCount of a face designate its own indices.", "quantifier": "every polygon set, every face index, holes included", "why_tests_cant": "index arithmetic with holes depends on all previous faces", "anchors": ["FCollada/FCDocument/FCDGeometryPolygons.cpp: AddFace, RemoveFace, GetFaceVertexOffset, GetFaceVertexCount, GetHoleCountBefore, GetHoleCount, AddHole", "FCollada/FMath/FMArray.h: vector::erase(size_t,size_t)"]}
{"id": "C33", "title": "Triangulation yields triangles only and covers each polygon", "statement": "Triangulate replaces each n-gon (n>=3, not a hole) by exactly n-2 triangles that use only that face's indices, keeps all index lists in step, and never reads outside the index lists when the face counts add up to their length.", "quantifier": "every polygon set, any face sizes, fan and strip primitives, holes", "why_tests_cant": "offset bookkeeping across skipped faces is only exercised by mixed sets", "anchors": ["FCollada/FCDocument/FCDGeometryPolygonsTools.cpp: Triangulate"]}
{"id": "C34", "title": "Unique re-indexing preserves every vertex's data", "statement": "GenerateUniqueIndices gives two face-vertices of a set the same new index exactly when all their old indices agree; new indices are consecutive from 0; and looking up the rewritten sources with the new index gives the same values as the old sources with the old indices.", "quantifier": "every polygon set with any number of index lists, any hash collisions", "why_tests_cant": "hash collisions between different index tuples are rare and input dependent", "anchors": ["FCollada/FCDocument/FCDGeometryPolygonsTools.cpp: GenerateUniqueIndices"]}
{"id": "C35", "title": "Vertex packing maps are dense and invertible", "statement": "GenerateVertexPackingMap consumes a prefix of the indices, gives equal packed indices exactly to equal input indices, uses packed indices 0..n-1 with none missing, and stops as soon as maxVertices distinct vertices or maxIndices indices are used.", "quantifier": "every index buffer and every pair of limits", "why_tests_cant": "loop termination is encoded by mutating the bound inside the loop", "anchors": ["FCollada/FCDocument/FCDGeometryPolygonsTools.cpp: GenerateVertexPackingMap"]}
{"id": "C36", "title": "Splitting index buffers keeps all faces and respects the limit", "statement": "FitIndexBuffers terminates, every resulting polygon set has at most the given number of indices, and concatenating the resulting sets gives the original faces and indices in order.", "quantifier": "every polygon set and every limit", "why_tests_cant": "termination for faces larger than the limit and off-by-one at exact multiples", "anchors": ["FCollada/FCDocument/FCDGeometryPolygonsTools.cpp: FitIndexBuffers"]}
{"id": "C37", "title": "The scene graph never contains a cycle", "statement": "After any history of AddChildNode/RemoveChildNode, no node is its own descendant, parent and child lists mirror each other without duplicates, and AddChildNode(n) refuses exactly NULL, the node itself, existing children and ancestors.", "quantifier": "every history over any number of nodes (any graph shape, including shared children)", "why_tests_cant": "cycles may only close through arbitrarily long chains with multiple parents", "anchors": ["FCollada/FCDocument/FCDSceneNode.cpp: AddChildNode, RemoveChildNode"]}
{"id": "C38", "title": "Scene iteration visits each reachable node, in the advertised order", "statement": "FCDSceneNodeIterator yields, for a finite acyclic graph, exactly the tree expansion of the root: breadth-first, depth-first pre-order (parents before children) or post-order (children before parents).", "quantifier": "every finite acyclic scene graph including instanced nodes", "why_tests_cant": "the explicit-stack code treats leaves, instances and roots differently, so shapes matter", "anchors": ["FCollada/FCDocument/FCDSceneNodeIterator.hpp: FCDSceneNodeIteratorT constructor"]}
{"id": "C39", "title": "Destroying a scene node does not destroy children other nodes still use", "statement": "When a scene node is destroyed, each child that has another parent stays alive and loses exactly this parent; children without other parents are destroyed.", "quantifier": "every scene graph with shared children", "why_tests_cant": "needs a node instantiated under several parents and destroyed in a particular order", "anchors": ["FCollada/FCDocument/FCDSceneNode.cpp: ~FCDSceneNode"]}
{"id": "C40", "title": "Cloning an extra tree copies the whole tree", "statement": "Cloning an FCDExtra into a fresh one gives the same types, techniques, nodes, attributes, contents and order, to any depth.", "quantifier": "every tree reachable through the public calls, any depth and width", "why_tests_cant": "recursive structure of unbounded depth; de-duplicating Add calls can merge entries", "anchors": ["FCollada/FCDocument/FCDExtra.cpp: FCDExtra::Clone, FCDEType::Clone, FCDENode::Clone, FCDENode::AddAttribute"]}
{"id": "C41", "title": "Spline conversion produces valid, joined NURBS pieces", "statement": "ToNURBs reads only existing control vertices, yields cubic pieces that pass IsValid, each piece starts at the control vertex where the previous one ended, and converting a linear spline to Bezier passes through every original vertex.", "quantifier": "every control vertex list (open or closed)", "why_tests_cant": "index arithmetic over lists of arbitrary length and residue mod 3", "anchors": ["FCollada/FCDocument/FCDGeometrySpline.cpp: FCDLinearSpline::ToBezier, FCDBezierSpline::ToNURBs, FCDNURBSSpline::IsValid"]}
{"id": "C42", "title": "Matrix algebra obeys the usual laws", "statement": "Matrix product is associative with Identity neutral, (AB) transforms points like A after B, determinant is multiplicative, Transposed is an involution reversing products, and M * Inverted(M) = Identity whenever the determinant is not near zero (exact arithmetic).", "quantifier": "all 4x4 (and 3x3) matrices", "why_tests_cant": "16 free real parameters; sign errors in one cofactor vanish on sparse test matrices", "anchors": ["FCollada/FMath/FMMatrix44.cpp: operator*, Transposed, Inverted, Determinant, TransformCoordinate", "FCollada/FMath/FMMatrix33.cpp: Inverted, operator*"]}
{"id": "C43", "title": "Quaternion operations agree with the rotation matrices", "statement": "Quaternion product is associative and multiplies norms; ToMatrix turns products into matrix products; rotating a vector by a unit quaternion equals multiplying by its matrix (exact arithmetic).", "quantifier": "all quaternions and vectors", "why_tests_cant": "convention (order/inverse) errors vanish for rotations about one axis", "anchors": ["FCollada/FMath/FMQuaternion.cpp: operator*, SetToMatrix, EulerRotationQuaternion"]}
{"id": "C44", "title": "Version comparison is a total order", "statement": "On versions, <, <=, >, >= and IsEquivalent are mutually consistent: exactly one of a<b, equivalent, b<a holds, a>b iff b<a, a>=b iff not a<b, and < is transitive; parsing 'a.b.c' recovers the three numbers.", "quantifier": "every pair/triple of versions", "why_tests_cant": "only equal versions or ties in leading components expose operator errors", "anchors": ["FCollada/FCDocument/FCDVersion.h: operator>, operator>=", "FCollada/FCDocument/FCDVersion.cpp: operator<, operator<=, ParseVersionNumbers"]}
{"id": "C45", "title": "8-bit colours survive conversion to floats and back", "statement": "Constructing an FMColor from the floats produced by ToFloats gives the same colour, in IEEE single precision.", "quantifier": "all 2^32 colours", "why_tests_cant": "truncation error depends on the rounding of c/255*255 for each of the 256 values", "anchors": ["FCollada/FMath/FMColor.cpp: FMColor(const float*,uint32), ToFloats"]}
{"id": "C46", "title": "Clamp and Wrap land in the requested interval", "statement": "Clamp(v,mn,mx) is in [mn,mx] and equals v when v already is; Wrap(v,mn,mx) is in [mn,mx], equals v when v already is, and differs from v by a multiple of mx-mn.", "quantifier": "every value and every interval with mn<mx whose arithmetic does not overflow", "why_tests_cant": "modulo behaviour at exact multiples and for negative operands", "anchors": ["FCollada/FMath/FMath.h: Clamp, Wrap"]}
{"id": "C47", "title": "Type inclusion is exactly descent", "statement": "Includes(t) holds exactly if the type is t or descends from t; it is reflexive, transitive and antisymmetric.", "quantifier": "every class hierarchy of any depth", "why_tests_cant": "chain length is unbounded", "anchors": ["FCollada/FUtils/FUObjectType.cpp: FUObjectType::Includes"]}
{"id": "C48", "title": "A scene node's target count equals the number of entities aiming at it", "statement": "After any history of SetTargetNode, Clone and release of targeted entities, IsTarget() of each live node says whether some live entity has it as its target (the count behind it equals their number).", "quantifier": "every history", "why_tests_cant": "depends on destruction order", "anchors": ["FCollada/FCDocument/FCDTargetedEntity.cpp: SetTargetNode, Clone, destructor", "FCollada/FCDocument/FCDSceneNode.h: IncrementTargetCount, DecrementTargetCount"]}
{"id": "C49", "title": "An entity reference designates what it was last set to", "statement": "After SetEntity(e) GetEntity returns e; after SetUri(u) GetEntity returns the entity u designates and GetUri returns u's fragment.", "quantifier": "every history of SetEntity/SetUri/GetEntity/release", "why_tests_cant": "stale caching only shows for particular call orders", "anchors": ["FCollada/FCDocument/FCDEntityReference.cpp: SetUri, SetEntity, GetEntity, GetUri, OnObjectReleased"]}
{"id": "C50", "title": "File-name helpers split paths correctly and the root-path stack is never empty", "statement": "StripFileFromPath returns exactly the part up to and including the last separator; GetFileExtension returns the lower-cased text after the last '.' of the last segment; after any sequence of PushRootPath/PopRootPath there is at least one root and pop undoes push.", "quantifier": "every path string and every push/pop history", "why_tests_cant": "separator and dot placement combinations; length limit", "anchors": ["FCollada/FUtils/FUFileManager.cpp: StripFileFromPath, GetFileExtension, PushRootPath, PopRootPath"]}
{"id": "C51", "title": "Every morph target fits the base mesh", "statement": "After any history of SetBaseTarget/AddTarget/SetGeometry with a base target, each target's geometry is absent or has as many vertices as the base.", "quantifier": "every history, any number of targets", "why_tests_cant": "the filtering loop erases while iterating", "anchors": ["FCollada/FCDocument/FCDMorphController.cpp: SetBaseTarget, AddTarget, IsSimilar, FCDMorphTarget::SetGeometry"]}
{"id": "C52", "title": "Angle unwrapping terminates within half a turn of the previous value", "statement": "AngleApproach moves an angle by whole turns to within half a turn of the previous angle, and PatchEuler never returns angles farther from the previous ones than the unpatched candidates.", "quantifier": "all pairs of angles (exact arithmetic)", "why_tests_cant": "number of iterations is unbounded", "anchors": ["FCollada/FMath/FMQuaternion.cpp: AngleApproach, PatchEuler"]}
{"id": "C53", "title": "Target and qualifier strings are split and parsed faithfully", "statement": "SplitTarget cuts at the first '.', '(' or '[' so that the two parts concatenate to the input and the pointer contains none of these; ParseQualifier of a text starting with a bracketed number returns that number whatever follows, returns -1 when the text does not start with a bracket, and terminates on every text.", "quantifier": "every target string, all indices", "why_tests_cant": "delimiter placement combinations", "anchors": ["FCollada/FUtils/FUStringConversion.cpp: SplitTarget, ParseQualifier"]}
{"id": "C54", "title": "Error callbacks may report errors", "statement": "Calling FUError::Error (or adding/removing a callback) from inside an error callback terminates, and a report returns true exactly when its level reaches the fatal level.", "quantifier": "every nesting of reports from callbacks", "why_tests_cant": "needs a re-entrant callback; deadlock is not a value a unit test can assert", "anchors": ["FCollada/FUtils/FUError.cpp: FUError::Error, AddErrorCallback"]}
{"id": "C55", "title": "Element copies made by a vector are all destroyed", "statement": "For an element type with a destructor, once a vector has been destroyed every element copy it constructed has been destroyed exactly once.", "quantifier": "every history of appends and reservations, any number of elements", "why_tests_cant": "a leaked copy has no visible effect in a functional test; depends on how often the buffer grew", "anchors": ["FCollada/FMath/FMArray.h: fm::vector::reserve, push_back, pop_back, ~vector"]}
{"id": "C56", "title": "Appending n elements to a vector costs time proportional to n", "statement": "There is a constant c such that building a vector by n appends makes at most c*n element copies.", "quantifier": "every n", "why_tests_cant": "a growth-rate statement over all n", "anchors": ["FCollada/FMath/FMArray.h: fm::vector::insert, reserve"]}
{"id": "C57", "title": "Word lists are read whatever the list held before", "statement": "ToStringList leaves in the output list exactly the blank-separated words of the text, in order, whatever the list contained before; their number is CountValues of the text.", "quantifier": "every text, every previous content of the list", "why_tests_cant": "only a reused, non-empty output list exposes the difference", "anchors": ["FCollada/FUtils/FUStringConversion.cpp: ToStringList, CountValues"]}
{"id": "C58", "title": "Interleaved lists are de-interleaved", "statement": "ToInterleavedUInt32List with k output lists puts the j-th value of row i of the text into position i of the j-th list, keeps complete rows only, and skips columns whose list is NULL, whatever the lists contained before.", "quantifier": "every list of values, every number of output lists, any pattern of NULL lists and previous contents", "why_tests_cant": "combination of row completeness, previous sizes and NULL columns", "anchors": ["FCollada/FUtils/FUStringConversion.hpp: ToInterleavedUInt32List"]}
{"id": "C59", "title": "Escaping a URI keeps its characters", "statement": "FUUri::Escape returns a text in which letters, digits, marks and reserved characters are unchanged and other characters are replaced by %-escapes, so that distinct inputs stay distinct.", "quantifier": "every string, whatever the contents of newly allocated memory", "why_tests_cant": "the result is an fm::string whose characters lie behind an embedded terminator; a test printing its length would pass", "anchors": ["FCollada/FUtils/FUUri.cpp: FUUri::Escape", "FCollada/FMath/FMArray.h: push_back"]}
{"id": "C60", "title": "fm::string agrees with mathematical texts", "statement": "Construction, substr, insert, append, erase, pop_back, resize, find, rfind, find_first_of, find_last_of, == and < of fm::string compute the corresponding operation on texts, keep exactly one terminator, and never touch memory outside the buffer, also for strings obtained from clear(), substr(_, 0) or a zero-length constructor.", "quantifier": "every text, every position and count, every set of characters, any uninitialised memory contents", "why_tests_cant": "errors depend on the relation between lengths of string and search set, on the position of the terminator and on characters above 127", "anchors": ["FCollada/FUtils/FUString.h: stringT"]}
{"id": "C61", "title": "Printing and parsing a URI are inverse", "statement": "Parsing the text returned by GetAbsoluteUri gives back the same scheme, host, port, path, query and fragment.", "quantifier": "every URI with a scheme", "why_tests_cant": "combinations of host, port, folder or file path, query and fragment are unbounded", "anchors": ["FCollada/FUtils/FUUri.cpp: FUUri::FUUri, GetAbsoluteUri, GetAuthority"]}
{"id": "C62", "title": "Attribute values survive writing and reading", "statement": "ReadNodeProperty of an attribute set with AddAttribute(s) returns s for every NUL-free string s.", "quantifier": "every NUL-free string", "why_tests_cant": "reading decodes '%' sequences that writing does not produce; which texts are affected is an infinite set", "anchors": ["FCollada/FUtils/FUXmlWriter.cpp: AddAttribute", "FCollada/FUtils/FUXmlParser.cpp: ReadNodeProperty, XmlToString"]}
{"id": "C63", "title": "Children are found by name in document order", "statement": "FindChildByType returns the first element child with that name, FindChildrenByType appends exactly those elements in document order, and AddChildOnce adds a child only if there is none and is idempotent.", "quantifier": "every child list, every name", "why_tests_cant": "mixed lists of any length; results must be complete, not just non-empty", "anchors": ["FCollada/FUtils/FUXmlParser.cpp: FindChildByType, FindChildrenByType", "FCollada/FUtils/FUXmlWriter.cpp: AddChildOnce"]}
{"id": "C64", "title": "A transformed bounding box bounds the transformed points", "statement": "For a valid box and any affine matrix, Transform returns the smallest box containing the image of every point of the box.", "quantifier": "every valid box, every affine matrix", "why_tests_cant": "depends on the signs of the nine coefficients and on which corner is included first", "anchors": ["FCollada/FUtils/FUBoundingBox.cpp: Transform, Include(point)", "FCollada/FMath/FMMatrix44.cpp: TransformCoordinate"]}
{"id": "C65", "title": "A transformed bounding sphere bounds the transformed points", "statement": "For a valid sphere and any affine matrix, Transform returns a sphere containing the image of every point of the sphere (exact arithmetic).", "quantifier": "every valid sphere, every affine matrix", "why_tests_cant": "continuous input space; wrong only for matrices with shear", "anchors": ["FCollada/FUtils/FUBoundingSphere.cpp: Transform", "FCollada/FMath/FMMatrix44.cpp: TransformVector"]}
{"id": "C66", "title": "Sphere membership and overlap tests decide intersection", "statement": "Contains accepts every point of the sphere and none that is more than the tolerance outside; Overlaps of two valid spheres is symmetric and true exactly when they share more than a touching point; Overlaps with a box is true exactly when a point of the box lies strictly inside, and reports such a point (exact arithmetic).", "quantifier": "all spheres, boxes and points", "why_tests_cant": "continuous input space; the nearest point of a box has 27 regions", "anchors": ["FCollada/FUtils/FUBoundingSphere.cpp: Contains, Overlaps(FUBoundingSphere), Overlaps(FUBoundingBox)"]}
{"id": "C67", "title": "Multi-dimensional curves evaluate like their one-dimensional curves", "statement": "FCDAnimationMultiCurve::Evaluate reads only existing keys for every input and gives, for each dimension, the value FCDAnimationCurve::Evaluate gives for the keys of that dimension with constant ends.", "quantifier": "every key list, every input; agreement for every strictly increasing key list", "why_tests_cant": "the two evaluators are separate copies of search and interpolation code; they can disagree for any key mix or input", "anchors": ["FCollada/FCDocument/FCDAnimationMultiCurve.cpp: Evaluate", "FCollada/FCDocument/FCDAnimationCurve.cpp: Evaluate"]}
{"id": "C68", "title": "Index lists survive the release of a source", "statement": "When the data source of a polygon set input is released, the other inputs at the same offset still see the indices they shared with it.", "quantifier": "every list of inputs, every offset assignment, every owner of the shared indices", "why_tests_cant": "Which input owns a shared list depends on the order of earlier calls; tests with one input per offset never share a list.", "anchors": ["FCollada/FCDocument/FCDGeometryPolygonsInput.cpp: OnObjectReleased, FindIndices"]}
{"id": "C69", "title": "Extra node attributes read back", "statement": "After AddAttribute(name, value) on an extra node, ReadAttribute(name) gives the value, every other attribute reads as before and none is lost, moved or renamed; SetContent leaves a node with that text and no children.", "quantifier": "every node, name and value, after any earlier calls", "why_tests_cant": "name cleaning can merge or hide attributes for particular name pairs that tests do not try", "anchors": ["FCollada/FCDocument/FCDExtra.cpp: FCDENode::AddAttribute, FindAttribute, ReadAttribute, SetContent"]}
{"id": "C70", "title": "Transformation builders do what they are named after", "statement": "AxisRotationMatrix(axis, angle) turns every vector about the axis by the angle (right-handed) and is a rotation, for every non-zero axis; the X/Y/Z rotation matrices, the axis form and the quaternion form agree; EulerRotationMatrix(r) equals the matrix of the quaternion with the same Euler angles; TranslationMatrix and ScaleMatrix move and scale.", "quantifier": "every axis, angle, vector", "why_tests_cant": "Tests use unit axes and round angles; axes of nearly unit length and tiny angles take other branches.", "anchors": ["FCollada/FMath/FMMatrix44.cpp: TranslationMatrix, AxisRotationMatrix, XAxisRotationMatrix, EulerRotationMatrix, ScaleMatrix"]}
{"id": "C71", "title": "Decompose and Recompose are inverse", "statement": "For every matrix without shear, translation * rotation (x*y*z) * (inverted*scale) as returned by Decompose is the matrix again, and Recompose of those parts gives it back.", "quantifier": "every affine matrix without shear, mirrored or not", "why_tests_cant": "The angles are found through several branches (poles, mirrored matrices); the round trip with rotations about two or more axes and near the poles is a statement about all matrices.", "anchors": ["FCollada/FMath/FMMatrix44.cpp: Decompose, Recompose"]}
{"id": "C72", "title": "LookAtMatrix gives a camera placement", "statement": "The matrix puts the origin at the eye, looks along its -z axis at the target, its rotation is a right-handed orthonormal frame, its x axis is at right angles to up and its y axis is on the side of up.", "quantifier": "every eye, target and up direction with target different from eye", "why_tests_cant": "Up directions that are parallel to the viewing direction but not exactly equal to it take no special branch.", "anchors": ["FCollada/FMath/FMMatrix44.cpp: LookAtMatrix"]}
{"id": "C73", "title": "Quaternions convert to axis and angle and to Euler angles", "statement": "For every unit quaternion, the axis and angle of ToAngleAxis make the same quaternion again, and the Euler angles of ToEuler make the same rotation matrix.", "quantifier": "every unit quaternion, including the poles", "why_tests_cant": "Tests with one angle at a time hide wrong factors and signs that appear for mixed rotations.", "anchors": ["FCollada/FMath/FMQuaternion.cpp: ToAngleAxis, ToEuler"]}
{"id": "C74", "title": "slerp interpolates from one rotation to the other", "statement": "Between any two unit quaternions slerp(0) is the first, slerp(1) the second, every intermediate value is a unit quaternion, the angle from the first grows linearly with t, and swapping the ends and t with 1-t gives the same value.", "quantifier": "every pair of unit quaternions and every t", "why_tests_cant": "Only a proof covers all angles between the quaternions, including the nearly equal ones that take an early exit.", "anchors": ["FCollada/FMath/FMQuaternion.cpp: slerp"]}
{"id": "C75", "title": "Enumeration names round-trip", "statement": "For every enumeration of FUDaeEnum that has both conversions, FromString(ToString(e)) == e for every enumerator that is a real choice; for every string s FromString(s) is an enumerator of that enumeration, and unless it is the 'none of the above' result, s is exactly the text ToString gives back (no aliases); distinct choices are written as distinct texts, a value outside the enumeration is written as the fallback text, and 'none of the above' stays so when written and read back.", "quantifier": "all 24 enumerations with both conversions, all enumerators, all strings, all integer values", "why_tests_cant": "The set of strings is infinite, and the tables hold 250 entries in two orders; tests exercise a handful.", "anchors": ["FCollada/FUtils/FUDaeEnum.cpp:29-939", "FCollada/FUtils/FUDaeEnum.h:30-885", "FCollada/FUtils/FUDaeEnumSyntax.h"]}
{"id": "C76", "title": "Scene node sub ids are unique along every path", "statement": "FCDSceneNode::SetSubId with a non-empty text always ends, changes only that node, and gives the node a legal sub id that no ancestor and no descendant has: the cleaned text if that is free, else the text with '_' and the least free number.  FCDSceneNode::FindSubId returns the first node in depth-first order, among the node and its descendants, with the given sub id, and NULL exactly when there is none.", "quantifier": "every scene graph reached by calls of the node API (any depth, shared children), every assignment of sub ids, every node and text", "why_tests_cant": "the search goes up through every path of parents and down through every path of children of an arbitrary acyclic graph, and gives up after 513 attempts", "anchors": ["FCollada/FCDocument/FCDSceneNode.cpp:177-233", "FCollada/FCDocument/FCDObject.cpp CleanSubId"]}
{"id": "C77", "title": "Scene node transformations compose in stack order", "statement": "The local transform of a scene node transforms points by its transformations from the last of the stack to the first; the world transform exists for every node and applies the local transforms along the chain of first parents, the node's own first; AddTransform puts one new neutral transformation at the given place and so never changes the node's matrix; a skew is the stated shear; IsInverse is symmetric and says whether the two transformations cancel; a clone of a node has the same transformations.", "quantifier": "all stacks of any length of all six kinds with any real values, every scene graph reached by the node API, every place, all angles and axes", "why_tests_cant": "an unbounded stack and chain of parents with real-valued parameters; cancellation is a statement about all points", "anchors": ["FCollada/FCDocument/FCDTransform.cpp:25-341", "FCollada/FCDocument/FCDSceneNode.cpp:151-162, 248-272, 307-311", "FCollada/FMath/FMSkew.h"]}
{"id": "C78", "title": "Floating point numbers survive their text", "statement": "Every decimal text of a number - optional '-', digits with or without a point and leading zeros, optional exponent - is read by ToFloat as that number, and the pointer is left on the next word; the text written for a float or double is read back as the same number to six significant digits (error at most half a unit of the sixth digit, exact for numbers with six digits or fewer), infinities included; the same holds of lists, of 2, 3 and 4 component vectors and of matrices, each component coming back in its place whatever the output held before; a fourth component missing in the text is 1; reading never leaves the text.", "quantifier": "all decimal texts of any length, all rational values up to the largest double, all list lengths and separators", "why_tests_cant": "numbers are drawn from an infinite set and the error bound is about every one of them; texts have any number of digits", "anchors": ["FCollada/FUtils/FUStringConversion.hpp:55-129, 181-192, 213-283, 366-382, 558-568", "FCollada/FUtils/FUStringBuilder.hpp:26-57, 206-260"]}
{"id": "C79", "title": "String builders hold the expected text in memory they own", "statement": "Every sequence of constructions, appends (characters, texts, counted texts, lines, other builders, the builder itself, vectors), removals, reserve, clear, pop_back, ToCharPtr and deletions of any number of FUStringBuilders that are not copied runs without reading or writing outside a live block and without reading a character never written; afterwards every builder holds exactly the text the sequence describes; ToCharPtr yields that text followed by a zero; once all builders are deleted all memory is freed.", "quantifier": "all operation sequences over any number of builders, all texts and sizes (removals on texts below 2^31 characters)", "why_tests_cant": "memory errors depend on the exact sizes at which buffers grow or shrink, over unbounded histories", "anchors": ["FCollada/FUtils/FUStringBuilder.hpp:59-335", "FCollada/FUtils/FUStringBuilder.h:206-244"]}
{"id": "C80", "title": "String builders can be searched, copied and given vectors", "statement": "index returns the first and rindex the last place of a character in the text of the builder, -1 when there is none, without reading outside the text; a copied builder can be destroyed independently of the original; appending a vector to a text that ends in white space adds no further blank.", "quantifier": "all histories, all texts and characters", "why_tests_cant": "the answers depend on what lies behind the text in the buffer, hence on the history", "anchors": ["FCollada/FUtils/FUStringBuilder.hpp:259-287, 337-362", "FCollada/FUtils/FUStringBuilder.h"]}
{"id": "C81", "title": "The animation helper of a value of a list parameter stays with the value", "statement": "After any sequence of operations on an animatable list parameter (set, insert one/list/count, erase one/value/range, clear, push and pop at both ends, resize with and without value, asking for helpers, giving them curves, releasing them) the values are those a plain list would have, each helper is at exactly the value it was asked for however that value has moved, GetAnimated returns it, IsAnimated(index) and IsAnimated() answer according to the curves, and the helpers of removed values are gone.", "quantifier": "all histories of lists of fewer than 2^31 values, any number of helpers", "why_tests_cant": "helpers are found by binary search over places that every insertion and removal shifts; a wrong shift shows only for particular combinations of helpers, places and counts", "anchors": ["FCollada/FCDocument/FCDParameterAnimatable.hpp:61-221", "FCollada/FCDocument/FCDParameterAnimatable.cpp:157-245"]}
{"id": "C82", "title": "Evaluating an animation of a list parameter changes exactly its own value", "statement": "After any sequence of the operations of C81 and of evaluations of helpers, evaluating the helper of a value writes the curve's value to that value and to no other, and never outside the list.", "quantifier": "all histories of lists of fewer than 2^31 values", "why_tests_cant": "helpers keep raw addresses into a buffer that moves when it grows and whose contents move on insertion and removal; whether an address is stale depends on the history of capacities", "anchors": ["FCollada/FCDocument/FCDParameterAnimatable.hpp:194-221", "FCollada/FCDocument/FCDAnimated.cpp:216-237", "FCollada/FMath/FMArray.h:306-409"]}
{"id": "C83", "title": "Chains of controllers end at a geometry or at nothing", "statement": "Controllers can deform controllers. After any sequence of creating entities, making skins and morphers, setting bases, targets and geometries, and releasing entities, no controller deforms itself directly or through others, every call returns, GetBaseGeometry of every controller returns the geometry its chain of base targets leads to, or NULL if it leads to none, and setting the target to NULL takes it away.", "quantifier": "all histories with any number of entities and chains of any length", "why_tests_cant": "a cycle needs a particular order of calls on several objects; a test that meets one does not return", "anchors": ["FCollada/FCDocument/FCDController.cpp:41-86", "FCollada/FCDocument/FCDSkinController.cpp:51-115", "FCollada/FCDocument/FCDMorphController.cpp:46-81", "FCollada/FCDocument/FCDEntityReference.cpp:56-193"]}
{"id": "C84", "title": "Morph targets and skin influences fit the geometry that is deformed", "statement": "After any sequence of the operations of C83, every target of a morpher that deforms a geometry, directly or through other controllers, has the same kind (mesh or spline) and the same number of vertices as that geometry, every skin that deforms a geometry has one influence for each of its vertices, and no call uses a released geometry.", "quantifier": "all histories with any number of entities, geometries of any size", "why_tests_cant": "the check is made when a base or a target is set; whether it still holds later depends on what happens to other objects of the chain", "anchors": ["FCollada/FCDocument/FCDMorphController.cpp:46-202", "FCollada/FCDocument/FCDSkinController.cpp:66-122"]}
{"id": "C85", "title": "A polygon set survives export and import", "statement": "If a polygon set of a mesh is consistent (every input sees one index for each corner, the per-vertex sources are its inputs at offset 0, sources have distinct legal ids, numbers fit their types) then writing it as XML succeeds, and reading that element into the loaded mesh succeeds and gives the same primitive type, faces, holes and material and the same inputs with the same offsets, sets and indices (per-vertex inputs first and without set), whatever mixture of shared offsets, unused offsets and faces there is.", "quantifier": "all meshes, sets with any number of faces, holes, inputs and offsets, all index values", "why_tests_cant": "the text interleaves the index lists of all offsets, and the writer and the reader choose the owner of an offset differently; every combination of inputs takes another path", "anchors": ["FColladaPlugins/FArchiveXML/FAXGeometryExport.cpp:144-310", "FColladaPlugins/FArchiveXML/FAXGeometryImport.cpp:123-555"]}
{"id": "C86", "title": "An imported input sees the numbers at its offset", "statement": "When a valid <polygons> or <triangles> element is read (the VERTEX input and any other inputs in any order, at any offsets, with the same or no input at some offsets), every input of the set returns as its indices exactly the numbers at its offset, corner after corner, faces and holes have the written numbers of corners, and the positions are those of the VERTEX input.", "quantifier": "all documents of that form with any number of inputs, faces and holes", "why_tests_cant": "depends on the order and the offsets of the inputs, of which an exporter only produces a few", "anchors": ["FColladaPlugins/FArchiveXML/FAXGeometryImport.cpp:246-555", "FCollada/FCDocument/FCDGeometryMesh.cpp:119-134", "FCollada/FCDocument/FCDGeometryPolygonsInput.cpp:22-190"]}
{"id": "C87", "title": "A change of the up-axis and of the unit keeps everything in its place", "statement": "FCDocumentTools::StandardizeUpAxisAndLength on a document whose asset alone gives the unit and the up-axis applies one rotation, which takes the old up-axis to the new one, and one factor, the quotient of the units, to the whole: the world transformation of every node, every camera or light as it looks from its node, the positions, normals and directions of meshes, control points of splines, the bind shape and the bind poses of skins, and the planes of cameras.  Nothing outside of the visual scenes is touched, and the asset then tells the new values.", "quantifier": "for all documents whose scene graph was made by any sequence of calls, all transformation stacks, geometries, skins and cameras, all three axes, all units", "why_tests_cant": "the same conversion is written once per kind of transformation and once per kind of entity, and nodes with cameras get new nodes: that all of these agree is a statement about every depth of hierarchy and every stack", "anchors": ["FCollada/FCDocument/FCDocumentTools.cpp:35-707"]}
{"id": "C88", "title": "Every entity is converted from the asset in force for it", "statement": "StandardizeUpAxisAndLength converts a geometry, controller or camera from the unit and the up-axis of its own asset, without one from those of the document or of its library; a node also from those of the nodes above it.  The innermost asset counts.", "quantifier": "for all documents, all combinations of assets on document, libraries, entities and nodes", "why_tests_cant": "tests hold one asset; the order in which assets are looked at and reset only matters when several of them differ", "anchors": ["FCollada/FCDocument/FCDocumentTools.cpp:219-262", "FCollada/FCDocument/FCDocumentTools.cpp:549", "FCollada/FCDocument/FCDEntity.cpp:98-113", "FCollada/FCDocument/FCDSceneNode.cpp:236-245"]}
{"id": "C89", "title": "Converting the up-axis and the unit there and back restores the document, converting again changes nothing", "statement": "After StandardizeUpAxisAndLength to another up-axis and unit and then back to the old ones, the transformations, geometries, skins and cameras are the old ones.  A second conversion to the same values leaves the document as it is.", "quantifier": "for all documents whose scene graph was made by any sequence of calls, all pairs of axes and units", "why_tests_cant": "tools convert on every import and export; an error of one step adds up over saves, for some axis pair, some kind of transformation or some entity", "anchors": ["FCollada/FCDocument/FCDocumentTools.cpp:35-707"]}
{"id": "C90", "title": "A skin controller that is written to XML and read back is the same skin", "statement": "For every skin controller, writing it with WriteSkinController and reading the written <skin> element with LoadSkinController gives a skin with the same joint ids, inverse bind poses and bind shape, and for every vertex the same joints with the same weights, up to the six digits a number is written with.", "quantifier": "all skins: any number of joints, vertices and influences, any weights and matrices", "why_tests_cant": "The weights are written as one table from which the weights equal to 1 are left out, with running numbers, and are normalized while reading; tests use a few rigs with weights that sum up to 1.", "anchors": ["FColladaPlugins/FArchiveXML/FAXControllerExport.cpp:30-107", "FColladaPlugins/FArchiveXML/FAXControllerImport.cpp:57-243"]}
{"id": "C91", "title": "Reading a <skin> element gives the joints and influences the element describes", "statement": "For every valid <skin> element, whatever the order of its sources, inputs and offsets and however its lists are spaced, LoadSkinController gives the joint names with their poses, the bind shape and for each vertex the joints and the weights (normalized) that the numbers in <v> stand for.", "quantifier": "all <skin> elements: all sources, all orders of inputs, all lists of numbers", "why_tests_cant": "Files come from many exporters; no test suite covers all legal layouts.", "anchors": ["FColladaPlugins/FArchiveXML/FAXControllerImport.cpp:57-243", "FColladaPlugins/FArchiveXML/FAXColladaParser.cpp:95-212"]}
{"id": "C92", "title": "Reading a <skin> element never does anything undefined", "statement": "LoadSkinController on any element ends with a status; a malformed <skin> is refused and no NULL pointer, no entry behind a list and no matrix that was not initialised is used.", "quantifier": "all XML elements", "why_tests_cant": "The malformed elements are innumerable; a crash depends on which part is missing.", "anchors": ["FColladaPlugins/FArchiveXML/FAXControllerImport.cpp:57-243"]}
{"id": "C93", "title": "A morph controller that is written to XML and read back is the same morph", "statement": "For every morph controller, writing it with WriteMorphController and reading the element with LoadMorphController gives the same method, the same base target, and the same target geometries with the same weights (six digits) in the same order; an element that lacks a part is refused.", "quantifier": "all morphs: any number of targets, any weights, any ids; all sets of geometries in the document", "why_tests_cant": "Ids and weights are joined in two lists and split again; tests use a few well-behaved ids.", "anchors": ["FColladaPlugins/FArchiveXML/FAXControllerExport.cpp:109-159", "FColladaPlugins/FArchiveXML/FAXControllerImport.cpp:245-335"]}
{"id": "C94", "title": "A channel element gives exactly the curves it describes", "statement": "LoadAnimationChannel on a <channel> whose sampler names sources of times, values (with any stride), interpolations, tangents (pairs, or one number per curve in old documents), TCB values, eases, infinities and a driver gives as many curves as the stride, each with one key per time, with the value, the interpolation and the tangents or TCB values at its row and column, the defaults where the document has none, the infinities, the driver and the target.", "quantifier": "all channels: any number of curves and keys, any spacing and notation of the numbers, any order of the inputs, sources in any enclosing animation", "why_tests_cant": "The layout of a source is a table of any width; tests check a few curves with one or three columns.", "anchors": ["FColladaPlugins/FArchiveXML/FAXAnimationImport.cpp:27-379", "FColladaPlugins/FArchiveXML/FAXColladaParser.cpp:77-428"]}
{"id": "C95", "title": "An animation that is written to XML and read back is the same animation", "statement": "For every tree of animations, writing it and reading the element gives the same tree with the same channels in the same order; each has the same target, infinities and driver, and the same keys: time, value, interpolation and tangents or TCB values (six digits), for separate and for merged curves.", "quantifier": "all trees of animations: any depth, any number of channels, curves, dimensions and keys of all classes", "why_tests_cant": "Keys of different classes, dimensions and optional sources are combined freely; a wrong offset shows in a few combinations only.", "anchors": ["FColladaPlugins/FArchiveXML/FAXAnimationExport.cpp:22-199", "FColladaPlugins/FArchiveXML/FAXAnimationExport.cpp:304-677", "FColladaPlugins/FArchiveXML/FAXAnimationImport.cpp:27-428"]}
{"id": "C96", "title": "Every channel of an animation that has a meaning is loaded", "statement": "LoadAnimation adds one channel for every <channel> element that describes curves, in the order of the document, whatever the other elements are.", "quantifier": "all <animation> elements: any number of channels before and behind one that cannot be loaded", "why_tests_cant": "The result depends on the order of good and bad channels; tests use documents without bad ones.", "anchors": ["FColladaPlugins/FArchiveXML/FAXAnimationImport.cpp:402-428"]}
{"id": "C97", "title": "A channel reads the elements that its ids name", "statement": "A reference \"#id\" in a channel or a sampler finds the nearest element with that id; two curves of an animation are written with ids that tell their elements apart.", "quantifier": "all ids, all lists of elements, all pairs of curves of an animation", "why_tests_cant": "Ids are compared by a CRC and cleaned and cut when they are written; tests use short and well-behaved ids.", "anchors": ["FColladaPlugins/FArchiveXML/FAXAnimationImport.cpp:366-379", "FColladaPlugins/FArchiveXML/FAXColladaParser.cpp:519-540", "FColladaPlugins/FArchiveXML/FAXAnimationExport.cpp:22-153", "FCollada/FCDocument/FCDObjectWithId.cpp:84-110"]}
{"id": "C98", "title": "Reading a channel never leaves its lists", "statement": "LoadAnimationChannel on any element uses no entry behind the end of a list and no value that was never initialised.", "quantifier": "all <channel> elements and all sources: counts, strides and numbers of values need not match", "why_tests_cant": "A mismatch between the count attribute and the array is one of countless malformed documents.", "anchors": ["FColladaPlugins/FArchiveXML/FAXAnimationImport.cpp:81-302", "FColladaPlugins/FArchiveXML/FAXColladaParser.cpp:214-428"]}
{"id": "C99", "title": "Transformations of a node survive export and import", "statement": "Writing the transformations of a scene node to XML and reading them back gives a node with as many transformations, in the same order, of the same kinds, with the same numbers (six digits) and the same sub ids.", "quantifier": "all lists of transformations: any number, any mix of translations, rotations, scales, skews, matrices and look-ats, any numbers and sub ids", "why_tests_cant": "Six kinds with up to sixteen numbers each are written and read in any order; a swapped component or a clash of sub ids shows in a few lists only.", "anchors": ["FColladaPlugins/FArchiveXML/FAXSceneExport.cpp:74-79", "FColladaPlugins/FArchiveXML/FAXSceneExport.cpp:168-245", "FColladaPlugins/FArchiveXML/FAXSceneExport.cpp:358-373", "FColladaPlugins/FArchiveXML/FAXSceneImport.cpp:307-431", "FColladaPlugins/FArchiveXML/FAXColladaWriter.cpp:365-405"]}
{"id": "C100", "title": "A scene that is written to XML and read back is the same scene", "statement": "Writing the visual scenes of a document and reading the element into a new document gives the same nodes with the same ids, names, sub ids, joint flags and transformations, and the same children in the same order, also for nodes with several parents.", "quantifier": "all scene graphs without cycles: any depth, any number of children, nodes shared by any number of parents, any number of visual scenes", "why_tests_cant": "A shared node is written once and referenced elsewhere; which parent comes first in the document decides whether the reference is found.", "anchors": ["FColladaPlugins/FArchiveXML/FAXSceneExport.cpp:39-166", "FColladaPlugins/FArchiveXML/FAXSceneImport.cpp:24-200", "FColladaPlugins/FArchiveXML/FArchiveXML.cpp:928-962"]}
{"id": "C101", "title": "Reading visual scenes gives what the XML describes", "statement": "LoadLibrary on <library_visual_scenes> gives one node per <visual_scene> and <node> element, in document order, with the id, name, sub id, joint flag and transformations of the element; its children are its <node> elements and the nodes its <instance_node> elements refer to, in order; anything malformed is reported.", "quantifier": "all contents of <library_visual_scenes>: any nesting, any spacing and notation of numbers, elements of other kinds anywhere, any references", "why_tests_cant": "Documents of other programs combine nesting, references and optional attributes freely; tests read a few files.", "anchors": ["FColladaPlugins/FArchiveXML/FAXSceneImport.cpp:24-200", "FColladaPlugins/FArchiveXML/FAXSceneImport.cpp:307-431", "FCollada/FCDocument/FCDSceneNode.cpp:119-175", "FCollada/FCDocument/FCDLibrary.hpp:50-72"]}
{"id": "C102", "title": "Reading visual scenes always ends, with a graph without cycles", "statement": "LoadLibrary on any <library_visual_scenes> element ends and uses no undefined behaviour; in the document it leaves, no node is below itself, parents and children agree and no node is twice a child of the same node.", "quantifier": "all XML trees, well-formed or not: references to nodes around them, to themselves, to nothing, malformed numbers", "why_tests_cant": "The references of an untrusted document can ask for any cycle; tests try a few.", "anchors": ["FColladaPlugins/FArchiveXML/FAXSceneImport.cpp:24-200", "FColladaPlugins/FArchiveXML/FAXSceneImport.cpp:307-431", "FCollada/FCDocument/FCDSceneNode.cpp:95-175"]}
{"id": "C103", "title": "Extra trees survive saving and loading", "statement": "For every extra tree built by public calls that use no percent sign and no empty names, rename no type, profile or attribute, keep the default type, put only children on techniques and never both a content and children on one node: exporting it into any element and loading that element's <extra> children into a new tree gives the same tree (types, techniques, nodes, contents, attributes, all orders). False for other trees that the calls build (refutations).", "quantifier": "for all call sequences / all extra trees of any size and depth, any surrounding elements", "why_tests_cant": "trees of any depth and any texts; losses happen only for particular combinations", "anchors": ["FColladaPlugins/FArchiveXML/FAXEntityExport.cpp:24-62", "FColladaPlugins/FArchiveXML/FAXEntityExport.cpp:161-213", "FColladaPlugins/FArchiveXML/FAXEntityImport.cpp:26-100", "FColladaPlugins/FArchiveXML/FAXEntityImport.cpp:230-245", "FColladaPlugins/FArchiveXML/FAXColladaWriter.cpp:33-46", "FCollada/FCDocument/FCDExtra.cpp:41-62"]}
{"id": "C104", "title": "Importing <extra> elements is total and exact", "statement": "Loading the <extra> children of any element into a new tree is defined for every document and gives exactly what the document says: the default type and one type per distinct type attribute, in each one technique per distinct profile, in each technique all element children of all its <technique> elements in document order; each node has the (cleaned) element name, the child elements in order, the text when there are none, and for each (cleaned) attribute name the last value. Further elements never reorder existing types. Names are not kept: distinct attributes can be merged (refutation).", "quantifier": "for all XML trees, no hypotheses", "why_tests_cant": "arbitrary documents: any nesting, repeated types and profiles, mixed text", "anchors": ["FColladaPlugins/FArchiveXML/FAXEntityImport.cpp:26-100", "FColladaPlugins/FArchiveXML/FAXEntityImport.cpp:230-245", "FCollada/FCDocument/FCDExtra.cpp:113-133", "FCollada/FCDocument/FCDExtra.cpp:255-297"]}
{"id": "C105", "title": "Notes and targets are kept, and user data is not taken for them", "statement": "Exporting an entity with a note, a target and an extra tree and loading it gives the same note, '#' and the id of the target, and the same tree up to an empty FCOLLADA technique, and exporting leaves the entity's tree unchanged, provided no node of the tree looks like a note or target and there is no empty FCOLLADA technique. Otherwise user nodes are taken for the note or target, techniques are released by the export, and a renamed default type makes it use a NULL pointer (refutations).", "quantifier": "for all extra trees, notes, targets and surrounding elements", "why_tests_cant": "depends on user-chosen names in trees of any shape", "anchors": ["FColladaPlugins/FArchiveXML/FAXSceneExport.cpp:266-320", "FColladaPlugins/FArchiveXML/FAXSceneImport.cpp:41-102", "FCollada/FCDocument/FCDExtra.cpp:136-145", "FCollada/FCDocument/FCDExtra.cpp:235-246"]}
{"id": "C106", "title": "Lights survive saving and loading", "statement": "Exporting a light with finite values and loading the <light> gives the same kind, the colour and every value that matters for that kind up to six digits (intensity for all; attenuations except for ambient lights; cone and exponent for spot and directional lights; dropoff for spots), initial values for the others, the note, the target and the extra tree up to an empty FCOLLADA technique; the export leaves the tree unchanged. This holds when no user parameter has the name of a light value. Refuted without these limits: the other values are lost, user parameters such as 'intensity' replace the light's value and are removed, an empty FCOLLADA technique is released by the export.", "quantifier": "for all lights, extra trees, notes, targets and all digits printf may choose", "why_tests_cant": "values are printed as text and user data of any shape shares the namespace of the light's own parameters", "anchors": ["FColladaPlugins/FArchiveXML/FAXLightExport.cpp:16-106", "FColladaPlugins/FArchiveXML/FAXLightImport.cpp:16-185", "FCollada/FCDocument/FCDLight.cpp:25-38"]}
{"id": "C107", "title": "Importing a <light> gives what the document says", "statement": "For every <light> with a <technique_common> whose texts are numbers: the first light element gives the kind, the last element of each name its value, a parameter in any technique goes before the elements, values that are not given are those of a new light, exactly the parameters used are removed from the extra tree, and a penumbra angle q turns the falloff angle a into the outer cone a+2q (a negative one into the inner a+2q and the outer a). The import is defined for every document with a <technique_common> and no letter I in its texts. Without <technique_common> a NULL pointer is used, an empty <color> leaves the colour uninitialised, an outer cone next to a penumbra is ignored and the first of two penumbras stays (refutations).", "quantifier": "for all XML documents, any order and repetition of elements and techniques", "why_tests_cant": "documents of other tools with any number, order and repetition of elements and techniques", "anchors": ["FColladaPlugins/FArchiveXML/FAXLightImport.cpp:16-185", "FCollada/FCDocument/FCDLightTools.cpp:24-41", "FColladaPlugins/FArchiveXML/FAXColladaParser.cpp:103-128"]}
{"id": "C108", "title": "Cameras survive saving and loading", "statement": "Exporting a camera with finite values and loading the <camera> gives the same projection, clip planes, the views whose flag is set (the vertical view when none is set), the aspect ratio unless both views are set (then the quotient of the loaded views), up to six digits, and the note, target and extra tree. Refuted: a camera without flags gains one and loses its horizontal view; an aspect ratio set next to both views is replaced by the quotient.", "quantifier": "for all cameras, extra trees, notes, targets and all digits printf may choose", "why_tests_cant": "the three view values depend on each other, on the flags and on the order of reading", "anchors": ["FColladaPlugins/FArchiveXML/FAXCameraExport.cpp:15-78", "FColladaPlugins/FArchiveXML/FAXCameraImport.cpp:15-97", "FCollada/FCDocument/FCDCamera.cpp:41-61"]}
{"id": "C109", "title": "Importing a <camera> gives what the document says", "statement": "For every <camera> with one projection whose texts are numbers: the last <znear>, <zfar>, <xfov>/<xmag> and <yfov>/<ymag> count and set the flags, values not given are those of a new camera, the aspect ratio is the last given one when it comes after the views or a view is missing, and the quotient of the views when a view comes last and both are given. The import is defined for every document without the letter I in its texts. With both projections nothing is read, a vertical view of 0 is divided by, and the ratio is not the documented one (refutations).", "quantifier": "for all XML documents, any order and repetition of elements", "why_tests_cant": "the result depends on the order and repetition of any number of elements", "anchors": ["FColladaPlugins/FArchiveXML/FAXCameraImport.cpp:15-97", "FCollada/FCDocument/FCDCamera.cpp:24-61", "FCollada/FCDocument/FCDCamera.h:34-48"]}
{"id": "C110", "title": "An asset that is written and read again is the same", "statement": "For every asset whose texts have no percent sign, whose source data are addresses of files, whose unit (if set) has a name and at least 0.11 mm and whose up-axis (if set) is X, Y or Z: the <asset> WriteAsset makes is read by LoadAsset into a new asset with the same contributors in order (without those that say nothing), the same time of creation, the time of writing as time of modification, the same texts, the same unit and up-axis flags and values (the factor within six digits). Every such asset can be written, and writing changes only its time of modification. Refuted for smaller units (read as one metre), other axes (read as Y), a unit that has a name only, source data that are folders, Windows servers or have query and fragment, and texts with a percent sign.", "quantifier": "for all assets, any number of contributors and lengths of texts", "why_tests_cant": "the set of texts, dates and numbers is unbounded, and the losses hit values no test uses", "anchors": ["FColladaPlugins/FArchiveXML/FAXEntityExport.cpp:64-129", "FColladaPlugins/FArchiveXML/FAXEntityImport.cpp:102-201", "FCollada/FCDocument/FCDAsset.cpp:23-112", "FCollada/FUtils/FUUri.cpp:150-210"]}
{"id": "C111", "title": "Importing an <asset> gives what the document says", "statement": "For every <asset>: the contributors come in document order behind those already there, each with the last of its texts; title, subject, keywords, revision and the dates are those of the last element; the last <unit> sets the unit, which then has a name (UNKNOWN if none is given) and a factor of at least 0.1 mm (one metre if the document says less); the last <up_axis> that names X_UP, Y_UP or Z_UP exactly sets the axis; what is not said stays. The import is defined for all documents without the letter I in their units. Dates not of the form 2007-04-30T09:05:00Z are ignored, and any 20 characters are taken for a date (refutation); so are padded names of axes ignored.", "quantifier": "for all XML documents, any order and repetition of elements", "why_tests_cant": "the result depends on the order and repetition of any number of elements", "anchors": ["FColladaPlugins/FArchiveXML/FAXEntityImport.cpp:102-201", "FCollada/FUtils/FUStringConversion.hpp:195-211"]}
{"id": "C112", "title": "A clone of an asset is written to the same XML", "statement": "For every asset: a clone into a new asset has the same contributors (if asked for), texts, dates of creation, unit and axis and is written to the same element; it is modified at the time of cloning. Refuted for a clone into an existing asset, which keeps its contributors and the flags of its unit and up-axis.", "quantifier": "for all assets", "why_tests_cant": "equality of what is written for all contributors and texts", "anchors": ["FCollada/FCDocument/FCDAsset.cpp:49-112", "FCollada/FUtils/FUParameterizable.h:80-95"]}
{"id": "C113", "title": "A spline geometry that is written and read again is the same", "statement": "For every geometry of splines of the kind linear, Bezier or NURBS whose curves are complete (linear: at least two control vertices; NURBS: some control vertices, as many weights as control vertices, and vertices + degree + 1 knots) and have finite numbers: the <spline> elements WriteGeometrySpline makes are read by LoadGeometry into a geometry of the same kind whose only spline is the last one written, with the same control vertices, weights, knots (within the precision of the printed numbers), degree and the same open or closed form. The counts written are those of the numbers and vertices. Everything can be written. Refuted: of two or more splines only the last survives, the name is always lost, and a geometry without splines is read as a geometry without any shape.", "quantifier": "for all kinds, any number of splines, control vertices, weights and knots", "why_tests_cant": "the numbers and counts are unbounded; a test with one spline sees no loss", "anchors": ["FColladaPlugins/FArchiveXML/FAXGeometryExport.cpp:312-380", "FColladaPlugins/FArchiveXML/FAXGeometryImport.cpp:558-704", "FCollada/FCDocument/FCDGeometrySpline.cpp:94-315"]}
{"id": "C114", "title": "Importing <spline> elements gives what the document says", "statement": "For every geometry: the last <spline> with a type of the FCOLLADA technique of its first <extra> is the spline of the geometry; its vertices, weights and knots are those of the last inputs with the semantics POSITION, WEIGHTS and KNOTS, the degree and the closed flag are those said; an incomplete spline (linear with fewer than two vertices, or NURBS without vertices or with a wrong number of weights or knots) is dropped and the import fails, and so is one without <control_vertices> or with an input that names nothing; <spline> elements without a type are skipped. The import is defined for all documents whose types are LINEAR, BEZIER or NURBS. Refuted: any other type makes the importer use a NULL pointer, and NURBS sources named without '#' skip the check of weights and knots.", "quantifier": "for all XML documents, any order and repetition of elements", "why_tests_cant": "the result depends on any number of elements in any order", "anchors": ["FColladaPlugins/FArchiveXML/FAXGeometryImport.cpp:558-704", "FCollada/FCDocument/FCDGeometrySpline.cpp:94-315"]}
{"id": "C115", "title": "A mesh that is written and read again is the same mesh", "statement": "For every mesh with distinct proper ids, finite numbers and consistent polygon sets: the <mesh> element WriteGeometryMesh makes is read by LoadGeometryMesh into a mesh with the same sources in the same order (id, name, stride, numbers to six digits and types), the same per-vertex sources, and the same polygon sets in the same order with their type, faces, holes, material and inputs (source, offset, set and indices).", "quantifier": "all meshes with any number of sources, per-vertex sources and polygon sets, all texts printf may choose, both overflow behaviours", "why_tests_cant": "The writer moves the sets of the per-vertex inputs to an <extra>, the reader merges them back; which combinations survive depends on all sources and polygon sets at once.", "anchors": ["FColladaPlugins/FArchiveXML/FAXGeometryExport.cpp:23-128", "FColladaPlugins/FArchiveXML/FAXGeometryImport.cpp:22-190", "FCollada/FCDocument/FCDGeometryMesh.cpp:173-194"]}
{"id": "C116", "title": "Importing a <mesh> gives what the document says", "statement": "For every <mesh> element: the mesh has the sources of the document in order with their id, name, stride and numbers; its per-vertex sources are those the inputs of <vertices> name, each once, in the order of the first mention; a source has the type of the last such input unless a polygon set gives another; there is one polygon set for each element of a known name, in order, of the primitive type of its name. A document with a part missing is reported and does no harm.", "quantifier": "all documents: any children in any order, any number of sources, inputs and polygon sets", "why_tests_cant": "Documents come from other programs; tests hold a few of them.", "anchors": ["FColladaPlugins/FArchiveXML/FAXGeometryImport.cpp:22-230", "FColladaPlugins/FArchiveXML/FAXGeometryImport.cpp:706-729"]}
{"id": "C117", "title": "The copy of a mesh is the same mesh", "statement": "For every mesh: FCDGeometryMesh::Clone gives a mesh with the same convexity data, sources (id, name, type, stride, data), per-vertex sources and polygon sets, where each polygon set has the same type, faces, holes, material and inputs (source, offset, set and the indices GetIndices returns).", "quantifier": "all meshes with any number of sources, per-vertex sources, polygon sets and inputs", "why_tests_cant": "Inputs share index lists by offset, and the copy makes its per-vertex inputs before it copies; whether the right list is written depends on all inputs of a set.", "anchors": ["FCollada/FCDocument/FCDGeometryMesh.cpp:235-265", "FCollada/FCDocument/FCDGeometrySource.cpp:43-63", "FCollada/FCDocument/FCDGeometryPolygons.cpp:287-337"]}
{"id": "C118", "title": "A standard effect that is written and read again is the same effect", "statement": "For every standard effect with finite values and proper parameter names: the <profile_COMMON> WriteEffectStandard makes is read by LoadEffectStandard into an effect with the same lighting model, opaque mode, reflective, refractive and emission-factor flags and textures, in which every parameter that the effect makes use of has the same value (to six digits) or the same reference, whatever the version of the document it is read into.", "quantifier": "all effects: every lighting model, mode, combination of flags, value and reference, all texts printf may choose, both overflow behaviours", "why_tests_cant": "The flags are not written: the reader infers them from which elements are present, the writer leaves out elements by lighting model, flag and value, so the outcome depends on all of them together.", "anchors": ["FColladaPlugins/FArchiveXML/FAXMaterialExport.cpp:898-987", "FColladaPlugins/FArchiveXML/FAXMaterialExport.cpp:1085-1140", "FColladaPlugins/FArchiveXML/FAXMaterialImport.cpp:1216-1399", "FColladaPlugins/FArchiveXML/FAXMaterialImport.cpp:1584-1728"]}
{"id": "C119", "title": "The COMMON profile of a document is loaded as it says", "statement": "For every document with a lighting model: the effect has that lighting model; of each parameter the last element of its name among the lighting model and the techniques of the tools counts, with a texture making it white or 1, <param> making it a reference and <color> or <float> giving its value; parameters that are not mentioned are those of a new effect; the effect has an emission factor, is reflective, is refractive exactly when the document mentions one; without a word on transparency it is opaque and without one on reflectivity nothing is reflected. Loading does not fail on any document without the letter I in its texts.", "quantifier": "all documents with any number of elements in any order, all versions, both overflow behaviours", "why_tests_cant": "The elements come from four places in any order and number, and defaults apply only when two related names are both missing.", "anchors": ["FColladaPlugins/FArchiveXML/FAXMaterialImport.cpp:1216-1399", "FColladaPlugins/FArchiveXML/FAXMaterialImport.cpp:1584-1728", "FCollada/FCDocument/FCDEffectStandard.cpp:66-147"]}
{"id": "C120", "title": "Opacity and reflectivity are the mean of the channels times the factor", "statement": "For every effect: GetOpacity is the alpha of the transparent colour times the factor in the mode A_ONE and one less the mean of its three channels times the factor in the mode RGB_ZERO; GetReflectivity is the mean of the three channels times its factor; both are between 0 and 1 when channels and factors are.", "quantifier": "all colours, factors and modes", "why_tests_cant": "Tests use grey colours, for which any weighting of the channels gives the same result.", "anchors": ["FCollada/FCDocument/FCDEffectStandard.cpp:226-239"]}
{"id": "C121", "title": "The copy of a standard effect is the same effect", "statement": "For every standard effect: FCDEffectStandard::Clone gives an effect with the same lighting model, mode, colours, numbers, references, flags and textures, and so the same opacity and reflectivity.", "quantifier": "all effects, all effects that are copied into, all versions of the document", "why_tests_cant": "There are twelve parameters with value and reference, three flags and twelve channels of textures; tests compare few of them.", "anchors": ["FCollada/FCDocument/FCDEffectStandard.cpp:242-278"]}
{"id": "C122", "title": "Analytical physics shapes survive a document", "statement": "A box, plane, sphere, cylinder, capsule, tapered cylinder or tapered capsule that is written to a document and read into a shape of the same type, whatever that shape held before, has the same half extents, equation, radii and height: numbers keep six digits, and those below the tolerance of the writer become 0. When an element of a shape is read, the last child of each name decides, other children are ignored and what has no child keeps its value; reading never fails on texts without the letter I.", "quantifier": "all shapes, all finite numbers, all element trees", "why_tests_cant": "Round trips of seven kinds with all numbers cannot be enumerated; a test with a symmetric or normalised plane misses that the components of its equation are turned.", "anchors": ["FColladaPlugins/FArchiveXML/FAXPhysicsExport.cpp:74-146", "FColladaPlugins/FArchiveXML/FAXPhysicsImport.cpp:371-596"]}
{"id": "C123", "title": "Volumes of analytical shapes", "statement": "CalculateVolume of a box, sphere, cylinder, capsule, tapered cylinder or tapered capsule with positive sizes is the volume of the body: the integral of the areas of its sections, with half an ellipsoid at each end of a capsule, whose third radius is the larger of the two.", "quantifier": "all shapes with positive real sizes", "why_tests_cant": "The formula of a tapered elliptic cylinder is an integral with four radii; tests with equal radii or with circles agree with many wrong formulas.", "anchors": ["FCollada/FCDocument/FCDPhysicsAnalyticalGeometry.cpp:40-275", "FCollada/FMath/FMVolume.cpp:12-56"]}
{"id": "C124", "title": "Copies of analytical shapes", "statement": "A copy of an analytical shape made with Clone has the type, all sizes and the volume of the original, and for a plane the same equation.", "quantifier": "all shapes, all sizes", "why_tests_cant": "A test that compares one field or that copies a plane through the origin passes when a member is left out.", "anchors": ["FCollada/FCDocument/FCDPhysicsAnalyticalGeometry.cpp:40-275"]}
{"id": "C125", "title": "Rigid constraints survive a document", "statement": "The limits and the springs of a rigid constraint that is written to a document and read back are the same: numbers keep six digits, and those below the tolerance of the writer become 0. When an element is read, the first elements on the path of each number decide and what has no element keeps its value; reading never fails on texts without the letter I.", "quantifier": "all constraints with finite numbers, all element trees", "why_tests_cant": "Ten numbers at ten paths: a test that only looks at limits, or that uses the values of a new constraint, does not see that the springs are written below another element than the one in which they are looked for.", "anchors": ["FColladaPlugins/FArchiveXML/FAXPhysicsExport.cpp:199-260", "FColladaPlugins/FArchiveXML/FAXPhysicsImport.cpp:709-871", "FCollada/FCDocument/FCDPhysicsRigidConstraint.cpp:25-40"]}
{"id": "C126", "title": "Physics materials survive a document", "statement": "The static friction, dynamic friction and restitution of a physics material that is written to a document and read back are the same up to the digits of the writer, be it a material of a library, of a rigid body or of a shape.", "quantifier": "all materials with finite numbers, all attributes and extra elements", "why_tests_cant": "Tests of the library do not show that the material of a shape is wrapped in a second element of the same name and that its numbers are lost.", "anchors": ["FColladaPlugins/FArchiveXML/FAXPhysicsExport.cpp:39-43", "FColladaPlugins/FArchiveXML/FAXPhysicsExport.cpp:148-160", "FColladaPlugins/FArchiveXML/FAXPhysicsImport.cpp:275-279", "FColladaPlugins/FArchiveXML/FAXPhysicsImport.cpp:598-640"]}
{"id": "C127", "title": "Mass and density of physics shapes survive a document", "statement": "Whether a shape is hollow, its mass, its density and the flag that its density is the more accurate number are after writing and reading what they were, up to the digits of the writer; of an element that gives only one of mass and density the other is calculated with the volume.", "quantifier": "all shapes with finite mass and density, all volumes, all further elements of the shape, all elements read", "why_tests_cant": "A test of a shape with mass and density does not show that a shape of mass and density 0 is read with the density 1.", "anchors": ["FColladaPlugins/FArchiveXML/FAXPhysicsExport.cpp:27-61", "FColladaPlugins/FArchiveXML/FAXPhysicsImport.cpp:245-364"]}
{"id": "C128", "title": "Copies of physics shapes keep hollowness, mass and density", "statement": "A clone of a physics shape is hollow if and only if the shape is, has the same mass and density, and is written to documents like the shape.", "quantifier": "all shapes, all shapes cloned into", "why_tests_cant": "A test that compares mass and density does not see that the clone is written with an element the shape is written without.", "anchors": ["FCollada/FCDocument/FCDPhysicsShape.cpp:119-159"]}
