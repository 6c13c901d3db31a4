{"claims": [
 {"property": "C01", "status": "proved", "theorems": ["C01_tree_is_finite_map"], "note": ""},
 {"property": "C02", "status": "proved", "theorems": ["C02_tree_iteration_sorted_complete"], "note": ""},
 {"property": "C03", "status": "proved", "theorems": ["C03_tree_balanced"], "note": ""},
 {"property": "C04", "status": "partial", "theorems": ["C04_erase_keeps_other_iterators_refuted", "C04_erase_keeps_other_iterators_partial"], "note": "Full statement is false of the code (erase of a node with two children moves another entry's data into it); the partial theorem covers the other erases."},
 {"property": "C05", "status": "proved", "theorems": ["C05_vector_is_list"], "note": ""},
 {"property": "C06", "status": "partial", "theorems": ["C06_self_insert_refuted", "C06_self_insert_partial"], "note": "Full statement refuted: use after free when full, shifted value when the source is at or after the insertion point."},
 {"property": "C07", "status": "proved", "theorems": ["C07_sort_safe_and_correct"], "note": ""},
 {"property": "C08", "status": "proved", "theorems": ["C08_encode_is_base64", "C08_base64_round_trip", "C08_encode_limit"], "note": "Holds up to 1610612733 bytes; beyond that the int size computations overflow (C08_encode_limit)."},
 {"property": "C09", "status": "partial", "theorems": ["C09_decode_ignores_foreign_refuted", "C09_decode_ignores_foreign_partial", "C09_decode_safe_iff"], "note": "Full statement refuted (reads past the end after a trailing line break; spurious zero bytes). The exact domain of memory safety and the exact result for inserted characters are proved."},
 {"property": "C10", "status": "proved", "theorems": ["C10_crc_is_standard", "C10_single_byte_change", "C10_burst_change"], "note": ""},
 {"property": "C100", "status": "partial", "theorems": ["C100_scene_partial", "C100_writable", "C100_forest", "C100_children_refuted", "C100_order_refuted"], "note": "Nodes, data and scenes come back for all acyclic graphs with legal ids; the children are those of saved_children, which are the same if no node has two parents. Refuted: a shared child whose first parent is written later is lost; the order of the children changes."},
 {"property": "C101", "status": "partial", "theorems": ["C101_meaning_partial", "C101_wrong_count", "C101_siblings_refuted", "C101_status_refuted", "C101_matrix_refuted", "C101_ids_refuted"], "note": "Holds for every library with well-formed content and ids that the map of names tells apart. Refuted: a malformed transformation drops the following siblings or is not reported, a short matrix is filled with zeros, the id n01 is replaced if n1 exists."},
 {"property": "C102", "status": "partial", "theorems": ["C102_ends", "C102_safe_partial", "C102_infinity_refuted", "C102_port_refuted"], "note": "Termination and absence of cycles hold for every XML tree; no undefined behaviour if arithmetic wraps and no text has the letter I. Refuted: a number text ending in I is read past its end; a port number overflows."},
 {"property": "C103", "status": "partial", "theorems": ["C103_round_trip_partial", "C103_built_partial", "C103_mixed_refuted", "C103_percent_refuted", "C103_technique_refuted", "C103_empty_refuted", "C103_profiles_refuted"], "note": "Proved for all trees that XML can hold and for all call sequences that respect this; refuted for mixed content, percent signs, attributes on techniques, trees without any child, and equal profiles."},
 {"property": "C104", "status": "partial", "theorems": ["C104_import", "C104_order", "C104_names_refuted"], "note": "Proved without hypotheses; the keeping of names is refuted."},
 {"property": "C105", "status": "partial", "theorems": ["C105_entity_partial", "C105_note_refuted", "C105_target_refuted", "C105_export_refuted", "C105_default_type_refuted"], "note": "Proved for trees without nodes that look like a note or target; refuted otherwise."},
 {"property": "C106", "status": "partial", "theorems": ["C106_round_trip_partial", "C106_writable", "C106_fields_refuted", "C106_words_refuted", "C106_release_refuted"], "note": "all values that matter for the kind of light; the full claim is refuted for the other values, for user parameters with names of light values and for an empty FCOLLADA technique"},
 {"property": "C107", "status": "partial", "theorems": ["C107_import", "C107_penumbra", "C107_safe", "C107_common_refuted", "C107_color_refuted", "C107_penumbra_refuted"], "note": "import and safety proved for documents with <technique_common>; refuted without it, for an empty <color>, for outer cone next to a penumbra and for two penumbras"},
 {"property": "C108", "status": "partial", "theorems": ["C108_round_trip_partial", "C108_writable", "C108_flags_refuted", "C108_aspect_refuted"], "note": "what survives is proved for each state of the two flags; the full claim is refuted"},
 {"property": "C109", "status": "partial", "theorems": ["C109_import", "C109_safe", "C109_both_refuted", "C109_zero_refuted", "C109_ratio_refuted"], "note": "import and safety proved; two projections, a vertical view of 0 and the documented ratio refuted"},
 {"property": "C11", "status": "partial", "theorems": ["C11_unsigned_round_trip", "C11_signed_round_trip_refuted", "C11_signed_round_trip_partial"], "note": "Unsigned: proved in full. Signed: refuted under the C++ overflow rules for magnitudes from 2147483600 (undefined behaviour inside ToInt32) and for a carriage return as separator; proved for all other values, and for all values with wrap-around arithmetic."},
 {"property": "C110", "status": "partial", "theorems": ["C110_round_trip_partial", "C110_writable", "C110_small_unit_refuted", "C110_axis_refuted", "C110_name_refuted", "C110_source_refuted", "C110_percent_refuted"], "note": "Holds for texts without percent signs, addresses of files, units of at least 0.11 mm with a name and the three axes. Refuted: every unit below 0.09 mm is read as one metre; other axes become Y; a unit with only a name is not written; folders, Windows servers and addresses with query and fragment change; a percent sign cuts the text."},
 {"property": "C111", "status": "partial", "theorems": ["C111_import", "C111_safe", "C111_date_refuted", "C111_padded_refuted"], "note": "Holds for every document; Refuted: dates in other forms of XML Schema are dropped, any twenty characters are a date, a padded axis name is ignored."},
 {"property": "C112", "status": "partial", "theorems": ["C112_clone", "C112_texts", "C112_existing_refuted"], "note": "Holds for clones into new assets. Refuted for a clone into an existing asset, which keeps contributors and flags."},
 {"property": "C113", "status": "partial", "theorems": ["C113_last_partial", "C113_many_refuted", "C113_round_trip_partial", "C113_name_refuted", "C113_writable", "C113_counts", "C113_empty_refuted"], "note": "Holds for the last spline of a geometry, except its name. Refuted: of two or more splines only the last survives; every name is lost; a geometry without splines loses its shape."},
 {"property": "C114", "status": "partial", "theorems": ["C114_import", "C114_last", "C114_broken", "C114_unknown_refuted", "C114_unchecked_refuted", "C114_safe"], "note": "Holds for every document whose types are known. Refuted: any other type uses a NULL pointer; a NURBS whose sources are named without '#' is accepted without weights and knots."},
 {"property": "C115", "status": "partial", "theorems": ["C115_round_trip_partial", "C115_writable", "C115_layout", "C115_convex_refuted", "C115_hull_refuted", "C115_point_size_refuted", "C115_input_set_refuted", "C115_unused_type_refuted"], "note": "Holds for meshes that are not convex and whose sources are of exported types, with the polygon sets of C85 (no points, no polylist face with more corners than positions). Refuted: a convex mesh comes back as not convex; a convex hull loses its sources; per-vertex point sizes stop the import, which reports success; per-vertex inputs get the set of the first polygon set; the type of an unused source is lost."},
 {"property": "C116", "status": "partial", "theorems": ["C116_import", "C116_defined", "C116_status", "C116_no_vertices_refuted", "C116_unknown_source_refuted"], "note": "Holds for every document that is read; the faces of the polygon sets are the subject of C86. Refuted: without <vertices> a NULL pointer is used; an input of <vertices> that names no source makes the import report success without reading any polygon set."},
 {"property": "C117", "status": "partial", "theorems": ["C117_clone_partial", "C117_vertex_order", "C117_primitive_type_refuted", "C117_shared_source_refuted", "C117_released_refuted", "C117_vertex_offset_refuted"], "note": "Proved for meshes whose inputs use different sources, with the per-vertex inputs at offset 0 and one list of indices for each offset, up to the order of inputs and of per-vertex sources. Refuted in full: the primitive type is not copied; per-vertex sources are reordered; a source used twice has one input in the copy; an input whose source was released makes Clone use a NULL pointer; a per-vertex input moved to another offset loses its indices."},
 {"property": "C118", "status": "partial", "theorems": ["C118_saved_partial", "C118_writable", "C118_saved_refuted"], "note": "Holds for effects without textures whose specular level is not a reference with the value 1 and whose lighting model is known. Refuted in full: a texture turns the colour white; the emission textures of an effect with an emission factor are lost; a specular level that is a reference is lost when its value is 1; a refraction texture makes the effect refractive and sets the index to 1; an unknown lighting model loses all colours. Textures are counted, their contents are not modelled."},
 {"property": "C119", "status": "partial", "theorems": ["C119_import", "C119_safe", "C119_opaque", "C119_defaults_refuted"], "note": "The positive parts are proved in full. Refuted: a <transparency> alone in a document before 1.4.1 has no effect on the opacity, because the transparent colour stays black in the mode RGB_ZERO; a <color> without text leaves the colour uninitialised."},
 {"property": "C12", "status": "partial", "theorems": ["C12_hex_round_trip_refuted", "C12_hex_round_trip_partial"], "note": "Full statement refuted for uint16/uint32 (bytes are written in memory order); byte round trip and the reader on every hexadecimal text are proved."},
 {"property": "C120", "status": "partial", "theorems": ["C120_means_partial", "C120_means_refuted"], "note": "Right for grey colours and in the mode A_ONE, and in range. Refuted in full: the code adds the first channel three times, so a green transparent colour leaves the effect opaque."},
 {"property": "C121", "status": "partial", "theorems": ["C121_copy_partial", "C121_copy_refuted"], "note": "Lighting model, mode, values, kind of emission, textures, opacity and reflectivity are copied. Refuted in full: the reflective and refractive flags and the references are not."},
 {"property": "C122", "status": "partial", "theorems": ["C122_written", "C122_saved_partial", "C122_plane", "C122_plane_refuted", "C122_writable", "C122_names", "C122_import", "C122_safe"], "note": "The round trip is proved for all shapes except planes. It is false for planes: the writer puts the first number of the equation last, so a b c d is read back as b c d a (C122_plane for all planes, C122_plane_refuted with the plane x + 5 = 0)."},
 {"property": "C123", "status": "partial", "theorems": ["C123_unique", "C123_volume_partial", "C123_cone", "C123_volume_refuted"], "note": "Proved for positive sizes when a tapered shape either has equal radii or has radii that differ by more than the tolerance. False for tapered shapes with radii within the tolerance, which are taken for untapered ones; a plane has the volume 1."},
 {"property": "C124", "status": "partial", "theorems": ["C124_copy_partial", "C124_copy_refuted"], "note": "Proved for all shapes except the last number of a plane, which Clone does not copy."},
 {"property": "C125", "status": "partial", "theorems": ["C125_import", "C125_nothing", "C125_safe", "C125_saved_partial", "C125_writable", "C125_springs_refuted"], "note": "The limits come back (C125_saved_partial). The springs do not: they are written below technique_common and looked for below rigid_constraint, so the loaded constraint keeps the springs it had (same theorem, and C125_springs_refuted)."},
 {"property": "C126", "status": "partial", "theorems": ["C126_import", "C126_safe", "C126_saved", "C126_shape_refuted", "C126_writable"], "note": "Proved for the element of a material itself, as libraries and rigid bodies write it. False for the material of a shape, which is written inside a second element of the same name: all its numbers are loaded as 0."},
 {"property": "C127", "status": "partial", "theorems": ["C127_import", "C127_safe", "C127_saved_partial", "C127_loads", "C127_writable", "C127_saved_refuted"], "note": "What is read from an element, calculated numbers included, is proved for all elements. What is written and read back is proved with two exceptions: a shape of mass and density 0 gets density 1 and the mass of its volume (C127_saved_refuted), and if the density is more accurate the mass is calculated from it."},
 {"property": "C128", "status": "partial", "theorems": ["C128_copy_partial", "C128_copy_refuted"], "note": "Hollowness, mass and density are copied; the flag that the density is more accurate is not, so that the clone is written with a mass and read back with another flag (C128_copy_refuted)."},
 {"property": "C13", "status": "partial", "theorems": ["C13_unsigned_list_round_trip", "C13_signed_list_round_trip_partial", "C13_count_agrees_refuted", "C13_count_agrees_partial"], "note": "Round trips proved (signed: same range limit as C11). Agreement with CountValues refuted for blank-only texts, carriage returns and a non-ASCII first byte; proved for all other texts."},
 {"property": "C14", "status": "partial", "theorems": ["C14_unique_map_refuted", "C14_unique_map_partial", "C14_handed_out_distinct_partial"], "note": "Full statement refuted (\"a\" and \"a4294967295\" share an entry, \"a01\" and \"a1\" too; a contained string can be handed out). Proved for histories of fewer than 3*10^9 calls with final numbers below 10^9, up to leading zeros."},
 {"property": "C15", "status": "partial", "theorems": ["C15_ids_refuted", "C15_ids_distinct_partial", "C15_id_stable_partial", "C15_id_reusable_partial"], "note": "Full statement refuted (cloning into an object with an id duplicates the id; cloning changes the id of the source). Proved for clone targets that were never named and the number ranges of C14; stability proved without bound when the object is not cloned."},
 {"property": "C16", "status": "partial", "theorems": ["C16_clean_empty_refuted", "C16_clean_partial"], "note": "Refuted only for the empty string; everything else is proved for every non-empty string."},
 {"property": "C17", "status": "partial", "theorems": ["C17_resolve_refuted", "C17_resolve_partial", "C17_walk_deterministic_partial", "C17_round_trip_partial"], "note": "Full statement refuted: absolute targets and the base keep their dot segments, '#id' resolves to '/', the root becomes the empty text, relativising is undefined for a document in the root folder, the final slash of a folder is lost. Proved for relative targets of any depth and for absolute files."},
 {"property": "C18", "status": "partial", "theorems": ["C18_content_refuted", "C18_content_round_trip_partial"], "note": "Refuted as stated: '%' is not escaped by AddContent, so texts with '%' change. Proved: a text survives iff it has no '%' (all texts, any length)."},
 {"property": "C19", "status": "proved", "theorems": ["C19_filename_round_trip"], "note": ""},
 {"property": "C20", "status": "partial", "theorems": ["C20_sorted_refuted", "C20_sorted_partial"], "note": "Refuted when the first child is no element and the new name is smaller than all elements. Proved: order is kept in exactly the other cases; stability and relative order always."},
 {"property": "C21", "status": "proved", "theorems": ["C21_date_round_trip"], "note": ""},
 {"property": "C22", "status": "partial", "theorems": ["C22_ownership_partial", "C22_release_removes", "C22_move_refuted", "C22_same_object_refuted", "C22_two_owners_refuted"], "note": "full statement refuted: reference-to-reference assignment keeps the old owner, assigning the object already held destroys it first, a second owner keeps a dangling entry; proved for every other history: no use after destruction, the destroyed objects are exactly the expected ones, all holders live and unique; objects are leaves (their destructors own nothing)"},
 {"property": "C23", "status": "partial", "theorems": ["C23_tracking_partial", "C23_trackers_exact", "C23_copied_pointer_refuted", "C23_copied_list_refuted", "C23_duplicate_refuted"], "note": "full statement refuted: copy-constructed tracked pointers and copied tracked lists are not registered, an object twice in a list leaves a dangling entry; proved for every other history; owners of tracked objects are in C22"},
 {"property": "C24", "status": "partial", "theorems": ["C24_handlers_partial", "C24_self_release", "C24_release_none_refuted", "C24_release_many_refuted", "C24_release_many_effect", "C24_release_others_refuted"], "note": "full statement refuted: releasing an object with no handler is undefined, with several handlers it leaves entries (still called, or empty functions that throw), releasing others during the call reads behind the vector; proved for histories that release objects with exactly one handler, also from inside the handler itself"},
 {"property": "C25", "status": "partial", "theorems": ["C25_include_refuted", "C25_include_valid_partial", "C25_include_after_reset_partial", "C25_contains_overlaps"], "note": "Refuted as stated: the first point after Reset only sets the minimum. Proved: from a box with points any history gives the smallest box; after Reset exactly when the first inclusion is a box or a later one reaches the first point on every axis; Contains/Overlaps in full for boxes with points."},
 {"property": "C26", "status": "partial", "theorems": ["C26_include_sphere_refuted", "C26_include_sphere_partial", "C26_include_points_and_boxes"], "note": "Exact real arithmetic. Points and boxes proved for all histories; including a sphere is refuted and proved to work exactly for equal radii or nested spheres."},
 {"property": "C27", "status": "proved", "theorems": ["C27_add_key", "C27_delete_key", "C27_always_sorted"], "note": "insertion position, order, reported index, removal and every history of both"},
 {"property": "C28", "status": "partial", "theorems": ["C28_evaluate_partial", "C28_safe_partial", "C28_safe_refuted", "C28_hits_keys_partial", "C28_hits_keys_refuted", "C28_linear_between", "C28_linear_before_refuted"], "note": "full statement refuted: LINEAR before the first key is mirrored, STEP keys are late by one key at their own time, a range of zero length with CYCLE/OSCILLATE reads behind the keys; proved: inside value, every other infinity mode, memory safety for a range of positive length, exact hit after straight segments; TCB segments only have a value; exact arithmetic"},
 {"property": "C29", "status": "partial", "theorems": ["C29_clips_partial", "C29_clips_refuted"], "note": "full statement refuted: AddClip leaves the offset missing (read behind clipOffsets), a new offset for the selected clip is ignored; proved for every history of RegisterAnimationClip, SetCurrentAnimationClip and SetClipOffset of clips not selected; exact arithmetic"},
 {"property": "C30", "status": "partial", "theorems": ["C30_merge_complete", "C30_merge_interpolation", "C30_merge_sorted_partial", "C30_merge_sorted_refuted"], "note": "order refuted for curves with keys closer than the tolerance; completeness, provenance and values proved for all curves; tangents of merged keys and FCDSceneNodeTools are not modelled"},
 {"property": "C31", "status": "partial", "theorems": ["C31_reduce_vertex", "C31_reduce_partial", "C31_all_vertices", "C31_nothing_kept_refuted", "C31_zero_total_refuted"], "note": "Full statement refuted: a vertex none of whose influences reaches the minimum (or max 0) loses all weight, and kept weights that add up to 0 give 0/0. Otherwise proved: best choice kept, total preserved, untouched when nothing is dropped."},
 {"property": "C32", "status": "partial", "theorems": ["C32_queries", "C32_representable", "C32_add_face_partial", "C32_add_hole", "C32_remove_face", "C32_remove_first_partial", "C32_remove_other_refuted", "C32_stale_holes_refuted", "C32_empty_face_refuted", "C32_histories_partial"], "note": "Full statement refuted: RemoveFace(i) for i >= 1 removes no face entry (erase is called with a count instead of an end), holes are not updated, and a first face of degree 0 stops index allocation. Queries, AddFace, AddHole, the index part of RemoveFace and histories without these cases proved."},
 {"property": "C33", "status": "proved", "theorems": ["C33_triangulate", "C33_in_step"], "note": "For every polygon set with at most one index list per offset whose lists reach to the end of the faces (the state AddFace and SetIndices keep)."},
 {"property": "C34", "status": "partial", "theorems": ["C34_unique_indices_partial", "C34_points_unchanged", "C34_source_used_twice_refuted"], "note": "Proved for every mesh without POINTS sets whose sets use each source once and have index lists of equal length: every corner sees the same value of every source after re-indexing, one common index list, equal new index in a set exactly for equal old index tuples, and dense new indices. The full statement is refuted: a source that two inputs of one set use gets the data of the first input only; a mesh with a POINTS set is left alone (C34_points_unchanged)."},
 {"property": "C35", "status": "partial", "theorems": ["C35_packing_map_partial", "C35_reused_map_refuted", "C35_no_vertices_refuted"], "note": "Proved for a fresh packing map and enough indices. Refuted in full: a map that holds entries from an earlier call yields two vertices with one packed index; a vertex limit of 0 still uses one vertex."},
 {"property": "C36", "status": "partial", "theorems": ["C36_fit_partial", "C36_oversized_face_refuted", "C36_primitive_type_refuted", "C36_holes_refuted", "C36_vertex_offset_refuted"], "note": "Proved for polygon sets without holes whose faces fit the limit: the tool ends, the pieces obey the limit and give back all faces and indices in order. Refuted in full: with a face above the limit the loop never ends; new sets lose the primitive type; holes keep stale entry numbers; per-vertex sources at another offset than 0 see wrong indices."},
 {"property": "C37", "status": "proved", "theorems": ["C37_acyclic", "C37_remove"], "note": "Every graph made by node creation, AddChildNode, RemoveChildNode, AddInstance and Release is covered."},
 {"property": "C38", "status": "partial", "theorems": ["C38_iteration_partial", "C38_all_reached", "C38_scene_graph", "C38_instanced_parent_refuted", "C38_deep_instance_refuted"], "note": "Breadth first proved in full; the depth-first orders proved when instanced nodes have nothing below them (post-order also up to eight levels). Refuted in full: pre-order leaves out an instanced node that has children; an instanced node pushed on a full stack makes the loop write to freed memory."},
 {"property": "C39", "status": "partial", "theorems": ["C39_release_partial", "C39_shared_child_refuted"], "note": "Proved: Release destroys exactly the node and all its descendants and takes them out of all lists. The full statement is refuted: a child that another node still has as child is destroyed too, because the list of parents is cleared before it is examined."},
 {"property": "C40", "status": "partial", "theorems": ["C40_clone_partial", "C40_clone_of_clone_partial", "C40_clone_built_partial", "C40_clone_refuted"], "note": "Proved: the clone equals the source exactly for trees whose names are used once with plain attribute names and the default type first, and every tree built by the calls that keep names apart is such a tree. The full statement is refuted: renamed attributes, profiles or types are renamed or merged, and a released or renamed default type comes back."},
 {"property": "C41", "status": "partial", "theorems": ["C41_pieces_partial", "C41_joined_partial", "C41_reads_refuted", "C41_joined_refuted", "C41_gap_refuted", "C41_linear_partial", "C41_straight", "C41_linear_refuted", "C41_convert_all"], "note": "Full statement refuted: a closed Bezier spline with fewer than two control vertices reads outside the list, one whose count is not a multiple of three gets pieces that do not join, and converting an open line into a Bezier object that was closed leaves it closed. Proved for every open spline, every closed one with whole segments, and every line converted into an open Bezier object."},
 {"property": "C42", "status": "partial", "theorems": ["C42_set", "C42_product", "C42_associative", "C42_identity", "C42_transpose", "C42_points4", "C42_points_partial", "C42_points_refuted", "C42_determinant", "C42_determinant_product", "C42_determinant_others", "C42_inverse", "C42_inverse_unique", "C42_inverse_undoes", "C42_inverse_product", "C42_inverse_singular", "C42_product3", "C42_laws3", "C42_inverse3_partial", "C42_inverse3_refuted"], "note": "Proved in exact real arithmetic for all matrices, except: TransformCoordinate of a product equals the composition only when the second matrix is affine (refuted otherwise: the fourth coordinate is dropped), and the 3x3 inverse treats determinants below 0.0001 as zero and then returns another matrix (refuted with a scale of 1/200)."},
 {"property": "C43", "status": "partial", "theorems": ["C43_algebra", "C43_matrix_product_partial", "C43_matrix_product_refuted", "C43_matrix_rotation", "C43_matrix_multiples", "C43_rotate_partial", "C43_rotate_refuted", "C43_set_partial", "C43_set_refuted", "C43_euler", "C43_from_matrix", "C43_every_rotation"], "note": "Full statement refuted: the product is Hamilton's with factors exchanged, so the matrix of a*b is matrix(b)*matrix(a), and rotating a vector applies the inverse of the quaternion's matrix. Proved: all algebraic laws, matrices are rotations, Euler construction equals X*Y*Z, matrix to quaternion conversion returns the quaternion up to sign, and converting any rotation matrix to a quaternion and back changes nothing. SetToMatrix on the object Identity overwrites the position (pointer comparison)."},
 {"property": "C44", "status": "partial", "theorems": ["C44_version_order_refuted", "C44_version_order_partial"], "note": "Full statement refuted: > and >= are exchanged. Everything else in the statement is proved."},
 {"property": "C45", "status": "proved", "theorems": ["C45_color_round_trip"], "note": "IEEE binary32 with round to nearest even, no excess precision."},
 {"property": "C46", "status": "proved", "theorems": ["C46_clamp", "C46_wrap_int", "C46_wrap_uint32", "C46_wrap_generic"], "note": "Integer instantiations; the fmod-based float versions are not modelled."},
 {"property": "C47", "status": "proved", "theorems": ["C47_includes_is_descent"], "note": ""},
 {"property": "C48", "status": "partial", "theorems": ["C48_count_partial", "C48_no_dangling_target", "C48_destroyed_entity_refuted"], "note": "Proved: the count is the number of live entities aiming at the node plus the number destroyed while aiming at it, so it is exact when targets are given up first, and a node aimed at is always a target. The full statement is refuted: the destructor does not count down."},
 {"property": "C49", "status": "partial", "theorems": ["C49_set_entity", "C49_set_uri_partial", "C49_clear_then_uri_partial", "C49_released", "C49_stale_entity_refuted", "C49_set_null_refuted", "C49_unload_overwrites_id_refuted"], "note": "SetEntity(e) proved in full for every history; SetUri proved for references without a cached entity (also after SetEntity(NULL)). The full statement is refuted: SetUri leaves a cached entity in place, SetEntity(NULL) finds the old entity again, and unloading a document overwrites the id that SetUri just stored."},
 {"property": "C50", "status": "partial", "theorems": ["C50_strip_refuted", "C50_names_partial", "C50_root_stack"], "note": "Root stack proved. Names: refuted for names without separator and names longer than MAX_PATH, proved otherwise."},
 {"property": "C51", "status": "partial", "theorems": ["C51_targets_fit_partial", "C51_calls_succeed_partial", "C51_same_geometry_refuted", "C51_rejected_geometry_loses_old"], "note": "Proved for every history without undefined behaviour; SetGeometry with the geometry the target alone tracks releases it and then uses it (refuted)."},
 {"property": "C52", "status": "partial", "theorems": ["C52_approach_partial", "C52_patch_partial", "C52_half_turn_refuted", "C52_farther_refuted", "C52_patch_refuted", "C52_float_hang_refuted"], "note": "Full statement refuted: the turn is 2*Pif (float) while the comparison uses the double Pi, so an angle can end up to 2*Pif-Pi away (9e-8 over half a turn), and angles in that band move farther away. Proved for all angles in exact arithmetic: AngleApproach returns, moves by whole turns, ends within 2*Pif-Pi, leaves angles within half a turn alone, and no other number of turns comes closer by more than the excess; PatchEuler returns the closer of the two ways of writing the rotation. In float arithmetic the loop does not end for angles over about 1.3e8 or infinity."},
 {"property": "C53", "status": "partial", "theorems": ["C53_split_refuted", "C53_target_split_and_qualifier_partial"], "note": "Full statement refuted: a one-character target that is itself a separator is not split, because find_first_of gives up when the set is longer than the buffer. Everything else is proved. Numbers from 2147483600 overflow inside ToInt32 (see C11) and are excluded under the strict C++ rules."},
 {"property": "C54", "status": "partial", "theorems": ["C54_report_partial", "C54_report_refuted", "C54_callbacks"], "note": "full statement refuted: every callback that uses FUError deadlocks; proved for other callbacks: called once each, mutex free, result; the header says the result is whether the error is non-fatal, it is whether it is fatal"},
 {"property": "C55", "status": "partial", "theorems": ["C55_element_lifetimes_balanced_refuted", "C55_element_lifetimes_balanced_partial"], "note": "Full statement refuted: growing the buffer never destroys the old copies."},
 {"property": "C56", "status": "partial", "theorems": ["C56_append_linear_refuted"], "note": "Full statement refuted for every constant: growth by 32 elements is quadratic."},
 {"property": "C57", "status": "partial", "theorems": ["C57_word_list_refuted", "C57_word_list_partial"], "note": "Full statement refuted: words are appended to existing entries; proved for an empty output list."},
 {"property": "C58", "status": "partial", "theorems": ["C58_interleaved_refuted", "C58_interleaved_partial"], "note": "Full statement refuted for non-empty output lists; proved for empty ones."},
 {"property": "C59", "status": "partial", "theorems": ["C59_escape_refuted"], "note": "Refuted for every input: the result is always the empty text, because push_back appends behind the terminator."},
 {"property": "C60", "status": "partial", "theorems": ["C60_string_refuted", "C60_string_partial"], "note": "Full statement refuted for push_back, append of a character to an object without cells, pop_back of an empty string, growing resize, search of negative characters, find_first_of with a set longer than the buffer, find_last_of with two or more characters, order of texts with negative characters; everything else is proved."},
 {"property": "C61", "status": "partial", "theorems": ["C61_uri_print_parse_refuted", "C61_uri_print_parse_partial"], "note": "Full statement refuted for folders (a slash is added each time) and for query plus fragment; proved for files with a query or a fragment, any host and port up to 2147483599."},
 {"property": "C62", "status": "partial", "theorems": ["C62_attribute_refuted", "C62_attribute_round_trip_partial"], "note": "Refuted for texts with '%'; proved: exactly the texts without '%' survive."},
 {"property": "C63", "status": "proved", "theorems": ["C63_children_by_name"], "note": ""},
 {"property": "C64", "status": "partial", "theorems": ["C64_transform_refuted", "C64_transform_partial"], "note": "Refuted for matrices that pull the first corner beyond all others; proved to be right in exactly the other cases."},
 {"property": "C65", "status": "partial", "theorems": ["C65_transform_refuted", "C65_transform_partial"], "note": "Exact real arithmetic. Refuted for sheared axes; proved when the images of the axes are perpendicular."},
 {"property": "C66", "status": "proved", "theorems": ["C66_sphere_tests"], "note": "Exact real arithmetic."},
 {"property": "C67", "status": "partial", "theorems": ["C67_multi_safe", "C67_multi_agrees_partial", "C67_multi_agrees_refuted"], "note": "agreement refuted for BEZIER (tangent weights) and TCB; proved for LINEAR keys; memory safety proved for all key lists"},
 {"property": "C68", "status": "partial", "theorems": ["C68_indices_lost_refuted", "C68_indices_kept_partial"], "note": "Full statement refuted: when the owner is the first input at its offset the shared indices are cleared; proved when an earlier input can take over."},
 {"property": "C69", "status": "partial", "theorems": ["C69_read_back_partial", "C69_set_content_partial", "C69_read_back_refuted"], "note": "Proved for names that the cleaner leaves alone (and for the cleaned form of any name). Refuted for other names: they cannot be read back and may overwrite each other."},
 {"property": "C70", "status": "partial", "theorems": ["C70_axis_partial", "C70_axis_refuted", "C70_angles_add", "C70_same_rotations", "C70_euler_partial", "C70_euler_refuted", "C70_move_scale", "C70_clockwise"], "note": "Full statement refuted: an axis whose squared length is within 0.0001 of 1 but not 1 is not normalised, so the result is no rotation; EulerRotationMatrix drops angles below 0.0001. Proved for all other axes and angles; exact real arithmetic."},
 {"property": "C71", "status": "partial", "theorems": ["C71_decompose_partial", "C71_recompose_partial", "C71_recompose_refuted", "C71_pole_refuted"], "note": "Full statement refuted: Recompose multiplies the rotations in the other order than Decompose takes them apart; near the pole the angle is rounded to a right angle. Proved: the parts of Decompose compose to the matrix away from or exactly at the poles, and Recompose does when at most one rotation matters."},
 {"property": "C72", "status": "partial", "theorems": ["C72_look_at_partial", "C72_parallel_refuted", "C72_singular_refuted"], "note": "Full statement refuted when the viewing direction is parallel to up (degenerate or singular matrix). Proved for every other eye, target and up."},
 {"property": "C73", "status": "partial", "theorems": ["C73_axis_partial", "C73_euler_partial", "C73_north", "C73_south_refuted", "C73_euler_refuted"], "note": "Full statement refuted: ToEuler misses a factor 2 in the x angle and has the wrong sign at the south pole; ToAngleAxis replaces the axis of tiny rotations. Proved: ToAngleAxis otherwise, the y and z angles away from the poles, all angles exactly at the north pole."},
 {"property": "C74", "status": "partial", "theorems": ["C74_slerp_partial", "C74_slerp_refuted"], "note": "Full statement refuted: within 0.0001 of each other slerp always returns the first quaternion. Opposite quaternions divide by zero and are excluded. Proved for all other pairs and all t."},
 {"property": "C75", "status": "partial", "theorems": ["C75_round_trip_refuted", "C75_round_trip_partial", "C75_from_string_named", "C75_no_alias_refuted", "C75_no_alias_partial", "C75_from_string_injective_partial", "C75_to_string_injective", "C75_outside_is_fallback", "C75_keeps_unknown_refuted"], "note": "Full round trip refuted: FUDaeTextureFilterFunction::ToString has no LINEAR case and writes it as UNKNOWN; proved for every other enumerator of every enumeration. No-alias refuted by the empty interpolation string (read as BEZIER) and proved for every other string. 'None of the above' is not kept by FUDaeMorphMethod, FUDaeInfinity and FUDaeBlendMode. Membership, injectivity of ToString and the fallback text proved in full."},
 {"property": "C76", "status": "partial", "theorems": ["C76_find", "C76_choice", "C76_unique_partial", "C76_unique_refuted", "C76_legal_partial", "C76_legal_refuted"], "note": "Termination, frame, the exact choice and the search are proved for every history. Uniqueness is proved when the relatives have at most 513 different sub ids and refuted for 514 (the loop gives up and keeps a used text); legality is proved for a legal text or a free cleaned text and refuted otherwise (the numbered text is built from the uncleaned one)."},
 {"property": "C77", "status": "partial", "theorems": ["C77_stack", "C77_add", "C77_world", "C77_skew", "C77_skew_axes", "C77_inverse_symmetric", "C77_inverse_partial", "C77_inverse_refuted", "C77_inverse_missed_refuted", "C77_clone_partial", "C77_clone_refuted"], "note": "Exact real arithmetic. Stack order, world transform, AddTransform and skew are proved in full. IsInverse is proved for translations and exact rotation pairs, and refuted in general: short axes are compared before they are normalised, and opposite scales or turns by 90 and 270 degrees are missed. Clone copies all values but drops the sub ids of transformations."},
 {"property": "C78", "status": "partial", "theorems": ["C78_read", "C78_writable", "C78_round_trip_partial", "C78_list_partial", "C78_matrix_partial", "C78_vectors_partial", "C78_safe", "C78_list_safe", "C78_small_refuted", "C78_infinity_refuted", "C78_overread_refuted", "C78_plus_refuted", "C78_cr_refuted"], "note": "Proved in exact arithmetic: reading of all decimal texts, round trips to six digits, positions in lists, vectors and matrices, safety of texts without the letter I. Refuted: numbers below the machine epsilon are written as 0; INF, -INF and NaN are read as 0; a text ending in I or IN is read beyond its terminator; a plus sign is not understood; an exponent followed by a lone carriage return swallows the next number. Missing: floating point rounding of the reader; the fmt library is represented by its specification."},
 {"property": "C79", "status": "proved", "theorems": ["C79_content", "C79_no_leak", "C79_chars"], "note": "All closed. Blocks have a size and a life; each character cell is either unwritten or holds a character. Copies are C80. Appending a builder's own ToCharPtr() is not covered (it reads a buffer that is being replaced)."},
 {"property": "C80", "status": "partial", "theorems": ["C80_index_partial", "C80_rindex_partial", "C80_index_refuted", "C80_rindex_refuted", "C80_copy_refuted", "C80_blank_refuted"], "note": "Proved: index finds the first place of a character that occurs; rindex finds the last place unless it is place 0 and gives -1 for a character that does not occur. Refuted: index looks one cell too far (reads behind the block, or finds a stale character), rindex never looks at the first character, the implicit copy constructor shares the block (double deletion), the test for white space before a vector is always true."},
 {"property": "C81", "status": "partial", "theorems": ["C81_follow_partial", "C81_resize_refuted", "C81_resize_stale_refuted"], "note": "proved for every history without evaluations that does not shorten the list by resize(count, value); that function passes a negative offset and the old size to OnRemoval, so kept values lose their helpers and removed values keep them at negative places (both refuted)"},
 {"property": "C82", "status": "partial", "theorems": ["C82_evaluate_partial", "C82_evaluate_refuted", "C82_erase_refuted"], "note": "proved for histories in which no insertion or removal leaves a value with a helper in place while moving another one with a helper; otherwise only the first helper's address is checked and later ones write to the wrong value or outside the list (both refuted)"},
 {"property": "C83", "status": "partial", "theorems": ["C83_chains_partial", "C83_base", "C83_target", "C83_self_refuted", "C83_uri_refuted", "C83_clear_refuted"], "note": "Proved for all histories in which a skin that had a target is not given itself or a controller based on it and a target is set by URI only on skins that never had one; what SetBaseTarget and SetTarget do is stated exactly. The full claim is false: SetEntity(NULL) keeps the id, so a skin accepts itself as its target and GetBaseGeometry never returns; the same with SetTargetUri; SetTarget(NULL) does not take the target away."},
 {"property": "C84", "status": "partial", "theorems": ["C84_fit_partial", "C84_targets", "C84_middle_refuted", "C84_mesh_refuted", "C84_geometry_refuted"], "note": "Proved for all histories in which besides the conditions of C83 no base is changed under other controllers, no used geometry is changed, the influences of a skin with a target are not set by hand and no target is set by URI; what AddTarget and SetGeometry do is stated exactly. The full claim is false without each of the first two; a target given the geometry it has, when no library lists it, goes on with the released geometry."},
 {"property": "C85", "status": "partial", "theorems": ["C85_round_trip_partial", "C85_points_round_trip_refuted", "C85_large_face_round_trip_refuted"], "note": "Proved for every consistent set except points and polylists with a face larger than the number of positions, for which it is false: points come back empty, the large face makes the reader fail and lose the indices.  libxml2 (tree to file and back) is not modelled."},
 {"property": "C86", "status": "partial", "theorems": ["C86_polygons_import_partial", "C86_triangles_import_partial", "C86_vertex_offset_refuted"], "note": "Proved when the VERTEX input is at offset 0; false otherwise: the per-vertex inputs keep offset 0 and their numbers are mixed with those of the other input at offset 0.  <polylist> elements only as part of C85."},
 {"property": "C87", "status": "partial", "theorems": ["C87_placement_partial", "C87_x_z_refuted", "C87_small_unit_refuted", "C87_close_units_refuted", "C87_look_at_refuted"], "note": "Proved for documents in which only the document's asset gives unit and up-axis, without look-at transformations, zero rotation axes or matrices that are not affine, for a quotient of units that is 1 or not near 1.  False otherwise: from X to Z (and back) everything is turned so that the old up-axis points along Y; a wanted unit below 1e-4 is ignored; a quotient near 1 changes the asset but no length; a look-at is turned on one side only.  Animations, NURBS, lights, physics and orthographic cameras are not modelled or not converted by the code."},
 {"property": "C88", "status": "partial", "theorems": ["C88_entities_partial", "C88_inherited_refuted", "C88_library_refuted", "C88_own_asset_refuted"], "note": "Proved for entities whose own asset gives both values, or that have no asset, with the document's asset before the library's.  False as stated: the library's asset is hidden by the document's; an own asset without a unit hides the document's; a node does not inherit from its parent because the parent's asset has been reset by then."},
 {"property": "C89", "status": "partial", "theorems": ["C89_there_and_back_partial", "C89_again_partial", "C89_own_asset_refuted", "C89_library_refuted", "C89_detour_refuted"], "note": "Proved for documents in which only the document's asset gives unit and up-axis, for all transformations; cameras that got nodes of their own keep them.  False with entity assets: there and back leaves a camera with its own asset in the intermediate unit, and with a library asset as well a second conversion to the same unit converts again.  X over Y to Z is not X to Z."},
 {"property": "C90", "status": "partial", "theorems": ["C90_round_trip_partial", "C90_writable", "C90_exact_partial", "C90_normalized_refuted", "C90_near_one_refuted", "C90_more_words_refuted", "C90_fewer_words_refuted"], "note": "Proved for all skins whose joint ids are words: ids, joint numbers and matrices come back, and weights up to the two changes below; exact for short numbers with weights that sum up to about 1.  False as stated: weights that do not sum up to 1 are divided by their sum; weights within 1e-4 of 1 become 1; joint ids with blanks make the reader use a bind pose behind the list; an empty id shifts the joints."},
 {"property": "C91", "status": "partial", "theorems": ["C91_import_partial", "C91_accessor_refuted", "C91_third_input_refuted"], "note": "Proved for all elements with two inputs in <joints> and two in <vertex_weights>, in any order and with either offset first.  False as stated: the offset and stride of accessors are ignored, and a third input makes the reader misread the numbers."},
 {"property": "C92", "status": "partial", "theorems": ["C92_refused_partial", "C92_no_numbers_refuted", "C92_count_refuted", "C92_poses_refuted", "C92_bind_shape_refuted", "C92_empty_v_refuted", "C92_weights_refuted"], "note": "Proved: other elements and elements without <joints> or <vertex_weights> are left out or refused, described ones are read.  False as stated: missing <v>, a count larger than the entries of <vcount>, fewer poses than names, an empty <bind_shape_matrix>, an empty <v> with influences and missing weights are all used without a check."},
 {"property": "C93", "status": "partial", "theorems": ["C93_round_trip_partial", "C93_writable", "C93_unknown_method_refuted", "C93_more_words_refuted", "C93_no_targets_refuted"], "note": "Proved for all morphs with ids that are words and the methods NORMALIZED and RELATIVE; geometries that the document does not have become targets without geometry.  False as stated: UNKNOWN becomes NORMALIZED; ids with blanks make the reader use weights behind the list; a <morph> without <targets> uses a NULL pointer.  The animations of the weights are not modelled."},
 {"property": "C94", "status": "proved", "theorems": ["C94_import"], "note": "The meaning of a channel is a separate specification (describes, channel_is in AnimSpec.v); demo on a foreign element with two curves, relative tangents, infinities and a driver."},
 {"property": "C95", "status": "partial", "theorems": ["C95_round_trip_partial", "C95_writable", "C95_lucky_memory_partial", "C95_interpolation_refuted", "C95_keyless_refuted"], "note": "Everything but the interpolations is kept for all trees whose elements have ids with different CRCs; the interpolations are those of uninitialised memory (interpolations_(size) followed by push_back, FAXAnimationExport.cpp:407-410): for every curve there is memory with which no key keeps its interpolation; with the right numbers in it everything is kept. A curve without keys loses infinities and driver."},
 {"property": "C96", "status": "partial", "theorems": ["C96_all_channels_partial", "C96_later_channels_refuted"], "note": "All channels are loaded if all describe curves; behind a channel whose sampler does not exist all valid channels of the animation are dropped (the status is never reset)."},
 {"property": "C97", "status": "partial", "theorems": ["C97_found_partial", "C97_collision_refuted", "C97_shared_ids_refuted", "C97_long_id", "C97_slash"], "note": "The named element is found if no other id has the same CRC32; '#buckeroo' finds the element 'plumless'. Curves whose ids agree after cleaning ('/' and '_', or an animation id of 512 characters) are read back with the data of the first."},
 {"property": "C98", "status": "partial", "theorems": ["C98_described_partial", "C98_tangents_refuted", "C98_words_refuted", "C98_values_refuted", "C98_tcb_refuted"], "note": "Holds when arrays and accessors agree; four malformed documents read uninitialised values or behind lists."},
 {"property": "C99", "status": "partial", "theorems": ["C99_transforms_partial", "C99_writable", "C99_sids_distinct", "C99_equal_sids_refuted", "C99_lost_sid_refuted", "C99_skew_refuted"], "note": "Kinds, order and numbers of all lists of transformations come back (axes of skews normalised); sub ids if legal and different. Refuted: equal sub ids are renamed, a sub id used 99 times is dropped, a skew with a tiny axis cannot be read."}
]}
