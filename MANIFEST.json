{"claims": [
  {"property": "C01", "status": "proved", "theorems": ["C01_history_well_formed", "C01_step_well_formed"], "note": "Histories also include flip_edge, split_face (inside) and split_edge on interior edges. The only bound is that table indices fit a usize."},
  {"property": "C02", "status": "proved", "theorems": ["C02_add_triangle_refines"], "note": "Full three-way outcome, on every well-formed mesh (reachable meshes are well formed by C01)."},
  {"property": "C03", "status": "proved", "theorems": ["C03_add_triangle_no_panic", "C03_remove_triangle_no_panic", "C03_flip_edge_no_panic"], "note": "Panics are None in the model, including the step limits of the border walks."},
  {"property": "C04", "status": "proved", "theorems": ["C04_remove_triangle_exact"], "note": ""},
  {"property": "C05", "status": "proved", "theorems": ["C05_remove_after_add_restores"], "note": ""},
  {"property": "C06", "status": "proved", "theorems": ["C06_validate_accepts", "C06_validate_accepts_history", "C06_validate_half_edges_accepts"], "note": "The history version covers every legal sequence of edits."},
  {"property": "C07", "status": "proved", "theorems": ["C07_directed_edge_one_face", "C07_undirected_edge_two_faces"], "note": ""},
  {"property": "C08", "status": "proved", "theorems": ["C08_flip_edge"], "note": "The geometric degeneracy test is an arbitrary oracle."},
  {"property": "C09", "status": "proved", "theorems": ["C09_split_face"], "note": "Point location is an input of the model (the face returned by find_valid_face)."},
  {"property": "C10", "status": "proved", "theorems": ["C10_split_edge_interior", "C10_split_edge_existing"], "note": "The case of equal opposite corners is C61."},
  {"property": "C11", "status": "partial", "theorems": ["C11_split_border_refuted", "C11_split_border_panics_refuted", "C11_split_border_partial"], "note": "False of the code: witnesses by computation (see DESIGN.md findings). Proved for every border side: the call succeeds, the face is replaced by its two halves, all other faces, vertices, positions and sides are as the property says; missing is the ring around the hole and so well-formedness."},
  {"property": "C12", "status": "partial", "theorems": ["C12_border_edge_refuted", "C12_bow_tie_refuted", "C12_two_border_ends_refuted", "C12_inner_edge_partial"], "note": "false in general: border edges, end points with a second fan, inner edges between two border vertices; proved for inner edges with one fan at each end and an inner end"},
  {"property": "C13", "status": "proved", "theorems": ["C13_one_ring_complete", "C13_outgoing_is_fan", "C13_is_boundary_vertex", "C13_faces_around_vertex", "C13_vertex_touches_face", "C13_vertex_ring"], "note": "C13_outgoing_is_fan also says what is returned when the vertex has several fans."},
  {"property": "C14", "status": "partial", "theorems": ["C14_build_boundary_loops_refuted", "C14_single_face_heads_partial"], "note": "False of the code on a quad (witness); proved when one face meets each border half-edge at its head."},
  {"property": "C15", "status": "proved", "theorems": ["C15_face_queries", "C15_face_vertices_complete"], "note": ""},
  {"property": "C16", "status": "proved", "theorems": ["C16_add_deferred_is_one_by_one"], "note": "same faces under the same ids, same positions; the returned list is the list of the accepted ids; capacity of the index type assumed"},
  {"property": "C17", "status": "proved", "theorems": ["C17_remove_deferred_exact", "C17_debug_after_collapse_refuted"], "note": "any list, with repeated, removed or out-of-range ids; with debug assertions every stored twin must be in range, which an earlier edge collapse breaks"},
  {"property": "C18", "status": "partial", "theorems": ["C18_faces_around_face_refuted", "C18_faces_around_corner_partial"], "note": "False of the code (witness); what it does return is proved."},
  {"property": "C19", "status": "proved", "theorems": ["C19_remove_unused_vertices"], "note": ""},
  {"property": "C20", "status": "proved", "theorems": ["C20_pack_key3_injective", "C20_pack_key3_fits", "C20_pack_key3_collisions"], "note": ""},
  {"property": "C21", "status": "partial", "theorems": ["C21_floor_partial", "C21_monotone_partial", "C21_overflow_refuted"], "note": "Floor in range and saturation above and at non-finite values are proved; every finite double below -2^63 makes the code compute i64::MIN - 1 (witness)."},
  {"property": "C22", "status": "partial", "theorems": ["C64_no_duplicates", "C64_answers", "C64_distinct", "C22_lazy_refuted"], "note": "True for CgarRational (C64); false for LazyExact, whose hash keys come from the stored approximations (witness)."},
  {"property": "C23", "status": "partial", "theorems": ["C23_same_cell_partial", "C23_refuted"], "note": "False across grid cell boundaries, where only exactly equal positions are merged (witness); proved for a vertex in the same cell."},
  {"property": "C24", "status": "proved", "theorems": ["C24"], "note": "for CgarRational and every ordering select_nth_unstable_by may produce; C24_f64_refuted and C24_lazy_refuted show that the double bounds of CgarF64 and LazyExact are not outward-safe"},
  {"property": "C25", "status": "proved", "theorems": ["C25"], "note": "for CgarRational"},
  {"property": "C26", "status": "partial", "theorems": ["C26_partial", "C26_refuted"], "note": "false: insert next to an invalidated leaf counts the leaf as valid; proved: the total is exact and the valid count is never too small"},
  {"property": "C27", "status": "proved", "theorems": ["C27_from_points", "C27_union", "C27_intersects", "C27_inflated", "C27_inflated_query_tol"], "note": "any dimension, CgarRational"},
  {"property": "C28", "status": "proved", "theorems": ["C28_exact", "C28_no_panic", "C28_eq"], "note": ""},
  {"property": "C29", "status": "proved", "theorems": ["C29_depth", "C29_stack", "C29_recorded", "C29_run"], "note": ""},
  {"property": "C30", "status": "partial", "theorems": ["C30_sign_partial", "C30_sign_exact_partial", "C30_additive_partial", "C30_enclosure_partial", "C30_determinant_partial", "C30_sign_refuted", "C30_folding_refuted"], "note": "False as stated: a rational leaf that is not a double enters the filter with radius zero, also after folding forced doubles (witnesses). Proved for sums, differences and negations of doubles, for products that do not underflow, for the orient2d determinant, and whenever the filter is undecided."},
  {"property": "C31", "status": "partial", "theorems": ["C31_cmp_ref_partial", "C31_additive_partial", "C31_zeros_refuted", "C31_order_refuted"], "note": "-0.0 and 0.0 are == but cmp_ref orders them, and the sign errors of C30 carry over to the order (witnesses); proved for filter-safe values other than two zeros of different sign."},
  {"property": "C32", "status": "partial", "theorems": ["C32_partial_cmp_partial", "C32_transitive_refuted", "C32_equal_refuted", "C32_signed_zero_refuted"], "note": "The tolerance makes the comparison intransitive and Equal for values that are not == (witnesses); totality, antisymmetry and correctness of Less/Greater are proved."},
  {"property": "C33", "status": "partial", "theorems": ["C33_trichotomy_partial", "C33_meaning_partial", "C33_trichotomy_refuted"], "note": "True except at the two values plus and minus EPS, where none of the tests holds."},
  {"property": "C34", "status": "proved", "theorems": ["C34_next_up_above", "C34_next_down_below", "C34_truncation_bracket", "C34_adjacent", "C34_adjacent_at_zero_refuted"], "note": "The claim holds; the refutation records that at zero the result is not the adjacent double."},
  {"property": "C35", "status": "proved", "theorems": ["C35_are_collinear", "C35_are_collinear_degenerate"], "note": ""},
  {"property": "C36", "status": "partial", "theorems": ["C36_is_point_on_segment_partial", "C36_is_point_on_segment_start_refuted"], "note": "False at the start point of every non-degenerate segment; proved for every other point."},
  {"property": "C37", "status": "proved", "theorems": ["C37_point_u_on_segment", "C37_point_u_on_segment_degenerate", "C37_parameter_unique", "C37_midpoint", "C37_parameter_of_point"], "note": ""},
  {"property": "C38", "status": "partial", "theorems": ["C38_orient_2_partial", "C38_orient_2_refuted", "C38_orient_2_vertical_refuted", "C38_orient_3_partial", "C38_orient_3_refuted"], "note": "False of the code: the result is the determinant times powers of the pivots, given exactly."},
  {"property": "C39", "status": "partial", "theorems": ["C39_segment_segment_2_partial", "C39_vertical_refuted", "C39_collinear_gap_refuted"], "note": "Right for non-vertical segments that, if collinear, meet; false otherwise (witnesses)."},
  {"property": "C40", "status": "partial", "theorems": ["C40_segment_segment_3_partial", "C40_not_parallel", "C40_collinear_gap_refuted"], "note": "Complete for non-parallel and for parallel segments, except collinear ones with a gap, where it is false (witness)."},
  {"property": "C41", "status": "partial", "theorems": ["C41_edge_edge_first_partial", "C41_edge_edge_refuted", "C41_edge_edge_missed_refuted"], "note": "False of the code: the point need not be on the second edge, and proper crossings are missed."},
  {"property": "C42", "status": "proved", "theorems": ["C42_ray_segment"], "note": ""},
  {"property": "C43", "status": "proved", "theorems": ["C43_ray_triangle", "C43_ray_triangle_parallel"], "note": ""},
  {"property": "C44", "status": "proved", "theorems": ["C44_barycentric"], "note": ""},
  {"property": "C45", "status": "partial", "theorems": ["C45_triangle_2_partial", "C45_weights_exist", "C45_triangle_2_refuted", "C45_triangle_3_partial", "C45_triangle_3_off_plane_refuted"], "note": "False for points of an edge line outside the triangle and, in space, for points off the plane; proved for the rest."},
  {"property": "C46", "status": "partial", "theorems": ["C46_orient2d_partial", "C46_orient2d_refuted", "C46_incircle_partial", "C46_circumcentre_exists", "C46_incircle_refuted"], "note": "Both return zero below a tolerance although the scalar is exact (witnesses); the sign is proved right whenever the result is not zero."},
  {"property": "C47", "status": "proved", "theorems": ["C47_from_points_3", "C47_from_points_3_proper", "C47_from_points_2", "C47_origin_3", "C47_origin_3_total", "C47_origin_2", "C47_canonicalized_same_points", "C47_canonicalized_unique", "C47_canonicalized_lead", "C47_basis_3", "C47_basis_3_spans", "C47_basis_2", "C47_any_perpendicular_4"], "note": ""},
  {"property": "C48", "status": "proved", "theorems": ["C48_det", "C48_det_multiplicative", "C48_det_transpose", "C48_det_identity", "C48_det_scale", "C48_det_laplace", "C48_product", "C48_product_assoc", "C48_product_identity", "C48_product_transpose", "C48_vector", "C48_vector_product", "C48_outer", "C48_lerp", "C48_rows_cols", "C48_inverse2", "C48_inverse3"], "note": "Over any exact field; the determinant of any size is mathcomp's."},
  {"property": "C49", "status": "proved", "theorems": ["C49_bbox2d", "C49_bbox3d"], "note": ""},
  {"property": "C50", "status": "proved", "theorems": ["C50_off_round_trip", "C50_same_doubles"], "note": "printing and parsing of doubles are the standard library's: the theorem assumes that the text of a double is a non-empty word and parses back (number_text); 6 times the number of faces must fit a usize"},
  {"property": "C51", "status": "proved", "theorems": ["C51_obj_round_trip"], "note": "printing and parsing of doubles are the standard library's: the theorem assumes that the text of a double is a non-empty word and parses back (number_text); 6 times the number of faces must fit a usize"},
  {"property": "C52", "status": "proved", "theorems": ["C52_stl_round_trip"], "note": "printing and parsing of doubles are the standard library's: the theorem assumes that the text of a double is a non-empty word and parses back (number_text); 6 times the number of faces must fit a usize"},
  {"property": "C53", "status": "partial", "theorems": ["C53_build_partial", "C53_distinct", "C53_refuted"], "note": "proved: three distinct input points, clockwise by at most a relative 2e-10 of the coordinates; refuted: orient2d rounds small determinants to zero, so a small triangle far from the origin comes out clockwise"},
  {"property": "C54", "status": "partial", "theorems": ["C54_build_partial", "C54_build_refuted", "C54_batch_refuted", "C54_points_lost"], "note": "proved for build when the middle of the y range is not negative and the coordinates are doubles; refuted otherwise: the apex is (cy+2)r instead of cy+2r, and the batch builder doubles the centre instead of halving it, so all points can be lost"},
  {"property": "C55", "status": "partial", "theorems": ["C55_outside_hull_partial", "C55_hole_refuted", "C55_far_refuted"], "note": "Points separated from the surface by a plane are Outside; refuted in both directions otherwise: the hole of a ring is Inside, a point enclosed by faces farther than 10^7 is Outside."},
  {"property": "C56", "status": "partial", "theorems": ["C56_face_area_2", "C56_face_area_2_scales", "C56_face_area_3_squared_partial", "C56_face_area_3_flat_partial", "C56_face_area_3_refuted"], "note": "The plane case is proved; in space the code returns the square of the area."},
  {"property": "C57", "status": "proved", "theorems": ["C57_exact", "C57_from_num_den", "C57_eq", "C57_order", "C57_sign", "C57_hash", "C57_digits", "C57_hash_collisions"], "note": ""},
  {"property": "C58", "status": "proved", "theorems": ["C58_edge_new_symmetric", "C58_edge_new_faithful", "C58_edge_new_sorted", "C58_canonical_edge_symmetric", "C58_canonical_edge_faithful", "C58_point_order"], "note": "canonical_edge_indices is covered by C59_canonical_edge."},
  {"property": "C59", "status": "proved", "theorems": ["C59_adjacent_faces", "C59_are_faces_adjacent", "C59_half_edge_between", "C59_edge_half_edges", "C59_are_vertices_connected", "C59_canonical_edge"], "note": ""},
  {"property": "C60", "status": "proved", "theorems": ["C60_link_condition"], "note": ""},
  {"property": "C61", "status": "partial", "theorems": ["C61_split_edge_pillow_refuted"], "note": "False of the code: witness by computation."},
  {"property": "C62", "status": "proved", "theorems": ["C62_point_u_on_segment_with_tolerance"], "note": ""},
  {"property": "C63", "status": "partial", "theorems": ["C63_parameter_t_2", "C63_parameter_t_3_partial", "C63_parameter_t_3_refuted"], "note": "True in the plane; false in space for edges parallel to the z axis (witness), because only two coordinates are read."},
  {"property": "C64", "status": "proved", "theorems": ["C64_no_duplicates", "C64_answers", "C64_distinct", "C64_no_panic", "C64_f64_no_duplicates"], "note": ""},
  {"property": "C65", "status": "proved", "theorems": ["C65"], "note": ""},
  {"property": "C66", "status": "proved", "theorems": ["C66_root", "C66_get_aabb"], "note": ""},
  {"property": "C67", "status": "proved", "theorems": ["C67", "C67_recorded_le"], "note": ""},
  {"property": "C68", "status": "proved", "theorems": ["C68_longest_axis", "C68_center"], "note": ""},
  {"property": "C69", "status": "proved", "theorems": ["C69_read_stl_total", "C69_rational_refuted"], "note": "proved for scalars that hold every double (CgarF64, LazyExact); CgarRational panics on NaN and infinite coordinates"},
  {"property": "C70", "status": "partial", "theorems": ["C70_read_off_partial", "C70_read_obj_partial", "C70_read_off_refuted", "C70_read_obj_refuted", "C70_no_panic_refuted"], "note": "refuted: a face that repeats an index gives a broken mesh, an index out of range panics; proved: the result is well formed when no face repeats an index"},
  {"property": "C71", "status": "proved", "theorems": ["C71_comments_ignored", "C71_blank_lines_ignored"], "note": ""},
  {"property": "C72", "status": "proved", "theorems": ["C72_insert"], "note": ""},
  {"property": "C73", "status": "proved", "theorems": ["C73_rebuild", "C73_constraints"], "note": ""},
  {"property": "C74", "status": "proved", "theorems": ["C74_constraints", "C74_batch", "C74_exit"], "note": ""},
  {"property": "C75", "status": "proved", "theorems": ["C75_constraints", "C75_insert", "C75_exact_walk_refuted"], "note": "for coordinates that always have a double approximation (CgarRational); the exact walk, reachable for LazyExact coordinates with a loose ball, can destroy an earlier constraint"},
  {"property": "C76", "status": "proved", "theorems": ["C76_split"], "note": ""},
  {"property": "C77", "status": "partial", "theorems": ["C77_batch_order_partial", "C77_batch_order_refuted"], "note": "proved when every job has at least three points; refuted: jobs with fewer points are moved to the front"},
  {"property": "C78", "status": "partial", "theorems": ["C78_flip_partial", "C78_inserted_refuted", "C78_dropped_refuted"], "note": "refuted: flips do not require a convex quadrilateral, so triangles overlap after a reported insertion and after a silently dropped one; proved: a flip whose diagonals cross keeps the total area"},
  {"property": "C79", "status": "partial", "theorems": ["C79_rewrite_faces_refuted", "C79_rewrite_faces_by_nothing_refuted", "C79_rewrite_closed_partial"], "note": "refuted in general: the seeds and vertices returned by the deferred removal are dropped, so a hole the new triangles do not touch keeps self-looped borders; proved for closed meshes whose new triangles cover the rim and the corners of the removed faces; missing: meshes with a border"},
  {"property": "C80", "status": "proved", "theorems": ["C80_inner_edge_collapse", "C80_not_adjacent"], "note": "exact acceptance condition and exact result of the collapse of an inner edge; hypotheses met by the octahedron (octa_collapse)"},
  {"property": "C81", "status": "proved", "theorems": ["C81_flip_pass"], "note": ""},
  {"property": "C82", "status": "proved", "theorems": ["C82_smoothing"], "note": ""},
  {"property": "C83", "status": "proved", "theorems": ["C83_split_pass"], "note": "table sizes must fit in usize; hypotheses met by the octahedron (octa_surface)"},
  {"property": "C84", "status": "proved", "theorems": ["C84_collapse_pass"], "note": ""},
  {"property": "C85", "status": "partial", "theorems": ["C85_remesh_partial", "C85_one_iteration_partial", "C85_remesh_refuted"], "note": "proved while no iteration before the last leaves two opposite faces on the same vertices, in particular for one iteration; refuted in general: a collapse can leave such a pair, which a later split turns into an inconsistent mesh"},
  {"property": "C86", "status": "proved", "theorems": ["C86_tangential"], "note": ""},
  {"property": "C87", "status": "proved", "theorems": ["C87_cast_ray", "C87_sound"], "note": "Also without the assumption that the boxes contain the faces, a reported hit is a real crossing."},
  {"property": "C88", "status": "proved", "theorems": ["C88_point_in_mesh"], "note": "Exact characterisation of the three answers."},
  {"property": "C89", "status": "partial", "theorems": ["C89_face_tree_partial", "C89_boxes_refuted", "C89_removed_refuted"], "note": "Holds without removed faces and with double coordinates; refuted for a coordinate 1/3 and for a removed face."},
  {"property": "C90", "status": "partial", "theorems": ["C90_total", "C90_beside_partial", "C90_count_partial", "C90_refuted"], "note": "Never panics; the answer is the parity of the border sides whose next side meets the ray (the wrong side is tested); no above, below and to the right of the mesh; refuted for a quadrilateral of two triangles, in both directions."},
  {"property": "C91", "status": "proved", "theorems": ["C91_common_part", "C91_underflow_refuted"], "note": "The assumption on the magnitude comparison is needed: with sides of 2^-600 the doubles underflow and a point is reported although nothing is shared."},
  {"property": "C92", "status": "proved", "theorems": ["C92_same_points", "C92_degenerate_refuted"], "note": "For a first triangle without area tri_tri_intersection and the function with precomputation differ."},
  {"property": "C93", "status": "proved", "theorems": ["C93_contacts"], "note": ""},
  {"property": "C94", "status": "partial", "theorems": ["C94_level_edge_partial", "C94_tilted_edge_refuted"], "note": "Holds for planes parallel to two axes; refuted for tilted planes: the dropped coordinate is copied from the first corner."},
  {"property": "C95", "status": "partial", "theorems": ["C95_level_sound_partial", "C95_tilted_refuted", "C95_touch_refuted"], "note": "Every reported point is shared if the plane is parallel to two axes; refuted in tilted planes and for triangles that touch in one corner. Missing: that the polygon covers everything shared."},
  {"property": "C96", "status": "proved", "theorems": ["C96_segments", "C96_point_refuted"], "note": "The assumption that the first segment is not a point is needed."},
  {"property": "C97", "status": "proved", "theorems": ["C97_hull"], "note": ""},
  {"property": "C98", "status": "proved", "theorems": ["C98_remove_invalidated_faces"], "note": ""},
  {"property": "C99", "status": "proved", "theorems": ["C99_remove_duplicate_vertices", "C99_borders_not_welded_refuted"], "note": "The result need not be well formed: borders that meet after the merge are not welded. LazyExact keys break the assumption (C22)."},
  {"property": "C100", "status": "proved", "theorems": ["C100_boolean_result"], "note": "The classification is arbitrary."},
  {"property": "C101", "status": "proved", "theorems": ["C101_boolean_result_well_formed"], "note": ""},
  {"property": "C102", "status": "proved", "theorems": ["C102_boolean_result_closed"], "note": ""},
  {"property": "C103", "status": "proved", "theorems": ["C103_find_valid_half_edge", "C103_face_from_vertices"], "note": ""},
  {"property": "C104", "status": "proved", "theorems": ["C104_classify_faces_3", "C104_classify_faces_2"], "note": "The location test is an arbitrary function of the face."},
  {"property": "C105", "status": "proved", "theorems": ["C105_classification_is_true", "C105_second_region_refuted"], "note": "Without the connection a second inside region is missed (refuted)."},
  {"property": "C106", "status": "proved", "theorems": ["C106_boolean_of_truth"], "note": ""},
  {"property": "C107", "status": "proved", "theorems": ["C107_marks", "C107_one_left"], "note": ""},
  {"property": "C108", "status": "proved", "theorems": ["C108_triangles"], "note": ""},
  {"property": "C109", "status": "proved", "theorems": ["C109_links"], "note": "The links between segments are never read and not modelled."},
  {"property": "C110", "status": "proved", "theorems": ["C110_segments", "C110_border_refuted"], "note": "For open meshes the search can panic (refuted)."},
  {"property": "C111", "status": "proved", "theorems": ["C111_empty", "C111_removed_refuted"], "note": "With removed faces segments are reported although the surfaces do not meet (refuted)."},
  {"property": "C112", "status": "partial", "theorems": ["C112_circumcircle_partial", "C112_filter_partial", "C112_filter_refuted"], "note": "The exact test is right up to its own thresholds, the filter where its centre and radius are accurate; far from the origin the filter decides wrongly (refuted)."},
  {"property": "C113", "status": "proved", "theorems": ["C113_allocation", "C113_distance", "C113_after_search"], "note": "The spatial hash is represented by the search over all vertices."},
  {"property": "C114", "status": "proved", "theorems": ["C114_exact", "C114_small_refuted"], "note": "Without the condition on distances the ends are merged (refuted)."},
  {"property": "C115", "status": "proved", "theorems": ["C115_jobs", "C115_after_allocation", "C115_after_search"], "note": "The hash maps are walked in an arbitrary order."},
  {"property": "C116", "status": "proved", "theorems": ["C116_chains"], "note": "The comparisons in double precision are modelled bit for bit; tolerances in the statement cover them."},
  {"property": "C117", "status": "partial", "theorems": ["C117_refuted", "C116_chains"], "note": "False for segments that end in a corner of the face; C116 covers the others."},
  {"property": "C118", "status": "proved", "theorems": ["C118_surfaces_apart"], "note": "The whole operation is modelled; here no face is cut."},
  {"property": "C119", "status": "proved", "theorems": ["C119_separated"], "note": "Coordinates are arbitrary rationals up to a million."},
  {"property": "C120", "status": "partial", "theorems": ["C120_refuted", "C119_separated"], "note": "False for operands in general position whose faces cut each other; C119 has the separated ones."},
  {"property": "C121", "status": "partial", "theorems": ["C121_vertex_ray_partial", "C121_projects", "C121_no_face", "C121_backwards_refuted"], "note": "complete description for directions that do not point backwards along a side; for those the ray leaves the face at once, but the code reports the side as collinear"},
  {"property": "C122", "status": "partial", "theorems": ["C122_vertex_ray_3_partial", "C122_misses_refuted", "C122_false_hit_refuted"], "note": "refuted: the edge parameter has the wrong sign, so every direction into the face is missed and directions that leave the face get a hit that is not on the ray; right along the sides"},
  {"property": "C123", "status": "proved", "theorems": ["C123_location", "C123_flat"], "note": "any dimension; the place is that of the foot of the point on the plane of the face"},
  {"property": "C124", "status": "partial", "theorems": ["C124_plane_partial", "C124_space_partial", "C124_sound", "C124_space_refuted", "C124_plane_refuted", "C124_flat_refuted"], "note": "refuted: in space the face named need not hold the point, in the plane a point in another component panics, a flat face met panics; proved: in the plane the exact place for faces reachable from the start, in space an answer from every start with the place of the foot, and the face itself if the point projects on no other; soundness in any dimension"},
  {"property": "C125", "status": "proved", "theorems": ["C125_containing", "C125_sound", "C125_inside"], "note": "in space; a point on a side or corner of a face is in no answer, as the comment in the code says"},
  {"property": "C126", "status": "partial", "theorems": ["C126_inside", "C126_edge", "C126_border", "C126_split_face_plane_partial", "C126_split_face_space_partial", "C126_space_refuted"], "note": "proved for points inside a face, on inner sides and on border sides, in any dimension; from the start face on, in the plane for faces that can be reached and in space for points with no foot on another face; refuted in space otherwise; for border sides the mesh is not well formed afterwards (C11)"},
  {"property": "C127", "status": "partial", "theorems": ["C127_segments_partial", "C127_near_end_refuted"], "note": "proved for all pairs of meshes without removed faces whose sides have positive length, for points more than a millionth of the side away from its ends; refuted for points nearer to an end"},
  {"property": "C128", "status": "partial", "theorems": ["C128_through_refuted", "C127_segments_partial"], "note": "false: only points and stretches on sides of both meshes are listed (C127), so a side through the inside of a face leaves no segment there"},
  {"property": "C129", "status": "proved", "theorems": ["C129_jobs"], "note": "the hash map is walked in an arbitrary order"},
  {"property": "C130", "status": "partial", "theorems": ["C130_chains_partial", "C130_small_refuted"], "note": "proved for jobs in the unit square: cuts between points other than corners, and the origin of each segment; the sides if they are at least a tenth long and no point is close to a side without being on it; refuted for small faces"},
  {"property": "C131", "status": "proved", "theorems": ["C131_after_search"], "note": "composed with the model of the search in the plane (C127) and of the allocation (C113)"},
  {"property": "C132", "status": "proved", "theorems": ["C132_sides_apart"], "note": "composed of the models of all steps; the classification is stated with what point_in_mesh_2 counts (C90)"},
  {"property": "C133", "status": "proved", "theorems": ["C133_under"], "note": "follows the run of C132 with the point location above and below a mesh"},
  {"property": "C134", "status": "partial", "theorems": ["C134_beside_refuted", "C134_nested_refuted", "C133_under"], "note": "refuted for operands side by side and for nested operands; C133 is the part that holds for operands one above the other"},
  {"property": "C135", "status": "partial", "theorems": ["C135_overlap_refuted"], "note": "refuted: two overlapping triangles; no positive part is proved"},
  {"property": "C136", "status": "partial", "theorems": ["C136_descendants", "C136_left_over_partial", "C136_left_over_space_partial", "C136_plane_refuted", "C136_corner_refuted", "C136_space_refuted"], "note": "proved for half-edges with recorded parts in use; without them the answer is in use and fits a place of the foot of the point, but that it holds the point is refuted"},
  {"property": "C137", "status": "partial", "theorems": ["C137_live_partial", "C137_neighbours_partial", "C137_total_partial", "C137_removed_refuted", "C137_panic_refuted"], "note": "proved for the entries of faces in use, and total if every removed face's half-edge is removed too; false for other removed faces: they get neighbours, or the call panics"},
  {"property": "C138", "status": "proved", "theorems": ["C138_boundary_map"], "note": ""},
  {"property": "C139", "status": "proved", "theorems": ["C139_half_edge", "C139_tolerance", "C139_some_side", "C139_removed"], "note": ""},
  {"property": "C140", "status": "partial", "theorems": ["C140_weights_partial", "C140_outside_refuted", "C140_off_plane_refuted"], "note": "proved for points of the closed triangle, for points of its plane off the three edge lines and for flat faces; refuted for points on an edge line outside the triangle and for points off the plane"},
  {"property": "C141", "status": "partial", "theorems": ["C141_area", "C141_boundary_vertices_partial", "C141_isolated_refuted", "C141_bowtie_refuted"], "note": "the area is proved; boundary_vertices is proved if every vertex is in use with a single fan and refuted otherwise"},
  {"property": "C142", "status": "partial", "theorems": ["C142_returns", "C142_accepted", "C142_beside_ring_partial", "C142_interior_refuted"], "note": "that it returns, with valid indices, is proved for all inputs; exactly the candidates beside the border are returned, so triangles without a side on the border are missed"},
  {"property": "C143", "status": "partial", "theorems": ["C143_root_mean_partial", "C143_same", "C143_mean_refuted"], "note": "proved that both functions are the double root mean square over each edge in use once; refuted that compute_average_edge_length is the mean length"},
  {"property": "C144", "status": "proved", "theorems": ["C144_smallest"], "note": ""},
  {"property": "C145", "status": "proved", "theorems": ["C145_centroid"], "note": ""},
  {"property": "C146", "status": "proved", "theorems": ["C146_frame", "C146_degenerate"], "note": ""},
  {"property": "C147", "status": "partial", "theorems": ["C147_panics", "C147_accepted_partial", "C147_range", "C147_total_partial", "C147_folds_refuted", "C147_total_refuted"], "note": "Proved: the test panics exactly if two of the four corners are less than 2^-537 apart, so the pass never panics when different vertices are farther apart; an accepted flip has four triangles that are not flat and a smaller number; the number is within -1 and 1. Refuted: the pass can turn a triangle of a flat mesh over, and it can panic on a well-formed mesh. Missing: how close the number is to the cosine of the smallest angle."}
]}
