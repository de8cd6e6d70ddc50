# property | status | theorems | note
C01 | proved | C01_history_well_formed C01_step_well_formed | Histories also include flip_edge, split_face (inside) and split_edge on interior edges. The only bound is that table indices fit a usize.
C02 | proved | C02_add_triangle_refines | Full three-way outcome, on every well-formed mesh (reachable meshes are well formed by C01).
C03 | proved | C03_add_triangle_no_panic C03_remove_triangle_no_panic C03_flip_edge_no_panic | Panics are None in the model, including the step limits of the border walks.
C04 | proved | C04_remove_triangle_exact | 
C05 | proved | C05_remove_after_add_restores | 
C06 | proved | C06_validate_accepts C06_validate_accepts_history C06_validate_half_edges_accepts | The history version covers every legal sequence of edits.
C07 | proved | C07_directed_edge_one_face C07_undirected_edge_two_faces | 
C08 | proved | C08_flip_edge | The geometric degeneracy test is an arbitrary oracle.
C09 | proved | C09_split_face | Point location is an input of the model (the face returned by find_valid_face).
C10 | proved | C10_split_edge_interior C10_split_edge_existing | The case of equal opposite corners is C61.
C11 | partial | C11_split_border_refuted C11_split_border_panics_refuted C11_split_border_partial | False of the code: witnesses by computation (see DESIGN.md findings). Proved for every border side: the call succeeds, the face is replaced by its two halves, all other faces, vertices, positions and sides are as the property says; missing is the ring around the hole and so well-formedness.
C12 | partial | C12_border_edge_refuted, C12_bow_tie_refuted, C12_two_border_ends_refuted, C12_inner_edge_partial | false in general: border edges, end points with a second fan, inner edges between two border vertices; proved for inner edges with one fan at each end and an inner end
C13 | proved | C13_one_ring_complete C13_outgoing_is_fan C13_is_boundary_vertex C13_faces_around_vertex C13_vertex_touches_face C13_vertex_ring | C13_outgoing_is_fan also says what is returned when the vertex has several fans.
C14 | partial | C14_build_boundary_loops_refuted C14_single_face_heads_partial | False of the code on a quad (witness); proved when one face meets each border half-edge at its head.
C15 | proved | C15_face_queries C15_face_vertices_complete | 
C16 | proved | C16_add_deferred_is_one_by_one | same faces under the same ids, same positions; the returned list is the list of the accepted ids; capacity of the index type assumed
C17 | proved | C17_remove_deferred_exact, C17_debug_after_collapse_refuted | any list, with repeated, removed or out-of-range ids; with debug assertions every stored twin must be in range, which an earlier edge collapse breaks
C18 | partial | C18_faces_around_face_refuted C18_faces_around_corner_partial | False of the code (witness); what it does return is proved.
C19 | proved | C19_remove_unused_vertices | 
C20 | proved | C20_pack_key3_injective C20_pack_key3_fits C20_pack_key3_collisions | 
C21 | partial | C21_floor_partial C21_monotone_partial C21_overflow_refuted | Floor in range and saturation above and at non-finite values are proved; every finite double below -2^63 makes the code compute i64::MIN - 1 (witness).
C22 | partial | C64_no_duplicates C64_answers C64_distinct C22_lazy_refuted | True for CgarRational (C64); false for LazyExact, whose hash keys come from the stored approximations (witness).
C23 | partial | C23_same_cell_partial C23_refuted | False across grid cell boundaries, where only exactly equal positions are merged (witness); proved for a vertex in the same cell.
C24 | proved | C24 | for CgarRational and every ordering select_nth_unstable_by may produce; C24_f64_refuted and C24_lazy_refuted show that the double bounds of CgarF64 and LazyExact are not outward-safe
C25 | proved | C25 | for CgarRational
C26 | partial | C26_partial, C26_refuted | false: insert next to an invalidated leaf counts the leaf as valid; proved: the total is exact and the valid count is never too small
C27 | proved | C27_from_points, C27_union, C27_intersects, C27_inflated, C27_inflated_query_tol | any dimension, CgarRational
C28 | proved | C28_exact C28_no_panic C28_eq | 
C29 | proved | C29_depth C29_stack C29_recorded C29_run | 
C30 | partial | C30_sign_partial C30_sign_exact_partial C30_additive_partial C30_enclosure_partial C30_determinant_partial C30_sign_refuted C30_folding_refuted | False as stated: a rational leaf that is not a double enters the filter with radius zero, also after folding forced doubles (witnesses). Proved for sums, differences and negations of doubles, for products that do not underflow, for the orient2d determinant, and whenever the filter is undecided.
C31 | partial | C31_cmp_ref_partial C31_additive_partial C31_zeros_refuted C31_order_refuted | -0.0 and 0.0 are == but cmp_ref orders them, and the sign errors of C30 carry over to the order (witnesses); proved for filter-safe values other than two zeros of different sign.
C32 | partial | C32_partial_cmp_partial C32_transitive_refuted C32_equal_refuted C32_signed_zero_refuted | The tolerance makes the comparison intransitive and Equal for values that are not == (witnesses); totality, antisymmetry and correctness of Less/Greater are proved.
C33 | partial | C33_trichotomy_partial C33_meaning_partial C33_trichotomy_refuted | True except at the two values plus and minus EPS, where none of the tests holds.
C34 | proved | C34_next_up_above C34_next_down_below C34_truncation_bracket C34_adjacent C34_adjacent_at_zero_refuted | The claim holds; the refutation records that at zero the result is not the adjacent double.
C35 | proved | C35_are_collinear C35_are_collinear_degenerate | 
C36 | partial | C36_is_point_on_segment_partial C36_is_point_on_segment_start_refuted | False at the start point of every non-degenerate segment; proved for every other point.
C37 | proved | C37_point_u_on_segment C37_point_u_on_segment_degenerate C37_parameter_unique C37_midpoint C37_parameter_of_point | 
C38 | partial | C38_orient_2_partial C38_orient_2_refuted C38_orient_2_vertical_refuted C38_orient_3_partial C38_orient_3_refuted | False of the code: the result is the determinant times powers of the pivots, given exactly.
C39 | partial | C39_segment_segment_2_partial C39_vertical_refuted C39_collinear_gap_refuted | Right for non-vertical segments that, if collinear, meet; false otherwise (witnesses).
C40 | partial | C40_segment_segment_3_partial C40_not_parallel C40_collinear_gap_refuted | Complete for non-parallel and for parallel segments, except collinear ones with a gap, where it is false (witness).
C41 | partial | C41_edge_edge_first_partial C41_edge_edge_refuted C41_edge_edge_missed_refuted | False of the code: the point need not be on the second edge, and proper crossings are missed.
C42 | proved | C42_ray_segment | 
C43 | proved | C43_ray_triangle C43_ray_triangle_parallel | 
C44 | proved | C44_barycentric | 
C45 | partial | C45_triangle_2_partial C45_weights_exist C45_triangle_2_refuted C45_triangle_3_partial C45_triangle_3_off_plane_refuted | False for points of an edge line outside the triangle and, in space, for points off the plane; proved for the rest.
C46 | partial | C46_orient2d_partial C46_orient2d_refuted C46_incircle_partial C46_circumcentre_exists C46_incircle_refuted | Both return zero below a tolerance although the scalar is exact (witnesses); the sign is proved right whenever the result is not zero.
C47 | proved | C47_from_points_3 C47_from_points_3_proper C47_from_points_2 C47_origin_3 C47_origin_3_total C47_origin_2 C47_canonicalized_same_points C47_canonicalized_unique C47_canonicalized_lead C47_basis_3 C47_basis_3_spans C47_basis_2 C47_any_perpendicular_4 | 
C48 | proved | C48_det C48_det_multiplicative C48_det_transpose C48_det_identity C48_det_scale C48_det_laplace C48_product C48_product_assoc C48_product_identity C48_product_transpose C48_vector C48_vector_product C48_outer C48_lerp C48_rows_cols C48_inverse2 C48_inverse3 | Over any exact field; the determinant of any size is mathcomp's.
C49 | proved | C49_bbox2d C49_bbox3d | 
C50 | proved | C50_off_round_trip, C50_same_doubles | printing and parsing of doubles are the standard library's: the theorem assumes that the text of a double is a non-empty word and parses back (number_text); 6 times the number of faces must fit a usize
C51 | proved | C51_obj_round_trip | printing and parsing of doubles are the standard library's: the theorem assumes that the text of a double is a non-empty word and parses back (number_text); 6 times the number of faces must fit a usize
C52 | proved | C52_stl_round_trip | printing and parsing of doubles are the standard library's: the theorem assumes that the text of a double is a non-empty word and parses back (number_text); 6 times the number of faces must fit a usize
C53 | partial | C53_build_partial, C53_distinct, C53_refuted | proved: three distinct input points, clockwise by at most a relative 2e-10 of the coordinates; refuted: orient2d rounds small determinants to zero, so a small triangle far from the origin comes out clockwise
C54 | partial | C54_build_partial, C54_build_refuted, C54_batch_refuted, C54_points_lost | proved for build when the middle of the y range is not negative and the coordinates are doubles; refuted otherwise: the apex is (cy+2)r instead of cy+2r, and the batch builder doubles the centre instead of halving it, so all points can be lost
C55 | partial | C55_outside_hull_partial, C55_hole_refuted, C55_far_refuted | Points separated from the surface by a plane are Outside; refuted in both directions otherwise: the hole of a ring is Inside, a point enclosed by faces farther than 10^7 is Outside.
C56 | partial | C56_face_area_2 C56_face_area_2_scales C56_face_area_3_squared_partial C56_face_area_3_flat_partial C56_face_area_3_refuted | The plane case is proved; in space the code returns the square of the area.
C57 | proved | C57_exact C57_from_num_den C57_eq C57_order C57_sign C57_hash C57_digits C57_hash_collisions | 
C58 | proved | C58_edge_new_symmetric C58_edge_new_faithful C58_edge_new_sorted C58_canonical_edge_symmetric C58_canonical_edge_faithful C58_point_order | canonical_edge_indices is covered by C59_canonical_edge.
C59 | proved | C59_adjacent_faces C59_are_faces_adjacent C59_half_edge_between C59_edge_half_edges C59_are_vertices_connected C59_canonical_edge | 
C60 | proved | C60_link_condition | 
C61 | partial | C61_split_edge_pillow_refuted | False of the code: witness by computation.
C62 | proved | C62_point_u_on_segment_with_tolerance | 
C63 | partial | C63_parameter_t_2 C63_parameter_t_3_partial C63_parameter_t_3_refuted | True in the plane; false in space for edges parallel to the z axis (witness), because only two coordinates are read.
C64 | proved | C64_no_duplicates C64_answers C64_distinct C64_no_panic C64_f64_no_duplicates | 
C65 | proved | C65 | 
C66 | proved | C66_root, C66_get_aabb | 
C67 | proved | C67, C67_recorded_le | 
C68 | proved | C68_longest_axis, C68_center | 
C69 | proved | C69_read_stl_total, C69_rational_refuted | proved for scalars that hold every double (CgarF64, LazyExact); CgarRational panics on NaN and infinite coordinates
C70 | partial | C70_read_off_partial, C70_read_obj_partial, C70_read_off_refuted, C70_read_obj_refuted, C70_no_panic_refuted | refuted: a face that repeats an index gives a broken mesh, an index out of range panics; proved: the result is well formed when no face repeats an index
C71 | proved | C71_comments_ignored, C71_blank_lines_ignored | 
C72 | proved | C72_insert | 
C73 | proved | C73_rebuild, C73_constraints | 
C74 | proved | C74_constraints, C74_batch, C74_exit | 
C75 | proved | C75_constraints, C75_insert, C75_exact_walk_refuted | for coordinates that always have a double approximation (CgarRational); the exact walk, reachable for LazyExact coordinates with a loose ball, can destroy an earlier constraint
C76 | proved | C76_split | 
C77 | partial | C77_batch_order_partial, C77_batch_order_refuted | proved when every job has at least three points; refuted: jobs with fewer points are moved to the front
C78 | partial | C78_flip_partial, C78_inserted_refuted, C78_dropped_refuted | refuted: flips do not require a convex quadrilateral, so triangles overlap after a reported insertion and after a silently dropped one; proved: a flip whose diagonals cross keeps the total area
C79 | partial | C79_rewrite_faces_refuted C79_rewrite_faces_by_nothing_refuted C79_rewrite_closed_partial | refuted in general: the seeds and vertices returned by the deferred removal are dropped, so a hole the new triangles do not touch keeps self-looped borders; proved for closed meshes whose new triangles cover the rim and the corners of the removed faces; missing: meshes with a border
C80 | proved | C80_inner_edge_collapse, C80_not_adjacent | exact acceptance condition and exact result of the collapse of an inner edge; hypotheses met by the octahedron (octa_collapse)
C81 | proved | C81_flip_pass | 
C82 | proved | C82_smoothing | 
C83 | proved | C83_split_pass | table sizes must fit in usize; hypotheses met by the octahedron (octa_surface)
C84 | proved | C84_collapse_pass | 
C85 | partial | C85_remesh_partial C85_one_iteration_partial C85_remesh_refuted | proved while no iteration before the last leaves two opposite faces on the same vertices, in particular for one iteration; refuted in general: a collapse can leave such a pair, which a later split turns into an inconsistent mesh
C86 | proved | C86_tangential | 
C87 | proved | C87_cast_ray, C87_sound | Also without the assumption that the boxes contain the faces, a reported hit is a real crossing.
C88 | proved | C88_point_in_mesh | Exact characterisation of the three answers.
C89 | partial | C89_face_tree_partial, C89_boxes_refuted, C89_removed_refuted | Holds without removed faces and with double coordinates; refuted for a coordinate 1/3 and for a removed face.
C90 | partial | C90_total, C90_beside_partial, C90_count_partial, C90_refuted | Never panics; the answer is the parity of the border sides whose next side meets the ray (the wrong side is tested); no above, below and to the right of the mesh; refuted for a quadrilateral of two triangles, in both directions.
C91 | proved | C91_common_part, C91_underflow_refuted | The assumption on the magnitude comparison is needed: with sides of 2^-600 the doubles underflow and a point is reported although nothing is shared.
C92 | proved | C92_same_points, C92_degenerate_refuted | For a first triangle without area tri_tri_intersection and the function with precomputation differ.
C93 | proved | C93_contacts | 
C94 | partial | C94_level_edge_partial, C94_tilted_edge_refuted | Holds for planes parallel to two axes; refuted for tilted planes: the dropped coordinate is copied from the first corner.
C95 | partial | C95_level_sound_partial, C95_tilted_refuted, C95_touch_refuted | Every reported point is shared if the plane is parallel to two axes; refuted in tilted planes and for triangles that touch in one corner. Missing: that the polygon covers everything shared.
C96 | proved | C96_segments, C96_point_refuted | The assumption that the first segment is not a point is needed.
C97 | proved | C97_hull | 
C98 | proved | C98_remove_invalidated_faces |
C99 | proved | C99_remove_duplicate_vertices, C99_borders_not_welded_refuted | The result need not be well formed: borders that meet after the merge are not welded. LazyExact keys break the assumption (C22).
C100 | proved | C100_boolean_result | The classification is arbitrary.
C101 | proved | C101_boolean_result_well_formed |
C102 | proved | C102_boolean_result_closed |
C103 | proved | C103_find_valid_half_edge, C103_face_from_vertices |
C104 | proved | C104_classify_faces_3, C104_classify_faces_2 | The location test is an arbitrary function of the face.
C105 | proved | C105_classification_is_true, C105_second_region_refuted | Without the connection a second inside region is missed (refuted).
C106 | proved | C106_boolean_of_truth |
C107 | proved | C107_marks, C107_one_left |
C108 | proved | C108_triangles |
C109 | proved | C109_links | The links between segments are never read and not modelled.
C110 | proved | C110_segments, C110_border_refuted | For open meshes the search can panic (refuted).
C111 | proved | C111_empty, C111_removed_refuted | With removed faces segments are reported although the surfaces do not meet (refuted).
C112 | partial | C112_circumcircle_partial, C112_filter_partial, C112_filter_refuted | The exact test is right up to its own thresholds, the filter where its centre and radius are accurate; far from the origin the filter decides wrongly (refuted).
C113 | proved | C113_allocation, C113_distance, C113_after_search | The spatial hash is represented by the search over all vertices.
C114 | proved | C114_exact, C114_small_refuted | Without the condition on distances the ends are merged (refuted).
C115 | proved | C115_jobs, C115_after_allocation, C115_after_search | The hash maps are walked in an arbitrary order.
C116 | proved | C116_chains | The comparisons in double precision are modelled bit for bit; tolerances in the statement cover them.
C117 | partial | C117_refuted, C116_chains | False for segments that end in a corner of the face; C116 covers the others.
C118 | proved | C118_surfaces_apart | The whole operation is modelled; here no face is cut.
C119 | proved | C119_separated | Coordinates are arbitrary rationals up to a million.
C120 | partial | C120_refuted, C119_separated | False for operands in general position whose faces cut each other; C119 has the separated ones.
C121 | partial | C121_vertex_ray_partial C121_projects C121_no_face C121_backwards_refuted | complete description for directions that do not point backwards along a side; for those the ray leaves the face at once, but the code reports the side as collinear
C122 | partial | C122_vertex_ray_3_partial C122_misses_refuted C122_false_hit_refuted | refuted: the edge parameter has the wrong sign, so every direction into the face is missed and directions that leave the face get a hit that is not on the ray; right along the sides
C123 | proved | C123_location C123_flat | any dimension; the place is that of the foot of the point on the plane of the face
C124 | partial | C124_plane_partial C124_space_partial C124_sound C124_space_refuted C124_plane_refuted C124_flat_refuted | refuted: in space the face named need not hold the point, in the plane a point in another component panics, a flat face met panics; proved: in the plane the exact place for faces reachable from the start, in space an answer from every start with the place of the foot, and the face itself if the point projects on no other; soundness in any dimension
C125 | proved | C125_containing C125_sound C125_inside | in space; a point on a side or corner of a face is in no answer, as the comment in the code says
C126 | partial | C126_inside C126_edge C126_border C126_split_face_plane_partial C126_split_face_space_partial C126_space_refuted | proved for points inside a face, on inner sides and on border sides, in any dimension; from the start face on, in the plane for faces that can be reached and in space for points with no foot on another face; refuted in space otherwise; for border sides the mesh is not well formed afterwards (C11)
C127 | partial | C127_segments_partial C127_near_end_refuted | proved for all pairs of meshes without removed faces whose sides have positive length, for points more than a millionth of the side away from its ends; refuted for points nearer to an end
C128 | partial | C128_through_refuted C127_segments_partial | false: only points and stretches on sides of both meshes are listed (C127), so a side through the inside of a face leaves no segment there
C129 | proved | C129_jobs | the hash map is walked in an arbitrary order
C130 | partial | C130_chains_partial C130_small_refuted | proved for jobs in the unit square: cuts between points other than corners, and the origin of each segment; the sides if they are at least a tenth long and no point is close to a side without being on it; refuted for small faces
C131 | proved | C131_after_search | composed with the model of the search in the plane (C127) and of the allocation (C113)
C132 | proved | C132_sides_apart | composed of the models of all steps; the classification is stated with what point_in_mesh_2 counts (C90)
C133 | proved | C133_under | follows the run of C132 with the point location above and below a mesh
C134 | partial | C134_beside_refuted C134_nested_refuted C133_under | refuted for operands side by side and for nested operands; C133 is the part that holds for operands one above the other
C135 | partial | C135_overlap_refuted | refuted: two overlapping triangles; no positive part is proved
C136 | partial | C136_descendants C136_left_over_partial C136_left_over_space_partial C136_plane_refuted C136_corner_refuted C136_space_refuted | proved for half-edges with recorded parts in use; without them the answer is in use and fits a place of the foot of the point, but that it holds the point is refuted
C137 | partial | C137_live_partial C137_neighbours_partial C137_total_partial C137_removed_refuted C137_panic_refuted | proved for the entries of faces in use, and total if every removed face's half-edge is removed too; false for other removed faces: they get neighbours, or the call panics
C138 | proved | C138_boundary_map | 
C139 | proved | C139_half_edge C139_tolerance C139_some_side C139_removed | 
C140 | partial | C140_weights_partial C140_outside_refuted C140_off_plane_refuted | proved for points of the closed triangle, for points of its plane off the three edge lines and for flat faces; refuted for points on an edge line outside the triangle and for points off the plane
C141 | partial | C141_area C141_boundary_vertices_partial C141_isolated_refuted C141_bowtie_refuted | the area is proved; boundary_vertices is proved if every vertex is in use with a single fan and refuted otherwise
C142 | partial | C142_returns C142_accepted C142_beside_ring_partial C142_interior_refuted | that it returns, with valid indices, is proved for all inputs; exactly the candidates beside the border are returned, so triangles without a side on the border are missed
C143 | partial | C143_root_mean_partial C143_same C143_mean_refuted | proved that both functions are the double root mean square over each edge in use once; refuted that compute_average_edge_length is the mean length
C144 | proved | C144_smallest | 
C145 | proved | C145_centroid | 
C146 | proved | C146_frame C146_degenerate | 
C147 | partial | C147_panics C147_accepted_partial C147_range C147_total_partial C147_folds_refuted C147_total_refuted | Proved: the test panics exactly if two of the four corners are less than 2^-537 apart, so the pass never panics when different vertices are farther apart; an accepted flip has four triangles that are not flat and a smaller number; the number is within -1 and 1. Refuted: the pass can turn a triangle of a flat mesh over, and it can panic on a well-formed mesh. Missing: how close the number is to the cosine of the smallest angle.
