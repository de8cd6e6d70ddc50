# Formal model of cgar: design

The model is written in Rocq (Coq 8.16.1) under `rocq/theories`. Every model
definition cites the file and lines of `/repo` it transcribes, and says what it
leaves out. `properties.jsonl` lists the claims, `MANIFEST.json` the theorems for
each of them.

## Layout

| kind | files | role |
|------|-------|------|
| models | `*Model.v`, `DelaunayFloat.v` | transcription of the code, function by function |
| specifications | `*Spec.v` | the vocabulary of the theorems, stated without the helpers of model or proofs |
| claims | `Claims*.v` | the theorems named in the manifest, their witnesses, and `Print Assumptions` |
| proofs | the others | invariants and lemmas |

Each theorem in a `Claims*.v` file has beside it an `Example` or a lemma showing that a
concrete case meets its hypotheses. A claim that is false of the code has a theorem
ending in `_refuted` with a concrete reachable witness; what does hold is in a theorem
ending in `_partial` or in a separate claim.

## Modelling conventions

* **Indices.** `usize` ids are `N`; `usize::MAX` is `umax = 2^64-1`. Growable vectors
  are finite maps from `N` plus a length. Reading outside the vector is a Rust panic
  and is `None` in the model (the option monad is the panic monad). `debug_assert!`
  is a panic too, unless the model takes a flag for it.
* **Hash maps and sets** are finite maps and lists. Where Rust iterates over one, the
  model takes the iteration order as an arbitrary permutation.
* **Exact scalars** (`CgarRational`, and `LazyExact` at its exact value) are the standard
  library's `Q` with `==` (rug keeps rationals canonical, so Rust's `==` is `Qeq`).
* **f64** is Flocq's binary64, rounding to nearest even, wherever rounding matters.
* **Loops without a bound** are fuelled recursions; running out of fuel is `None`, and the
  theorems show that it does not happen. Step limits that are in the code are modelled
  with their own value.
* **Geometry in the mesh editors** (is this triangle thin, where is the midpoint, which
  face contains the point) is an arbitrary function, so the connectivity theorems hold
  for every scalar type.

## What is modelled

| code | model | claims |
|------|-------|--------|
| `mesh/half_edge.rs`, `face.rs`, `vertex.rs`, `basic_types.rs`, `triangle.rs` (add, remove, border weld) | `MeshModel` | C01-C07 |
| `mesh/core.rs`: `flip_edge`, `split_edge`, `split_face` | `MeshEditModel` | C08-C11, C61 |
| `mesh/edge_collapse.rs` | `MeshCollapseModel` | C12, C80 |
| `mesh/topology.rs`: traversals, look-ups, `validate_connectivity` | `MeshQueryModel` | C06, C13, C15, C18, C59, C60 |
| `mesh/core.rs`: `build_boundary_loops` | `MeshLoopsModel` | C14 |
| `mesh/triangle.rs`: deferred insertion and removal; `boolean.rs` 1560-1639 | `MeshBatchModel` | C16, C17, C79 |
| `mesh/core.rs`: `remove_unused_vertices` | `MeshCompactModel` | C19 |
| `mesh/spatial_hash.rs`, `get_or_insert_vertex` | `HashModel` | C20-C23, C64 |
| `geometry/aabb.rs`, `aabb_tree.rs` | `AabbModel` | C24-C27, C65-C68 |
| `numeric/lazy_exact.rs`, `numeric/ball.rs` | `LazyModel` | C28-C31 |
| `numeric/cgar_f64.rs`, `geometry/util.rs` | `F64Model` | C32-C34 |
| `numeric/cgar_rational.rs` | `RatModel` | C57 |
| `kernel/*`, `geometry/{segment,point,vector}.rs`, intersections | `GeomModel` | C35-C47, C56 |
| `geometry/plane.rs`, `canonical_edge.rs` | `PlaneModel` | C49, C58, C62, C63 |
| `geometry/matrix.rs` | `MatrixModel` | C48 |
| `io/off.rs`, `obj.rs`, `stl.rs` | `IoModel` | C50-C52, C69-C71 |
| `operations/triangulation/delaunay.rs` except `triangles_inside_for_job` | `DelaunayModel`, `DelaunayFloat` | C53, C54, C72-C78, C112 |
| `delaunay.rs: triangles_inside_for_job` | `JobInsideModel` over `BoolPslgModel`, `GeomModel` | C142 |
| `core.rs: compute_triangle_aabb_exact`, `min3_ref`, `max3_ref` | `TriBoxModel` over `AabbModel` | C144 |
| `topology.rs: face_centroid`, `batching.rs: face_uv_frame_metric` | `FaceFrameModel` over `GeomModel` | C145, C146 |
| `remesh.rs: tri_min_angle_cos_f64`, the geometric part of `should_flip_edge` | `FlipQualityModel` over `GeomModel`, `F64Model`, `MeshRemeshModel` | C147 |
| `remesh.rs: compute_average_edge_length`, `rms_edge_length_f64` | `EdgeLenModel` over `MeshQueryModel`, `F64Model` | C143 |
| `mesh_processing/remesh.rs`, `smooth_tangential` | `MeshRemeshModel` | C81-C86 |
| `mesh/topology.rs`: ray casting and point location; `build_face_tree` | `RayModel` | C55, C87-C90 |
| `geometry/tri_tri_intersect.rs` except `tri_tri_intersection_with_precomp_p` | `TriTriModel` | C91-C97 |
| `mesh/core.rs`: `remove_duplicate_vertices`, `remove_invalidated_faces` | `MeshCleanModel` | C98, C99 |
| `boolean.rs` 805-969: the result of `corefine_and_boolean` from the classification | `BoolModel` | C100-C102 |
| `boolean.rs`: `get_seed_face_3`, `get_seed_face_2`, `classify_faces_3`, `classify_faces_2`, `corefine_and_boolean` 820-969; `topology.rs: find_valid_half_edge` (its last resort is a parameter), `face_from_vertices` | `BoolClassModel` | C103-C106 |
| `boolean.rs`: `remove_duplicate_and_invalid_segments`, `extract_triangles_in_group`, `build_links` | `BoolSegModel` | C107-C109 |
| `boolean.rs: get_mesh_intersections_3`; `core.rs: face_aabb` | `BoolCutModel` | C110, C111 |
| `boolean.rs: get_mesh_intersections_2` (the bucket function and the tree's selection are parameters) | `CutPlaneModel` over `TriTriModel`, box tree of C24 | C127, C128 |
| `boolean.rs: point_key, bucket_u, allocate_vertices_for_splits_no_topology`; `topology.rs: canonicalize_u_for_edge` | `BoolAllocModel` | C113, C114 |
| `batching.rs: build_face_pslgs_3` with its helpers | `BoolPslgModel` | C115 to C117 |
| `batching.rs: build_face_pslgs_2`; the allocation of C113 for points of the plane | `PslgPlaneModel` over `BoolPslgModel`, `BoolAllocModel` | C129 to C131 |
| `boolean.rs: corefine_and_boolean` in space, composed of the parts above, `topology.rs: face_centroid_fast` | `CorefineModel` | C118 to C120 |
| `boolean.rs: corefine_and_boolean` in the plane, composed of the parts above, `build_links` in the plane | `CorefinePlaneModel` | C132 to C135 |
| `topology.rs: cast_ray_from_vertex_in_triangle`, `cast_ray_from_vertex_in_triangle_3` | `VertexRayModel` | C121, C122 |
| `topology.rs: find_valid_face`, `location_on_face`, `face_edges`, `edge_and_u_from_bary_zero`, `vertex_from_bary_zero` | `PointLocModel` | C123, C124 |
| `topology.rs: find_valid_half_edge` with its distances and its last resort | `FindHalfModel` over `BoolClassModel`, `PointLocModel` | C136 |
| `core.rs: build_face_adjacency_graph`, `build_boundary_map` | `AdjGraphModel` over `MeshQueryModel`, `BoolClassModel` | C137, C138 |
| `topology.rs: boundary_vertices`, `point_on_half_edge` (and with tolerance), `segment_from_half_edge`, `point_is_on_some_half_edge`, `barycentric_coords_on_face`, `area2x4_after_move` | `SideGeomModel` over `GeomModel`, `PointLocModel`, `MeshQueryModel` | C139, C140, C141 |
| `topology.rs: faces_containing_point_aabb` in space | `ContainModel` | C125 |
| `core.rs: split_face` with its search for the face | `SplitAtModel` over `MeshEditModel`, `PointLocModel` | C126 |

## What is not modelled

* `mesh_processing/boolean.rs` and `batching.rs` except the parts named above,
  `tri_tri_intersection_with_precomp_p`. In `find_valid_face` the debug
  bound of a million steps is left out; `face_split_map`, which no code writes, is an
  arbitrary map.
* Memory limits, threads (rayon jobs are modelled as an arbitrary order of results), the
  implementation of rug and GMP, the file system.
* Printing and parsing of doubles: the theorems on files assume that the text of a double
  is a non-empty word and parses back to it (`number_text` in `IoSpec.v`).
* Text is ASCII; `split_whitespace` also splits at other Unicode white space.
* The tree bookkeeping of the mesh editors when `update_tree` is set.

## How the properties are proved

* **Mesh** (C01-C19, C59-C61, C79-C86). `WellFormed` (`MeshSpec.v`) is stated with table
  look-ups only. An equivalent invariant `WF` (`MeshInv.v`) is preserved by every
  operation; histories are handled by induction. Border links are a function computed by
  a fan walk, shown total and injective. Effects are stated on the list of oriented faces.
  `WellFormed` does not require the twin of a removed half-edge to be in range, because
  edge collapse leaves `usize::MAX` there; `twins_in_range` is a separate hypothesis where
  the debug build needs it.
* **Numbers** (C20-C23, C28-C34, C57, C64). Denotational equality with caches as state;
  Flocq for the rounding errors of `Ball`.
* **Boxes** (C24-C27, C65-C68). A tree refines a list of entries; induction over histories
  of edits and over any result of `select_nth_unstable_by`.
* **Geometry** (C35-C49, C56, C58, C62, C63). Field and linear arithmetic over `Q`.
* **Files** (C50-C52, C69-C71). Round trip through the face list of C02.
* **Delaunay** (C53, C54, C72-C78). Invariants over insertions for any hash order; error
  bounds of the double-precision filter.
* **Rays** (C55, C87-C90). A hit is a point of a triangle; the box tree of C24 gives the
  candidates.
* **Triangle pairs** (C91-C97). The line of the two planes is parametrised once; each
  triangle cuts an interval out of it (`TriTriCut`), clipping in the plane is the same in two
  coordinates (`TriTriClip`). The hull is Andrew's monotone chain by invariants on the stack.
* **Boolean results** (C98-C102). The triangles are added one by one to a mesh with no face
  yet; the invariant is the list of triangles built so far. Merging happens on vertices only.
* **Classification** (C103-C106). The flood fill is a search with fuel; its invariant says
  that the visited faces are reachable and that their neighbours are visited or queued. The
  specification is reachability (`rtc`) over shared edges that are not cut.
* **Segments** (C107-C109). The scan for duplicates keeps, per bucket, exactly the standing
  segments of the prefix.
* **Cuts in the plane** (C127, C128). Every pair of sides of faces with meeting boxes goes
  through `segment_intersect_2d` (C96); the state of each mesh keeps the invariant that all
  listed segments are sound and that each dropped point is on a listed segment.
* **Cuts** (C110, C111). The box tree of C24 gives every pair of faces whose boxes of rounded
  corners meet; rounding is monotone, so no pair that shares a point is lost. C91-C93 give the
  segments and the places of their ends.
* **Vertices for segments** (C113, C114). An invariant of the map of keys over the ends placed so
  far: entries for ends on vertices and inside faces come from such ends, and no entry is ever
  found for an edge. `AllocKey` bounds the cells of point_key in double precision.
* **Jobs in the plane** (C129 to C131). As for C115 to C117. C131 composes the search (C127),
  the allocation (C113, which is generic in the points) and C129: a side has at most one face
  on each side, and the hints name both.
* **Triangulation jobs** (C115 to C117). The construction is a fold that pushes vertices, so its
  result is described by the pairs of vertices that reach the face. `PslgFloat` bounds the
  rounding of the tests on weights; with it, what passes a test is near the line and what lies
  on it passes, and the order along the line follows from the sorted keys.
* **Half-edges found again** (C136). An invariant of the breadth-first search: parts of seen
  slots are seen or queued, the best one so far is at least as near as all seen ones, and the
  steps are bounded by twice the number of slots. The distance is the minimum of a parabola.
* **Adjacency graph and face pairs** (C137, C138). Each entry is computed from the three
  half-edges of the face; the face pairs by induction over the segments.
* **Boxes, centroids and frames of triangles** (C144 to C146). Linear arithmetic by coordinates;
  the double cross product lies in the plane of its factors.
* **Quality flips** (C147). A squared distance becomes the double 0.0 exactly if it is below the
  smallest double; a cross product that is not zero means independent edges. The two refutations
  evaluate the pass on meshes of two triangles.
* **Edge lengths** (C143). Of the two half-edges of an edge, the loop takes the one with the
  smaller number; the map of directed edges makes the list free of repetitions. The sum, the
  quotient and the root are double operations; no bound on their error is proved.
* **Triangles inside a job** (C142). The measure of the flood is the queue and three times the
  triangles not accepted. Four invariants: each accepted triangle is beside the ring; each
  queued edge is a ring edge or has no triangle left on its side; each edge seen has none left;
  each ring edge is queued or seen. The order of equal keys in the sort of the ring, which is
  unstable in the code, is modelled as stable; the rounding in `orient2d` is a parameter, except
  in the refutation, where every value is a small integer.
* **Geometry of sides and faces** (C139 to C141). The exact predicates of C37, C44, C45 and C62
  applied to the ends and corners that the well-formed mesh gives; Lagrange's identity.
* **Whole operations in the plane** (C132 to C135). When no sides meet the search lists
  nothing (C127), so nothing is refined and the faces are classified one by one; C90 says what
  the point location answers, C100 what is built. Above and below the other mesh no side is
  counted, which gives C133. Deciders for points of meshes serve the refutations.
* **Whole operations** (C118 to C120). When the surfaces are apart the search finds nothing
  (C111), both refinements leave the meshes as they are, and the result follows from C88, C89
  and C100. `CentreFloat` bounds the rounding of the centroid. The closed result of C119 is C102.

## Trusted base

* Coq's kernel.
* The reading of the Rust source recorded in the comments of the models.
* The axioms `Print Assumptions` lists for each theorem, all from the standard library
  (next section). Flocq's and Coquelicot's real numbers bring the first four.
* `coqchk -o` over the whole development also lists constants of sealed modules of the
  libraries (`mathcomp`, `Coq.ssr.ssrunder`, `Coq.Reals` `RbaseSymbolsImpl` and `RinvImpl`).
  They are module fields with a definition behind an opaque signature, not axioms of a
  theorem; `Print Assumptions` lists none of them.

## Axioms per theorem

* no axioms (256 theorems): C145_centroid, C146_frame, C146_degenerate, C139_half_edge, C139_tolerance, C139_some_side, C139_removed, C140_weights_partial, C140_outside_refuted, C140_off_plane_refuted, C141_area, C141_boundary_vertices_partial, C141_isolated_refuted, C141_bowtie_refuted, C137_live_partial, C137_neighbours_partial, C137_total_partial, C137_removed_refuted, C137_panic_refuted, C138_boundary_map, C136_descendants, C136_left_over_partial, C136_left_over_space_partial, C136_plane_refuted, C136_corner_refuted, C136_space_refuted, C11_split_border_partial, C126_border, C126_inside, C126_edge, C126_split_face_plane_partial, C126_split_face_space_partial, C126_space_refuted, C123_location, C123_flat, C124_sound, C124_plane_partial, C124_space_partial, C124_space_refuted, C124_plane_refuted, C124_flat_refuted, C121_projects, C121_vertex_ray_partial, C121_no_face, C121_backwards_refuted, C122_vertex_ray_3_partial, C122_misses_refuted, C122_false_hit_refuted, C79_rewrite_closed_partial, C112_circumcircle_partial, C80_not_adjacent, C90_count_partial, C103_face_from_vertices, C103_find_valid_half_edge, C104_classify_faces_2, C104_classify_faces_3, C105_classification_is_true, C105_second_region_refuted, C106_boolean_of_truth, C107_marks, C107_one_left, C108_triangles, C109_links, C98_remove_invalidated_faces, C99_borders_not_welded_refuted, C99_remove_duplicate_vertices, C100_boolean_result, C101_boolean_result_well_formed, C102_boolean_result_closed, C01_history_well_formed, C01_step_well_formed, C02_add_triangle_refines, C03_add_triangle_no_panic, C03_flip_edge_no_panic, C03_remove_triangle_no_panic, C04_remove_triangle_exact, C05_remove_after_add_restores, C07_directed_edge_one_face, C07_undirected_edge_two_faces, C08_flip_edge, C09_split_face, C10_split_edge_existing, C10_split_edge_interior, C06_validate_accepts, C06_validate_accepts_history, C06_validate_half_edges_accepts, C11_split_border_panics_refuted, C11_split_border_refuted, C13_faces_around_vertex, C13_is_boundary_vertex, C13_one_ring_complete, C13_outgoing_is_fan, C13_vertex_ring, C13_vertex_touches_face, C14_build_boundary_loops_refuted, C14_single_face_heads_partial, C15_face_queries, C15_face_vertices_complete, C18_faces_around_corner_partial, C18_faces_around_face_refuted, C59_adjacent_faces, C59_are_faces_adjacent, C59_are_vertices_connected, C59_canonical_edge, C59_edge_half_edges, C59_half_edge_between, C60_link_condition, C61_split_edge_pillow_refuted, C12_border_edge_refuted, C12_bow_tie_refuted, C12_inner_edge_partial, C12_two_border_ends_refuted, C17_debug_after_collapse_refuted, C80_inner_edge_collapse, C16_add_deferred_is_one_by_one, C17_remove_deferred_exact, C19_remove_unused_vertices, C79_rewrite_faces_by_nothing_refuted, C79_rewrite_faces_refuted, C20_pack_key3_collisions, C20_pack_key3_fits, C20_pack_key3_injective, C35_are_collinear, C35_are_collinear_degenerate, C36_is_point_on_segment_partial, C36_is_point_on_segment_start_refuted, C37_midpoint, C37_parameter_of_point, C37_parameter_unique, C37_point_u_on_segment, C37_point_u_on_segment_degenerate, C38_orient_2_partial, C38_orient_2_refuted, C38_orient_2_vertical_refuted, C38_orient_3_partial, C38_orient_3_refuted, C39_collinear_gap_refuted, C39_segment_segment_2_partial, C39_vertical_refuted, C40_collinear_gap_refuted, C40_not_parallel, C40_segment_segment_3_partial, C41_edge_edge_first_partial, C41_edge_edge_missed_refuted, C41_edge_edge_refuted, C42_ray_segment, C43_ray_triangle, C43_ray_triangle_parallel, C44_barycentric, C45_triangle_2_partial, C45_triangle_2_refuted, C45_triangle_3_off_plane_refuted, C45_triangle_3_partial, C45_weights_exist, C46_circumcentre_exists, C46_incircle_partial, C46_incircle_refuted, C46_orient2d_partial, C46_orient2d_refuted, C49_bbox2d, C49_bbox3d, C56_face_area_2, C56_face_area_2_scales, C56_face_area_3_flat_partial, C56_face_area_3_refuted, C56_face_area_3_squared_partial, C62_point_u_on_segment_with_tolerance, C47_any_perpendicular_4, C47_basis_2, C47_basis_3, C47_basis_3_spans, C47_canonicalized_lead, C47_canonicalized_same_points, C47_canonicalized_unique, C47_from_points_2, C47_from_points_3, C47_from_points_3_proper, C47_origin_2, C47_origin_3, C47_origin_3_total, C58_canonical_edge_faithful, C58_canonical_edge_symmetric, C58_edge_new_faithful, C58_edge_new_sorted, C58_edge_new_symmetric, C58_point_order, C63_parameter_t_2, C63_parameter_t_3_partial, C63_parameter_t_3_refuted, C48_det, C48_det_identity, C48_det_laplace, C48_det_multiplicative, C48_det_scale, C48_det_transpose, C48_inverse2, C48_inverse3, C48_lerp, C48_outer, C48_product, C48_product_assoc, C48_product_identity, C48_product_transpose, C48_rows_cols, C48_vector, C48_vector_product, C50_off_round_trip, C50_same_doubles, C51_obj_round_trip, C52_stl_round_trip, C69_read_stl_total, C70_read_obj_partial, C70_read_off_partial, C71_blank_lines_ignored, C71_comments_ignored, C53_build_partial, C53_distinct, C54_build_partial, C72_insert, C73_constraints, C73_rebuild, C74_batch, C74_constraints, C75_insert, C76_split, C77_batch_order_partial, C78_flip_partial, C57_digits, C57_eq, C57_exact, C57_from_num_den, C57_hash, C57_hash_collisions, C57_order, C57_sign, C81_flip_pass, C82_smoothing, C83_split_pass, C84_collapse_pass, C85_one_iteration_partial, C85_remesh_partial, C85_remesh_refuted, C86_tangential, C90_beside_partial, C90_refuted, C90_total, C91_common_part, C92_same_points, C92_degenerate_refuted, C93_contacts, C94_level_edge_partial, C95_level_sound_partial, C95_touch_refuted, C96_segments, C96_point_refuted, C97_hull.
* `ClassicalDedekindReals.sig_forall_dec`, `ClassicalDedekindReals.sig_not_dec`, `Classical_Prop.classic`, `FunctionalExtensionality.functional_extensionality_dep` (131 theorems): C147_total_partial, C147_panics, C147_accepted_partial, C147_range, C147_folds_refuted, C147_total_refuted, C142_accepted, C144_smallest, C143_root_mean_partial, C143_same, C143_mean_refuted, C142_returns, C142_beside_ring_partial, C142_interior_refuted, C132_sides_apart, C133_under, C134_beside_refuted, C134_nested_refuted, C135_overlap_refuted, C129_jobs, C130_chains_partial, C130_small_refuted, C131_after_search, C127_segments_partial, C127_near_end_refuted, C128_through_refuted, C125_containing, C125_sound, C125_inside, C118_surfaces_apart, C119_separated, C120_refuted, C115_jobs, C115_after_allocation, C115_after_search, C116_chains, C117_refuted, C113_allocation, C113_distance, C113_after_search, C114_exact, C114_small_refuted, C112_filter_partial, C112_filter_refuted, C110_border_refuted, C110_segments, C111_empty, C111_removed_refuted, C21_floor_partial, C21_monotone_partial, C21_overflow_refuted, C32_equal_refuted, C32_partial_cmp_partial, C32_signed_zero_refuted, C32_transitive_refuted, C33_meaning_partial, C33_trichotomy_partial, C33_trichotomy_refuted, C34_adjacent, C34_adjacent_at_zero_refuted, C34_next_down_below, C34_next_up_above, C34_truncation_bracket, C22_lazy_refuted, C23_refuted, C23_same_cell_partial, C64_answers, C64_distinct, C64_f64_no_duplicates, C64_no_duplicates, C64_no_panic, C24, C25, C26_partial, C26_refuted, C27_from_points, C27_inflated, C27_inflated_query_tol, C27_intersects, C27_union, C65, C66_get_aabb, C66_root, C67, C67_recorded_le, C68_center, C68_longest_axis, C28_eq, C28_exact, C28_no_panic, C29_depth, C29_recorded, C29_run, C29_stack, C30_additive_partial, C30_determinant_partial, C30_enclosure_partial, C30_folding_refuted, C30_sign_exact_partial, C30_sign_partial, C30_sign_refuted, C31_additive_partial, C31_cmp_ref_partial, C31_order_refuted, C31_zeros_refuted, C69_rational_refuted, C70_no_panic_refuted, C70_read_obj_refuted, C70_read_off_refuted, C53_refuted, C54_batch_refuted, C54_build_refuted, C54_points_lost, C74_exit, C75_constraints, C75_exact_walk_refuted, C77_batch_order_refuted, C78_dropped_refuted, C78_inserted_refuted, C55_far_refuted, C55_hole_refuted, C55_outside_hull_partial, C87_cast_ray, C87_sound, C88_point_in_mesh, C89_boxes_refuted, C89_face_tree_partial, C89_removed_refuted, C91_underflow_refuted, C94_tilted_edge_refuted, C95_tilted_refuted.

## Testing the theorems

`tools/mutate.py` edits a model in a scratch copy the way a bug would change the program,
rebuilds, and records which theorems fail. `seeded/LOG.jsonl` has one line per edit.

## Findings

Claims that are false of the code, with a witness in a theorem ending in `_refuted`, and
other defects met on the way.

### Mesh

* C11 `split_edge` on a border edge leaves an ill-formed mesh or panics. The two new faces,
  the new vertex, the twins and the edge map are right (`C11_split_border_partial`); what is
  broken is the ring of half-edges around the hole.
* C12 `collapse_edge` on a border edge leaves live half-edges with twin `usize::MAX`, and
  `validate_connectivity` panics on the result. At a vertex with two fans it leaves faces
  on a removed vertex. On an inner edge between two border vertices it crosses border links.
  Removed half-edges keep the twin `usize::MAX`, so a later deferred removal panics in a
  debug build. The options `forbid_normal_flip` and `area_eps2` are never used. A tetrahedron
  collapses to two opposite faces on the same vertices.
* C14 `build_boundary_loops` walks around the wrong side and loses loops.
* C18 `faces_around_face` returns faces that do not touch the given face.
* C61 `split_edge` on an edge whose two faces have the same third corner fails.
* C70 `add_triangle` accepts a repeated index and makes a half-edge its own twin; (0,0,0)
  panics. It silently turns the triangle around when the given direction is taken.
* C79 `rewrite_faces` drops the seeds of the deferred removal, so a hole that the new
  triangles do not touch keeps self-looped borders.
  On a closed mesh the rewrite is proved exact when the new triangles use each side once and
  cover the rim and the corners of what was removed (`C79_rewrite_closed_partial`).
* C85 `split_edge` on two opposite faces with the same corners registers a directed edge
  twice. `should_flip_edge` panics for coincident vertices. `split_long_edges` may call
  `split_edge` on a border side. For small meshes the early stop (`flips < nhes / 200`)
  never holds. A `NoSplit` outcome counts as a split.
* C99 `remove_duplicate_vertices` merges vertices but does not weld the borders that meet
  afterwards: two half-edges run between the same vertices in the same direction.
* C105 The classification floods from one seed face only. When the inside region has two
  parts separated by segments, the second part is classified as outside.
* C103 `half_edge_split_map` and `face_split_map` are created empty and never written, so the
  search for split half-edges has nothing to follow.
* C109 `build_links` returns at once without segments; coplanar segments are taken out before
  the classification, so that with coplanar segments only, the coplanar triangles are
  found but `classify_faces` ignores them (it tests every face by itself). The links it
  computes are never read.
* C110 `get_mesh_intersections_3` panics when an edge on the border of an open mesh meets the
  other mesh (the face beyond the edge is unwrapped).
* C127 `get_mesh_intersections_2` takes a crossing for an endpoint when its *parameter* is
  within 1e-6 of 0 or 1: such a crossing is dropped on that mesh, however long the side is.
  A point contact recorded before a coplanar segment that contains it stays in the list; in
  the other order it is dropped.
* C135 Boolean operations in the plane on two overlapping triangles give wrong regions: no
  segment runs through the faces (C128), so the faces are only cut by the constraints between
  points of the sides, no face is a seed, and every face is classified by `point_in_mesh_2`,
  which counts the wrong sides (C90). The intersection has a triangle outside the second
  operand; the union and the difference lack it.
* C134 the same for operands that do not meet: of two meshes side by side, the left one can be
  missing in the union and in the difference and be the intersection (`point_in_mesh_2` again).
  If the second operand is inside a face of the first, the difference keeps that face whole and
  adds the second operand reversed, so that the removed region is covered twice.
* C130 `build_face_pslgs_2` works with the coordinates themselves, not with weights in the
  face, and its tolerances are absolute: in a face of a few millionths the third corner
  counts as on a side, the side is broken up at it and its pieces are dropped. The job then
  has no segment on that side.
* C128 in the plane only side/side meetings are listed: where a side of one mesh runs through
  a face of the other there are two point segments and nothing in between, so no constraint
  makes the triangulation follow the side.
* C111 Removed faces of the second mesh are still in its tree: they are cut, and segments are
  reported where no surface is left.
* C114 With the exact scalar, too, ends closer than a millionth are merged, by cells of a
  millionth in each coordinate: two tetrahedra of size 3 and 8 that overlap by two millionths cut
  each other along three segments longer than a millionth; on one of them all ends get the same
  vertex, on the other they stay apart.
* C113 What the first pass of `allocate_vertices_for_splits_no_topology` stores for ends on edges
  is never used: it is stored with the faces of the edge and looked up without them.
* C117 `build_face_pslgs` drops every segment that ends in a corner of the face, with the other
  end: `choose_vertex_on_face` takes the first of the two ends that touches the face, which is
  the corner for both, and a segment with equal ends is skipped. For a tetrahedron and a wedge two of whose faces pass through a corner of it
  each, in general position, all four segments across its faces are dropped and the jobs have
  only the corners; nothing of the cut is left.
* C120 the result of `corefine_and_boolean` on two closed operands in general position can have a
  border. In the example of C117 the faces of the tetrahedron are not cut and those of the wedge
  are. Union, intersection and difference all come out open, without an error.

### Rays and point location

* C55 `point_in_mesh_3` counts every axis ray with any hit as odd parity: a point in the
  hole of a ring is Inside. Faces farther than 10^7 are never candidates: the middle of a
  large tetrahedron is Outside.
* C89 `build_face_tree` keeps removed faces, which rays then hit. Boxes are rounded toward
  zero to doubles, so the corner (1/3, 0, 0) of a face is reported Outside.
* C90 `cast_ray_2` tests the edge after the border edge instead of the border edge.
* C121 `cast_ray_from_vertex_in_triangle` reports a ray that leaves the face backwards along
  a side as collinear with that side.
* C122 `cast_ray_from_vertex_in_triangle_3` computes the edge parameter from `dir x rhs`
  instead of `rhs x dir`: it misses the opposite edge for every direction into the face, and
  reports hits, off the ray, for directions that leave it.
* C147 `flip_edges` does not ask whether the two triangles form a convex quadrilateral: for
  (0,0), (1,0), (5,1) and (1,0), (0,0), (5,-1) it flips, and one of the new triangles lies upside
  down on the other. It panics exactly if two of the four corners of a pair are less than 2^-537
  apart, for instance if the two opposite vertices share a place.
* C143 `compute_average_edge_length` is the root mean square, not the mean: 4.08 for a triangle
  with the sides 3, 4 and 5.
* C142 `triangles_inside_for_job` never crosses an edge: after it accepts a triangle it pushes
  the triangle's own side of its other edges. It misses every triangle that has no side on the
  border of the job. No other function of the crate calls it.
* C140 `barycentric_coords_on_face` inherits the defects of `point_in_or_on_triangle` (C45): it
  returns coordinates with a negative weight for points on an edge line outside the triangle,
  and in space for every point whose foot is in the triangle, however far it is.
* C141 `boundary_vertices` panics if any vertex has no edges, and misses a border vertex whose
  recorded half-edge lies in another, closed fan.
* C137 `build_face_adjacency_graph` does not ask whether a face is removed, and a removed face
  keeps its half-edge. If that half-edge survives on the border, the removed face gets the
  faces around the hole as neighbours; if that border has more than ten half-edges, the call
  panics.
* C136 `find_valid_half_edge` of a half-edge out of use: no code writes `half_edge_split_map`,
  so the last resort is taken at once. It goes through `find_valid_face`, with its defects: in
  the plane it panics for every point; in space it can return a side of a face on which the
  point only projects. For a corner it returns the twin of the first side of the face, which
  need not touch that corner.
* C124 `find_valid_face` in space accepts the first face on which the point *projects*; it
  never tests the distance to the plane of the face. Started below a point of another face,
  it answers with the wrong face. In the plane its last resort calls `as_vector_3`, which
  panics for two coordinates, so a point in another component of the mesh panics. A flat
  face met by the search panics too, although the last resort skips such faces.
* C126 as a consequence `split_face` in space splits the face found and pulls it to the point:
  a point on the slanted face of a tetrahedron, searched from the base, dents the base.

### Vertex hash, boxes

* C21 `floor_sat_i64` overflows for every finite value below -2^63.
* C22 with `LazyExact` equal positions may get different keys.
* C23 `get_or_insert_vertex` merges within a grid cell only (0 and -1e-9 stay apart).
* C24 box bounds of `CgarF64` and `LazyExact` are not outward-safe.
* C26 the valid count is too large after an insertion next to an invalidated leaf.

### Numbers

* C30, C31 `LazyExact::sign` is wrong for rational leaves that are not doubles; `cmp_ref`
  orders -0.0 before 0.0 although they are `==`.
* C32, C33 the order of `CgarF64` is intransitive, and at plus and minus EPS no sign test
  holds.
* C34 `next_up(0)` is the smallest normal double, not the adjacent one.
* Rational hashes of x and -x collide; `From<f64>` for rationals panics on NaN and infinities.

### Geometry

* C36 `is_point_on_segment` rejects the start point of every proper segment: it
  calls `are_collinear(p, a, b)`, whose first two points must differ.
* C38 `orient` multiplies every pivot into the result, so its sign is not the
  orientation; a zero pivot gives zero for a proper triangle.
* C39 `segment_segment_intersection_2` inherits this: a vertical segment
  intersects segments it does not touch. C39, C40: collinear disjoint segments
  "overlap" in the gap between them.
* C41 `edge_edge_intersection_2` uses the negated parameter and does not check the
  second edge.
* C45 `point_in_or_on_triangle` answers "on edge" for points of an edge line
  outside the triangle and ignores the distance from the plane in space.
* C46 `orient2d` and `incircle` replace small exact values by zero.
* C56 `face_area` in space is the square of the area.
* C63 `parameter_t` of a canonical edge ignores the third coordinate.
* C94, C95 `back_project_to_3d` copies the dropped coordinate from one reference point: in a
  tilted plane the reported ends and polygon corners lie on neither triangle. Coplanar
  triangles that touch in one corner "do not intersect". C91 the axis is picked by doubles,
  which underflow for tiny triangles. C92 for a needle the plain function and the one with
  precomputation disagree. C96 `segment_intersect_2d` misses a first segment that is a point.

### Files

* C70 `read_off` and `read_obj` accept faces with a repeated index; an index out of range
  panics; `read_obj` panics on malformed numbers, index 0 and the `1/1` syntax; `read_stl`
  with `CgarRational` panics on NaN.

### Delaunay

* C112 The filter before the in-circle test computes the circumcentre from absolute
  coordinates. For a triangle of size 1 near (10^8, 10^8) it reports a point at distance 1
  outside the circle as inside, and near (10^9, 10^9) the centre as outside; the exact test is not asked.
* C53 snapping in `orient2d` yields clockwise triangles far from the origin.
* C54 the apex of the super-triangle is (cy+2)r instead of cy+2r; the batch builder doubles
  the centre instead of halving it. Points are lost.
* C77 batch results of jobs with fewer than three points are moved to the front.
* C78 flips do not require a convex quadrilateral: triangles overlap. Constraints that fail
  are dropped silently; the exact walk may destroy an earlier constraint.
