{"id": "C01", "title": "Adding and removing triangles keeps the mesh a well-formed half-edge surface", "statement": "Starting from an empty mesh, after every history of add_vertex, add_triangle (distinct, in-range vertices) and remove_triangle calls: twins are mutual and never self-paired, next/prev are mutually inverse, every live face is a 3-cycle of live half-edges whose tails and heads chain up, every border half-edge lies on a closed border loop that turns around the fan at its head, the directed-edge map contains exactly the live half-edges keyed by (origin, head), and each vertex stores an outgoing live half-edge exactly when it has one.", "quantifier": "all finite histories of add_vertex/add_triangle/remove_triangle from Mesh::new, all vertex counts, including non-manifold (bow-tie) vertices", "why_tests_cant": "Any finite history of calls, in any order, on any number of vertices, is covered; a test runs finitely many histories of small length.", "anchors": ["src/mesh/triangle.rs:add_triangle", "src/mesh/triangle.rs:remove_triangle", "src/mesh/triangle.rs:rebuild_border_component_from", "src/mesh/triangle.rs:find_next_border", "src/mesh/core.rs:add_vertex"]}
{"id": "C02", "title": "add_triangle adds exactly the requested oriented triangle, flips it, or refuses", "statement": "On a reachable mesh, add_triangle(v0,v1,v2) with distinct in-range vertices appends exactly one face whose oriented vertex cycle is (v0,v1,v2) if none of the three directed edges is already used by a live face; otherwise appends (v0,v2,v1) if none of the three reversed directed edges is used; otherwise returns usize::MAX and leaves the mesh unchanged. All other faces keep their oriented vertices.", "quantifier": "all reachable meshes, all triples of distinct vertex indices", "why_tests_cant": "Any finite history of calls, in any order, on any number of vertices, is covered; a test runs finitely many histories of small length.", "anchors": ["src/mesh/triangle.rs:add_triangle"]}
{"id": "C03", "title": "add_triangle and remove_triangle never panic on a reachable mesh", "statement": "On every reachable mesh no indexing, assertion ('border crack', 'non-manifold') or sentinel dereference fails in add_triangle with distinct in-range vertices nor in remove_triangle with an in-range face, and the bounded walks always finish within their step limits.", "quantifier": "all reachable meshes and all arguments", "why_tests_cant": "Any finite history of calls, in any order, on any number of vertices, is covered; a test runs finitely many histories of small length.", "anchors": ["src/mesh/triangle.rs:add_triangle", "src/mesh/triangle.rs:find_next_border", "src/mesh/triangle.rs:rebuild_border_component_from", "src/mesh/triangle.rs:remove_triangle"]}
{"id": "C04", "title": "remove_triangle removes exactly one face", "statement": "On a reachable mesh remove_triangle(f) makes face f removed and leaves the oriented vertex cycle of every other live face unchanged; removing an already removed face is a no-op. The directed edges that stay registered are exactly those of the remaining faces and their reverses.", "quantifier": "all reachable meshes, all face indices in range", "why_tests_cant": "Any finite history of calls, in any order, on any number of vertices, is covered; a test runs finitely many histories of small length.", "anchors": ["src/mesh/triangle.rs:remove_triangle"]}
{"id": "C05", "title": "Removing a just-added triangle restores the surface", "statement": "If add_triangle returned face f then remove_triangle(f) yields a mesh with the same live oriented faces and the same set of registered directed edges as before the addition.", "quantifier": "all reachable meshes, all accepted triangles", "why_tests_cant": "Any finite history of calls, in any order, on any number of vertices, is covered; a test runs finitely many histories of small length.", "anchors": ["src/mesh/triangle.rs:add_triangle", "src/mesh/triangle.rs:remove_triangle"]}
{"id": "C06", "title": "validate_connectivity accepts every reachable mesh", "statement": "validate_connectivity returns without panicking on every mesh reachable through add_vertex/add_triangle/remove_triangle (and the topology editors proved well-formed).", "quantifier": "all reachable meshes", "why_tests_cant": "Any finite history of calls, in any order, on any number of vertices, is covered; a test runs finitely many histories of small length.", "anchors": ["src/mesh/topology.rs:validate_connectivity"]}
{"id": "C07", "title": "A directed edge is owned by at most one face and an undirected edge by at most two", "statement": "On a reachable mesh no two live faces share a directed edge (u,v), so every undirected edge is used by at most two live faces, with opposite directions.", "quantifier": "all reachable meshes, all pairs of faces", "why_tests_cant": "Any finite history of calls, in any order, on any number of vertices, is covered; a test runs finitely many histories of small length.", "anchors": ["src/mesh/triangle.rs:add_triangle"]}
{"id": "C08", "title": "flip_edge replaces the two triangles at an edge by the other diagonal", "statement": "If flip_edge(h) returns Ok on a well-formed mesh, the two faces (a,b,c) and (b,a,d) at h become (a,d,c) and (b,c,d); every other face is unchanged; the mesh stays well formed. If it returns Err the mesh is unchanged.", "quantifier": "all reachable meshes, all half-edge indices", "why_tests_cant": "Any finite history of calls, in any order, on any number of vertices, is covered; a test runs finitely many histories of small length.", "anchors": ["src/mesh/core.rs:flip_edge"]}
{"id": "C09", "title": "split_face subdivides one triangle into three", "statement": "split_face on a live face (a,b,c) of a well-formed mesh with a point that maps to a new vertex w removes the face and adds exactly the three faces around w, keeping every other face and the well-formedness of the mesh.", "quantifier": "all reachable meshes, all faces, all insertion points", "why_tests_cant": "Any finite history of calls, in any order, on any number of vertices, is covered; a test runs finitely many histories of small length.", "anchors": ["src/mesh/core.rs:split_face"]}
{"id": "C10", "title": "split_edge subdivides the two triangles at an interior edge into four", "statement": "split_edge on an interior edge of a well-formed mesh removes the two incident faces (c,a,b),(a,c,d) and adds the four faces around the new vertex, keeping all other faces and the well-formedness of the mesh.", "quantifier": "all reachable meshes, all interior half-edges whose two faces have different third corners, all insertion points", "why_tests_cant": "Any finite history of calls, in any order, on any number of vertices, is covered; a test runs finitely many histories of small length.", "anchors": ["src/mesh/core.rs:split_edge"]}
{"id": "C11", "title": "split_edge on a border edge keeps border loops and vertex anchors intact", "statement": "After split_edge on an edge with a face on one side only, border loops are closed through the new vertex and no vertex refers to a removed half-edge.", "quantifier": "all reachable meshes, all border edges", "why_tests_cant": "Any finite history of calls, in any order, on any number of vertices, is covered; a test runs finitely many histories of small length.", "anchors": ["src/mesh/core.rs:split_edge"]}
{"id": "C12", "title": "collapse_edge keeps the mesh well formed", "statement": "When collapse_edge reports Collapsed with default options, every live half-edge of the result has a live twin and the connectivity stays valid.", "quantifier": "all reachable meshes and edges that pass the collapse checks, interior or border", "why_tests_cant": "Any finite history of calls, in any order, on any number of vertices, is covered; a test runs finitely many histories of small length.", "anchors": ["src/mesh/edge_collapse.rs:collapse_edge", "src/mesh/edge_collapse.rs:collapse_edge_commit"]}
{"id": "C13", "title": "Vertex one-ring traversal is complete and terminates", "statement": "On a well-formed mesh, for a vertex whose incident faces form a single fan or a closed disk, outgoing_half_edges(v) terminates and returns exactly the live half-edges leaving v, each once; one_ring_neighbors returns exactly their heads.", "quantifier": "all reachable meshes, all vertices with one fan", "why_tests_cant": "Any finite history of calls, in any order, on any number of vertices, is covered; a test runs finitely many histories of small length.", "anchors": ["src/mesh/topology.rs:outgoing_half_edges", "src/mesh/topology.rs:one_ring_neighbors", "src/mesh/topology.rs:is_boundary_vertex"]}
{"id": "C14", "title": "build_boundary_loops links every border half-edge to its successor on the border", "statement": "After build_boundary_loops each border half-edge's next is the border half-edge that leaves its head vertex in the same border loop.", "quantifier": "all well-formed meshes with border", "why_tests_cant": "Any finite history of calls, in any order, on any number of vertices, is covered; a test runs finitely many histories of small length.", "anchors": ["src/mesh/core.rs:build_boundary_loops"]}
{"id": "C15", "title": "face_vertices / face_half_edges enumerate the triangle", "statement": "On a well-formed mesh face_half_edges(f) terminates with the three half-edges of f in cyclic order and face_vertices(f) returns the three distinct corner vertices, in orientation order.", "quantifier": "all reachable meshes, all live faces", "why_tests_cant": "Any finite history of calls, in any order, on any number of vertices, is covered; a test runs finitely many histories of small length.", "anchors": ["src/mesh/topology.rs:face_half_edges", "src/mesh/topology.rs:face_vertices"]}
{"id": "C16", "title": "Batch insertion equals one-by-one insertion", "statement": "add_triangles_deferred(list) on a well-formed mesh produces a well-formed mesh with the same live oriented faces, in the same order, as calling add_triangle on each element.", "quantifier": "all reachable meshes, all finite lists of triangles with distinct in-range vertices", "why_tests_cant": "Any finite history of calls, in any order, on any number of vertices, is covered; a test runs finitely many histories of small length.", "anchors": ["src/mesh/triangle.rs:add_triangles_deferred", "src/mesh/triangle.rs:add_triangle_no_weld", "src/mesh/triangle.rs:weld_border_components_from", "src/mesh/triangle.rs:fix_vertices_outgoing_for"]}
{"id": "C17", "title": "Batch removal equals one-by-one removal", "statement": "remove_triangles_deferred(fs) followed by weld_border_components_from and fix_vertices_outgoing_for with the returned seeds yields a well-formed mesh whose live faces are exactly the faces not listed.", "quantifier": "all reachable meshes, all finite face lists", "why_tests_cant": "Any finite history of calls, in any order, on any number of vertices, is covered; a test runs finitely many histories of small length.", "anchors": ["src/mesh/triangle.rs:remove_triangles_deferred", "src/mesh/triangle.rs:weld_border_components_from", "src/mesh/triangle.rs:fix_vertices_outgoing_for"]}
{"id": "C18", "title": "faces_around_face lists the faces sharing an edge with a face", "statement": "faces_around_face(f) returns exactly the live faces that share an edge with f.", "quantifier": "all well-formed meshes, all faces", "why_tests_cant": "Any finite history of calls, in any order, on any number of vertices, is covered; a test runs finitely many histories of small length.", "anchors": ["src/mesh/topology.rs:faces_around_face", "src/mesh/topology.rs:adjacent_faces"]}
{"id": "C19", "title": "remove_unused_vertices keeps the surface and drops exactly the isolated vertices", "statement": "After remove_unused_vertices the live faces have the same oriented corner positions in the same order, and every remaining vertex is used by a live face.", "quantifier": "all well-formed meshes", "why_tests_cant": "Any finite history of calls, in any order, on any number of vertices, is covered; a test runs finitely many histories of small length.", "anchors": ["src/mesh/core.rs:remove_unused_vertices"]}
{"id": "C20", "title": "Spatial hash keys do not collide inside the representable grid", "statement": "Two integer grid cells with coordinates in [-2^41, 2^41) get the same packed 128-bit key only if they are the same cell.", "quantifier": "all triples of i64 cell coordinates", "why_tests_cant": "2^126 pairs of cells", "anchors": ["src/mesh/spatial_hash.rs:pack_key3"]}
{"id": "C21", "title": "Quantisation of a coordinate to a grid cell is total and monotone", "statement": "floor_sat_i64 never overflows and returns the floor for every finite double in range, saturating outside.", "quantifier": "all f64 values", "why_tests_cant": "2^64 inputs; the failing ones are rare extremes", "anchors": ["src/mesh/spatial_hash.rs:floor_sat_i64"]}
{"id": "C22", "title": "get_or_insert_vertex never duplicates an exactly equal position", "statement": "For every history of get_or_insert_vertex calls with an exact scalar, inserting a position exactly equal to one inserted earlier returns an existing vertex whose position is within the merge threshold, creates no vertex, and vertices returned as new are appended.", "quantifier": "all finite insertion histories over exact scalars", "why_tests_cant": "Any finite history of calls, in any order, on any number of vertices, is covered; a test runs finitely many histories of small length.", "anchors": ["src/mesh/core.rs:get_or_insert_vertex"]}
{"id": "C23", "title": "Positions closer than the merge threshold are merged", "statement": "get_or_insert_vertex returns an existing vertex whenever some earlier vertex lies within the point-merge threshold.", "quantifier": "all insertion histories and positions", "why_tests_cant": "Any finite history of calls, in any order, on any number of vertices, is covered; a test runs finitely many histories of small length.", "anchors": ["src/mesh/core.rs:get_or_insert_vertex", "src/kernel/predicates.rs:are_approximately_equal"]}
{"id": "C24", "title": "AabbTree.query_valid equals a linear scan of the valid items", "statement": "After any history of build, insert, invalidate and compact, query_valid(q) returns (as a multiset) exactly the data of the valid items whose box intersects q.", "quantifier": "all histories and query boxes over exact scalars (given outward-safe double bounds)", "why_tests_cant": "Any finite history of calls, in any order, on any number of vertices, is covered; a test runs finitely many histories of small length.", "anchors": ["src/geometry/aabb_tree.rs:query_valid", "src/geometry/aabb_tree.rs:insert", "src/geometry/aabb_tree.rs:invalidate", "src/geometry/aabb_tree.rs:compact"]}
{"id": "C25", "title": "AabbTree.query equals a linear scan of all stored items", "statement": "After any history of build, insert and invalidate, query(q) returns (as a multiset) exactly the data of all stored items, valid or not, whose box intersects q.", "quantifier": "all histories and query boxes", "why_tests_cant": "Any finite history of calls, in any order, on any number of vertices, is covered; a test runs finitely many histories of small length.", "anchors": ["src/geometry/aabb_tree.rs:query", "src/geometry/aabb_tree.rs:build"]}
{"id": "C26", "title": "The AabbTree validity counters are exact", "statement": "The number of valid items recorded at the root equals the number of valid leaves after any history of build, insert and invalidate.", "quantifier": "all histories", "why_tests_cant": "Any finite history of calls, in any order, on any number of vertices, is covered; a test runs finitely many histories of small length.", "anchors": ["src/geometry/aabb_tree.rs:insert", "src/geometry/aabb_tree.rs:invalidate", "src/geometry/aabb_tree.rs:needs_rebuild"]}
{"id": "C27", "title": "Box algebra is set-theoretic", "statement": "from_points is the smallest box containing both points, union is the smallest box containing both boxes, intersects holds iff the boxes share a point (non-empty boxes), and inflated by d >= 0 contains the original box.", "quantifier": "all boxes and points of any dimension over an exact scalar", "why_tests_cant": "The inputs are arbitrary rationals (unbounded numerators and denominators) and include every degenerate configuration; a test samples finitely many.", "anchors": ["src/geometry/aabb.rs:from_points", "src/geometry/aabb.rs:union", "src/geometry/aabb.rs:intersects", "src/geometry/aabb.rs:inflated"]}
{"id": "C28", "title": "LazyExact arithmetic is exact however it is evaluated", "statement": "For every expression built from leaves with +,-,*,/,neg and every interleaving of forcing and cloning sub-expressions, exact() returns the rational value of the expression; identity simplification, constant folding, depth capping and caching never change it.", "quantifier": "all expression DAGs of any size and all evaluation orders", "why_tests_cant": "Expression shapes and evaluation interleavings are unbounded.", "anchors": ["src/numeric/lazy_exact.rs:LazyExact::new", "src/numeric/lazy_exact.rs:simplify_identities", "src/numeric/lazy_exact.rs:fold_if_both_exact", "src/numeric/lazy_exact.rs:exact"]}
{"id": "C29", "title": "LazyExact expression depth stays bounded", "statement": "No sequence of operations builds a LazyExact whose recorded depth exceeds MAX_DEPTH, so recursion depth of exact()/approx() is bounded.", "quantifier": "all operation sequences", "why_tests_cant": "Sequences are unbounded.", "anchors": ["src/numeric/lazy_exact.rs:compute_depth", "src/numeric/lazy_exact.rs:MAX_DEPTH"]}
{"id": "C30", "title": "LazyExact sign tests agree with the exact value", "statement": "sign/is_zero/is_positive/is_negative of a LazyExact agree with the sign of its exact rational value.", "quantifier": "all expressions over rational and f64 leaves", "why_tests_cant": "Failing inputs need a specific rounding pattern in the leaves.", "anchors": ["src/numeric/lazy_exact.rs:sign", "src/numeric/ball.rs:sign_if_certain", "src/numeric/lazy_exact.rs:eval_ball_kind"]}
{"id": "C31", "title": "LazyExact ordering agrees with equality", "statement": "cmp_ref(a,b) = Equal iff a == b, and otherwise it is the order of the exact values.", "quantifier": "all pairs of LazyExact values", "why_tests_cant": "Needs all pairs including signed zeros.", "anchors": ["src/numeric/lazy_exact.rs:cmp_ref", "src/numeric/lazy_exact.rs:as_f64_if_exact"]}
{"id": "C32", "title": "CgarF64 comparison is a coherent order", "statement": "partial_cmp on CgarF64 is transitive and returns Equal only for values that are ==, as PartialOrd requires.", "quantifier": "all f64 values", "why_tests_cant": "2^128 pairs, and violations sit within 1e-10.", "anchors": ["src/numeric/cgar_f64.rs:partial_cmp"]}
{"id": "C33", "title": "CgarF64 sign trichotomy", "statement": "For every finite value exactly one of is_zero, is_positive, is_negative holds.", "quantifier": "all finite f64 values", "why_tests_cant": "The gap is at single values.", "anchors": ["src/numeric/cgar_f64.rs:is_zero", "src/numeric/cgar_f64.rs:is_positive"]}
{"id": "C34", "title": "f64_next_up / f64_next_down bracket their argument", "statement": "For every finite double x, f64_next_down(x) < x < f64_next_up(x), and every real number that truncates (toward zero) to x lies in [f64_next_down x, f64_next_up x].", "quantifier": "all finite doubles", "why_tests_cant": "2^64 inputs.", "anchors": ["src/geometry/util.rs:f64_next_up", "src/geometry/util.rs:f64_next_down"]}
{"id": "C35", "title": "are_collinear decides collinearity", "statement": "With an exact scalar and a != b, are_collinear(a,b,c) is true iff c = a + t(b-a) for some t; with a = b it is true iff c = a.", "quantifier": "all points in any dimension", "why_tests_cant": "The inputs are arbitrary rationals (unbounded numerators and denominators) and include every degenerate configuration; a test samples finitely many.", "anchors": ["src/kernel/predicates.rs:are_collinear"]}
{"id": "C36", "title": "is_point_on_segment decides membership in the closed segment", "statement": "With an exact scalar, is_point_on_segment(p,s) is true iff p = a + t(b-a) with 0 <= t <= 1, including both end points.", "quantifier": "all points and segments", "why_tests_cant": "The inputs are arbitrary rationals (unbounded numerators and denominators) and include every degenerate configuration; a test samples finitely many.", "anchors": ["src/kernel/predicates.rs:is_point_on_segment"]}
{"id": "C37", "title": "point_u_on_segment returns the parameter of the point", "statement": "With an exact scalar and a != b, point_u_on_segment(a,b,p) = Some(u) iff 0 <= u <= 1 and p = a + u(b-a); otherwise None.", "quantifier": "all points and segments in any dimension", "why_tests_cant": "The inputs are arbitrary rationals (unbounded numerators and denominators) and include every degenerate configuration; a test samples finitely many.", "anchors": ["src/kernel/predicates.rs:point_u_on_segment"]}
{"id": "C38", "title": "orient returns the sign of the determinant", "statement": "orient of N+1 points has the sign of the determinant of the difference vectors (positive for counter-clockwise triangles).", "quantifier": "all points, N = 2 and 3", "why_tests_cant": "The inputs are arbitrary rationals (unbounded numerators and denominators) and include every degenerate configuration; a test samples finitely many.", "anchors": ["src/kernel/orientation.rs:orient"]}
{"id": "C39", "title": "Segment/segment intersection in the plane is correct", "statement": "segment_segment_intersection_2 returns Point(p) only if p lies on both segments, Overlapping(s) only if s is contained in both, and None only if they are disjoint.", "quantifier": "all pairs of segments", "why_tests_cant": "The inputs are arbitrary rationals (unbounded numerators and denominators) and include every degenerate configuration; a test samples finitely many.", "anchors": ["src/geometry/intersection.rs:segment_segment_intersection_2"]}
{"id": "C40", "title": "Segment/segment intersection in space is correct", "statement": "segment_segment_intersection_3 on non-parallel segments returns Point(p) iff p is their common point and None iff they are disjoint; on collinear segments it returns their common part.", "quantifier": "all pairs of segments", "why_tests_cant": "The inputs are arbitrary rationals (unbounded numerators and denominators) and include every degenerate configuration; a test samples finitely many.", "anchors": ["src/geometry/intersection.rs:segment_segment_intersection_3"]}
{"id": "C41", "title": "edge_edge_intersection_2 returns a point of both segments", "statement": "edge_edge_intersection_2(p1,p2,p3,p4) = Some(x) only if x lies on segment p1p2 and on segment p3p4.", "quantifier": "all pairs of segments", "why_tests_cant": "The inputs are arbitrary rationals (unbounded numerators and denominators) and include every degenerate configuration; a test samples finitely many.", "anchors": ["src/geometry/edge_edge_intersect.rs:edge_edge_intersection_2"]}
{"id": "C42", "title": "ray_segment_intersection_2d reports the first hit", "statement": "For a ray with a non-zero direction it returns Some(t,u) with t >= 0, 0 <= u <= 1 and origin + t*dir = a + u(b-a), t being the smallest such parameter, and returns None only if the ray misses the segment; parallel, collinear and degenerate segments included.", "quantifier": "all rays and segments", "why_tests_cant": "The inputs are arbitrary rationals (unbounded numerators and denominators) and include every degenerate configuration; a test samples finitely many.", "anchors": ["src/mesh/topology.rs:ray_segment_intersection_2d"]}
{"id": "C43", "title": "ray_triangle_intersection is sound and complete for a transversal ray", "statement": "With exact arithmetic, for a ray not parallel to the triangle plane it reports a hit at parameter t iff the point origin + t*dir with t >= 0 lies in the closed triangle.", "quantifier": "all rays and triangles", "why_tests_cant": "The inputs are arbitrary rationals (unbounded numerators and denominators) and include every degenerate configuration; a test samples finitely many.", "anchors": ["src/mesh/topology.rs:ray_triangle_intersection"]}
{"id": "C44", "title": "barycentric_coords reconstructs the point", "statement": "For a non-degenerate triangle barycentric_coords returns weights summing to one and, if p is in the triangle's plane, the weighted corner sum is p; it returns None only for degenerate triangles.", "quantifier": "all points and triangles", "why_tests_cant": "The inputs are arbitrary rationals (unbounded numerators and denominators) and include every degenerate configuration; a test samples finitely many.", "anchors": ["src/geometry/util.rs:barycentric_coords"]}
{"id": "C45", "title": "point_in_or_on_triangle classifies correctly", "statement": "With an exact scalar the answer is Outside iff p is not in the closed triangle, OnVertex / OnEdge / Inside as the barycentric signs say.", "quantifier": "all points and non-degenerate triangles in 2D and 3D", "why_tests_cant": "The inputs are arbitrary rationals (unbounded numerators and denominators) and include every degenerate configuration; a test samples finitely many.", "anchors": ["src/kernel/predicates.rs:point_in_or_on_triangle"]}
{"id": "C46", "title": "orient2d and incircle return the exact sign for exact scalars", "statement": "orient2d has the sign of the signed area; incircle is positive iff the point is strictly inside the circumcircle of a CCW triangle, zero iff cocircular.", "quantifier": "all points over exact scalars", "why_tests_cant": "The inputs are arbitrary rationals (unbounded numerators and denominators) and include every degenerate configuration; a test samples finitely many.", "anchors": ["src/kernel/predicates.rs:orient2d", "src/kernel/predicates.rs:incircle"]}
{"id": "C47", "title": "Plane construction and canonicalisation describe the same plane", "statement": "Plane::from_points contains its three points; origin() lies on the plane; canonicalized() describes the same point set and two planes with the same point set canonicalise to equal planes.", "quantifier": "all planes", "why_tests_cant": "The inputs are arbitrary rationals (unbounded numerators and denominators) and include every degenerate configuration; a test samples finitely many.", "anchors": ["src/geometry/plane.rs:from_points", "src/geometry/plane.rs:canonicalized", "src/geometry/plane.rs:origin"]}
{"id": "C48", "title": "Matrix inverse and determinant obey linear algebra", "statement": "inverse() is Some(b) iff det is non-zero and then a*b = b*a = identity; det is multiplicative for 2x2 and 3x3 and det of any size follows the Laplace expansion; matrix product is associative.", "quantifier": "all matrices (any dimensions for the product)", "why_tests_cant": "The inputs are arbitrary rationals (unbounded numerators and denominators) and include every degenerate configuration; a test samples finitely many.", "anchors": ["src/geometry/matrix.rs:inverse", "src/geometry/matrix.rs:det", "src/geometry/matrix.rs:mul"]}
{"id": "C49", "title": "bbox of a point set is the tight bounding box", "statement": "bbox2d/bbox3d of a non-empty list contains every point and each bound is attained by some point.", "quantifier": "all non-empty point lists", "why_tests_cant": "The inputs are arbitrary rationals (unbounded numerators and denominators) and include every degenerate configuration; a test samples finitely many.", "anchors": ["src/kernel/predicates.rs:bbox2d", "src/kernel/predicates.rs:bbox3d"]}
{"id": "C50", "title": "OFF files round-trip", "statement": "read_off(write_off(m)) has the same vertices (as doubles) and the same live oriented faces in the same order, for every well-formed mesh.", "quantifier": "all well-formed meshes of any size", "why_tests_cant": "Any finite history of calls, in any order, on any number of vertices, is covered; a test runs finitely many histories of small length.", "anchors": ["src/io/off.rs:write_off", "src/io/off.rs:read_off"]}
{"id": "C51", "title": "OBJ files round-trip", "statement": "read_obj(write_obj(m)) has the same vertices (as doubles) and the same live oriented faces in the same order, for every well-formed mesh.", "quantifier": "all well-formed meshes of any size", "why_tests_cant": "Any finite history of calls, in any order, on any number of vertices, is covered; a test runs finitely many histories of small length.", "anchors": ["src/io/obj.rs:write_obj", "src/io/obj.rs:read_obj"]}
{"id": "C52", "title": "STL files round-trip the triangle geometry", "statement": "read_stl(write_stl(m)) has one triangle per live face with the same corner positions in the same order (as doubles).", "quantifier": "all well-formed meshes of any size", "why_tests_cant": "Any finite history of calls, in any order, on any number of vertices, is covered; a test runs finitely many histories of small length.", "anchors": ["src/io/stl.rs:write_stl", "src/io/stl.rs:read_stl"]}
{"id": "C53", "title": "Delaunay output triangles are valid and never clockwise", "statement": "Every triangle produced by Delaunay::build refers to three distinct input points and has non-negative orientation, whatever the hash iteration order.", "quantifier": "all point lists, all HashMap iteration orders", "why_tests_cant": "Hash iteration order is random per run and point sets are unbounded.", "anchors": ["src/operations/triangulation/delaunay.rs:build", "src/operations/triangulation/delaunay.rs:bowyer_watson_insert_point"]}
{"id": "C54", "title": "The Delaunay super-triangle contains all input points", "statement": "The super-triangle used by build and by the batch builder contains every input point.", "quantifier": "all point sets", "why_tests_cant": "The inputs are arbitrary rationals (unbounded numerators and denominators) and include every degenerate configuration; a test samples finitely many.", "anchors": ["src/operations/triangulation/delaunay.rs:build", "src/operations/triangulation/delaunay.rs:build_batch_with_constraints_bowyer_watson"]}
{"id": "C55", "title": "point_in_mesh decides containment in a closed surface", "statement": "For a closed mesh, point_in_mesh_3 answers Inside exactly for points enclosed by the surface.", "quantifier": "all closed meshes and points", "why_tests_cant": "The inputs are arbitrary rationals (unbounded numerators and denominators) and include every degenerate configuration; a test samples finitely many.", "anchors": ["src/mesh/topology.rs:point_in_mesh_3", "src/mesh/topology.rs:cast_ray_3"]}
{"id": "C56", "title": "face_area is the area in every dimension", "statement": "face_area returns the area of the triangle in 2D and in 3D (consistent units: scaling coordinates by k scales it by k^2).", "quantifier": "all triangles, all scalings", "why_tests_cant": "The inputs are arbitrary rationals (unbounded numerators and denominators) and include every degenerate configuration; a test samples finitely many.", "anchors": ["src/mesh/topology.rs:face_area"]}
{"id": "C57", "title": "CgarRational is an exact ordered field with coherent hashing", "statement": "Arithmetic is exact, cmp_ref/partial_cmp agree with ==, and equal values hash equally.", "quantifier": "all rationals", "why_tests_cant": "The inputs are arbitrary rationals (unbounded numerators and denominators) and include every degenerate configuration; a test samples finitely many.", "anchors": ["src/numeric/cgar_rational.rs:cmp_ref", "src/numeric/cgar_rational.rs:hash"]}
{"id": "C58", "title": "Undirected edge keys are order-independent and faithful", "statement": "Edge::new(a,b) = Edge::new(b,a), and Edge::new(a,b) = Edge::new(c,d) iff {a,b} = {c,d}; likewise for CanonicalEdge/canonical index pairs.", "quantifier": "all index pairs", "why_tests_cant": "All pairs of 64-bit indices.", "anchors": ["src/mesh/basic_types.rs:Edge::new", "src/mesh/topology.rs:canonical_edge_indices", "src/geometry/canonical_edge.rs"]}
{"id": "C59", "title": "Adjacency and edge look-ups answer what the faces say", "statement": "On a well-formed mesh adjacent_faces(f) lists exactly the faces sharing an edge with f, are_faces_adjacent(f,g) is true iff they share an edge, half_edge_between(u,v) / edge_half_edges(u,v) return exactly the live half-edges along u-v, are_vertices_connected(u,v) is true iff some live face has the edge u-v, and canonical_edge_indices(h) is the sorted pair of its end points.", "quantifier": "all reachable meshes, faces, vertices and half-edges", "why_tests_cant": "Any finite history of calls, in any order, on any number of vertices, is covered; a test runs finitely many histories of small length.", "anchors": ["src/mesh/topology.rs:adjacent_faces", "src/mesh/topology.rs:are_faces_adjacent", "src/mesh/topology.rs:half_edge_between", "src/mesh/topology.rs:edge_half_edges", "src/mesh/topology.rs:are_vertices_connected", "src/mesh/topology.rs:canonical_edge_indices"]}
{"id": "C60", "title": "The collapse link condition is the link condition", "statement": "collapse_link_condition_triangle(v0,v1) returns true iff v0-v1 is an edge and the vertices adjacent to both end points are exactly the corners opposite to the edge in its incident faces.", "quantifier": "all reachable meshes, all pairs of vertices whose faces form one fan", "why_tests_cant": "Any finite history of calls, in any order, on any number of vertices, is covered; a test runs finitely many histories of small length.", "anchors": ["src/mesh/topology.rs:collapse_link_condition_triangle", "src/mesh/topology.rs:ring_pair", "src/mesh/topology.rs:vertex_ring_ccw"]}
{"id": "C61", "title": "split_edge is correct when the two faces at the edge have the same third corner", "statement": "split_edge on an interior edge whose two faces (c,a,b) and (a,c,b) have the same third corner leaves a well-formed mesh.", "quantifier": "all reachable meshes", "why_tests_cant": "Any finite history of calls, in any order, on any number of vertices, is covered; a test runs finitely many histories of small length.", "anchors": ["src/mesh/core.rs:split_edge"]}
{"id": "C62", "title": "point_u_on_segment_with_tolerance accepts exactly the points near the segment", "statement": "With an exact scalar and a != b it returns Some(u), u the parameter of the orthogonal projection of p on the line, iff some point of the closed segment is within the tolerance of p; otherwise None.", "quantifier": "all points, segments and tolerances, in any dimension", "why_tests_cant": "The inputs are arbitrary rationals (unbounded numerators and denominators) and include every degenerate configuration; a test samples finitely many.", "anchors": ["src/kernel/predicates.rs:point_u_on_segment_with_tolerance"]}
{"id": "C63", "title": "CanonicalEdge::parameter_t recovers the parameter of a point of the edge", "statement": "For an edge with distinct end points a, b and the point p = a + t(b - a), parameter_t(p) returns t.", "quantifier": "all edges and points of their lines, in two and three dimensions", "why_tests_cant": "The inputs are arbitrary rationals; the failing edges in space are exactly those parallel to the z axis, which a random test never draws.", "anchors": ["src/geometry/canonical_edge.rs:parameter_t"]}
{"id": "C64", "title": "With CgarRational or CgarF64, a position is never inserted twice", "statement": "For every history of add_vertex and get_or_insert_vertex calls on a CgarRational mesh, get_or_insert_vertex of a position equal to one passed in before creates no vertex, does not panic and returns an existing vertex whose coordinates are within the merge threshold (up to the rounding of differences to double); vertices returned as new are appended at exactly the given position; a history of get_or_insert_vertex calls alone leaves no two vertices with the same position; and nothing panics while coordinates stay below 10^12. On a CgarF64 mesh a position with the same bits is found again.", "quantifier": "all finite histories of calls and all positions", "why_tests_cant": "Any finite history of calls on any number of vertices is covered, with arbitrary rationals; a test runs finitely many short histories.", "anchors": ["src/mesh/core.rs:get_or_insert_vertex", "src/mesh/core.rs:add_vertex", "src/mesh/spatial_hash.rs:position_to_packed_key"]}
{"id": "C65", "title": "AabbTree counters are exact on careful histories", "statement": "If no item is inserted between an invalidate and the next compact, the root records exactly the number of valid items and the number of stored items.", "quantifier": "all histories of build, insert, invalidate and compact over exact scalars with that restriction", "why_tests_cant": "Any finite history of calls, in any order, on any number of items, is covered; a test runs finitely many histories of small length.", "anchors": ["src/geometry/aabb_tree.rs:insert", "src/geometry/aabb_tree.rs:invalidate", "src/geometry/aabb_tree.rs:compact"]}
{"id": "C66", "title": "The root box of an AabbTree is the smallest box around its items; get_aabb finds items", "statement": "After any history the box of the root is contained in a box c exactly when every stored box is; get_aabb(i) returns the box of a stored item with data i, and nothing only if there is none.", "quantifier": "all histories and boxes over exact scalars", "why_tests_cant": "Any finite history of calls, in any order, on any number of items, is covered; a test runs finitely many histories of small length.", "anchors": ["src/geometry/aabb_tree.rs:aabb", "src/geometry/aabb_tree.rs:get_aabb"]}
{"id": "C67", "title": "needs_rebuild is the half-full test", "statement": "After any history needs_rebuild holds exactly when fewer than half of the stored items are recorded as valid, despite the double division.", "quantifier": "all histories with at most 2^53 items", "why_tests_cant": "Any finite history of calls, in any order, on any number of items, is covered; a test runs finitely many histories of small length.", "anchors": ["src/geometry/aabb_tree.rs:needs_rebuild"]}
{"id": "C68", "title": "longest_axis and center", "statement": "longest_axis returns the first axis whose side length is maximal; center(i) is the midpoint of the i-th side.", "quantifier": "all boxes of any dimension over an exact scalar", "why_tests_cant": "The inputs are arbitrary rationals in any dimension; a test samples finitely many.", "anchors": ["src/geometry/aabb.rs:longest_axis", "src/geometry/aabb.rs:center"]}
{"id": "C69", "title": "read_stl accepts or refuses every text", "statement": "Whatever the text of the file, read_stl does not panic: it returns an error or a mesh, and the mesh is well formed.", "quantifier": "all texts of any length, all scalars that can hold every double", "why_tests_cant": "The input is an arbitrary text of unbounded length; a fuzzer runs finitely many.", "anchors": ["src/io/stl.rs:read_stl"]}
{"id": "C70", "title": "read_off and read_obj return a well-formed mesh or an error", "statement": "Whatever the text of the file, read_off and read_obj return an error or a well-formed mesh.", "quantifier": "all texts of any length", "why_tests_cant": "The input is an arbitrary text of unbounded length; a fuzzer runs finitely many.", "anchors": ["src/io/off.rs:read_off", "src/io/obj.rs:read_obj"]}
{"id": "C71", "title": "OFF comments and blank lines do not matter", "statement": "Appending '#' and any comment to any lines of an OFF file, and inserting blank lines, does not change what read_off returns.", "quantifier": "all texts, all comments, all positions", "why_tests_cant": "Arbitrary texts and comments; tests fix a few files.", "anchors": ["src/io/off.rs:read_off"]}
{"id": "C72", "title": "One Bowyer-Watson insertion re-triangulates the cavity", "statement": "Inserting a point keeps exactly the triangles whose circumcircle test rejects the point, and adds exactly one triangle to the point from every edge that belongs to exactly one of the removed triangles, whatever the hash iteration order.", "quantifier": "all point lists, all lists of valid triangles, all hash iteration orders, all verdicts of the floating-point filter", "why_tests_cant": "The set of triangles and the hash order are unbounded; a test sees one order.", "anchors": ["src/operations/triangulation/delaunay.rs:bowyer_watson_insert_point"]}
{"id": "C73", "title": "Adjacency lists stay exact during constraint insertion", "statement": "After rebuild, and after inserting any number of constraints, the edge-to-triangle and vertex-to-triangle lists name exactly the triangles at each edge and each vertex, each once.", "quantifier": "all point lists, all triangle lists, all constraint lists, all choices of the walk", "why_tests_cant": "The lists are patched incrementally along walks of unbounded length.", "anchors": ["src/operations/triangulation/delaunay.rs:Adj"]}
{"id": "C74", "title": "Constrained and batch triangulation never panic and give proper triangles", "statement": "build_with_constraints and the batch builder return for every input (any points, any constraint indices) without an out-of-bounds access; every triangle has three distinct input points and is counter-clockwise up to the tolerance; the batch returns one result per job.", "quantifier": "all point lists, all constraint lists, all job lists, all hash orders", "why_tests_cant": "Walks with up to 4n flips on arbitrary inputs; a test covers a few walks.", "anchors": ["src/operations/triangulation/delaunay.rs:build_with_constraints_bowyer_watson", "src/operations/triangulation/delaunay.rs:build_batch_with_constraints_bowyer_watson"]}
{"id": "C75", "title": "Inserted constraints are edges of the result", "statement": "With CgarRational coordinates every constraint part that build_with_constraints records as inserted is an edge of a triangle of the result (later insertions do not destroy it), and a successful insert_constraint_walk joins its two end points.", "quantifier": "all point lists, all constraint lists, all hash orders", "why_tests_cant": "Depends on all later flips of all later constraints.", "anchors": ["src/operations/triangulation/delaunay.rs:insert_constraint_walk", "src/operations/triangulation/delaunay.rs:flip_shared_edge_with_adj", "src/operations/triangulation/delaunay.rs:exit_edge_of_triangle_fast"]}
{"id": "C76", "title": "Constraints are split at the points on them", "statement": "split_constraint_chain(a, b) is a simple path from a to b that visits every input point lying on the segment, only points within the tolerance of it, in the order of their projections.", "quantifier": "all point lists, all pairs of distinct indices", "why_tests_cant": "Any number of collinear points in any order.", "anchors": ["src/operations/triangulation/delaunay.rs:split_constraint_chain"]}
{"id": "C77", "title": "Batch results come in job order", "statement": "The i-th result of the batch builder is the triangulation of the i-th job, independent of the other jobs.", "quantifier": "all job lists", "why_tests_cant": "Mixes of job sizes are unbounded.", "anchors": ["src/operations/triangulation/delaunay.rs:build_batch_with_constraints_bowyer_watson"]}
{"id": "C78", "title": "Constraint insertion keeps the covered area", "statement": "Inserting constraints does not change the region the triangles cover: the total area of the triangles is that of the unconstrained triangulation and no triangle occurs twice.", "quantifier": "all point lists, all constraint lists", "why_tests_cant": "Overlaps appear only for particular non-convex flips.", "anchors": ["src/operations/triangulation/delaunay.rs:flip_shared_edge_with_adj", "src/operations/triangulation/delaunay.rs:insert_constraint_walk"]}
{"id": "C79", "title": "Rewriting faces by triangulations keeps the mesh well-formed", "statement": "rewrite_faces_from_cdt_batch applied to a well-formed mesh yields a well-formed mesh, whatever triangulations the jobs carry.", "quantifier": "all well-formed meshes, all job lists and triangulations", "why_tests_cant": "Which borders and anchors stay stale depends on how the new triangles meet the hole; the combinations are unbounded.", "anchors": ["src/mesh_processing/boolean.rs:rewrite_faces_from_cdt_batch", "src/mesh/triangle.rs:remove_triangles_deferred", "src/mesh/triangle.rs:add_triangles_deferred"]}
{"id": "C80", "title": "Collapsing an inner edge does exactly the intended contraction", "statement": "On a well-formed mesh, collapse_edge of an edge with two faces, at least one end of which is not on the border and whose ends carry one fan of faces each, never panics. It is accepted exactly when the end points share no neighbour but the two opposite corners, these differ, and no surviving face becomes thin at the new position. A rejected collapse changes nothing. An accepted one removes the two faces of the edge, renames v to u in every other face, moves u to the new position, flags v as removed, and leaves the mesh well formed.", "quantifier": "all well-formed meshes, all such edges, all placements and thinness tests, all hash iteration orders", "why_tests_cant": "Vertex degrees and mesh sizes are unbounded and the repair depends on hash iteration order.", "anchors": ["src/mesh/edge_collapse.rs:collapse_edge", "src/mesh/edge_collapse.rs:verify_collapse_prereqs", "src/mesh/edge_collapse.rs:collapse_edge_commit"]}
{"id": "C81", "title": "The flip pass of the remesher keeps the mesh valid", "statement": "flip_edges applied to a well-formed mesh performs a sequence of flips, each replacing two adjacent faces by the two faces across the other diagonal where that diagonal was free and the quality test accepted it. The result is well formed, with the same vertices, positions and table sizes; a closed surface stays a closed surface, and one without opposite faces on the same vertices stays so. The pass panics only if the quality test does.", "quantifier": "all well-formed meshes, all quality tests and degeneracy guards", "why_tests_cant": "Each flip changes what later half-edges of the list see; the number of flips is unbounded.", "anchors": ["src/mesh_processing/remesh.rs:flip_edges", "src/mesh_processing/remesh.rs:should_flip_edge", "src/mesh_processing/remesh.rs:vertex_valence"]}
{"id": "C82", "title": "Smoothing moves only inner vertices and creates no long edge", "statement": "smooth_vertices applied to a well-formed mesh never panics and changes nothing but vertex positions. Removed vertices and border vertices with one fan of faces do not move. On meshes with one fan per vertex, an edge longer than the bound afterwards has both ends where they were.", "quantifier": "all well-formed meshes, all target formulas and bounds, any number of sweeps", "why_tests_cant": "Vertices move in sequence and each move sees the previous ones.", "anchors": ["src/mesh_processing/remesh.rs:smooth_vertices", "src/mesh/core.rs:smooth_tangential"]}
{"id": "C83", "title": "The split pass keeps a closed surface and splits disjoint long edges", "statement": "split_long_edges applied to a closed surface without opposite faces on the same vertices never panics and yields such a surface. Old vertices keep their positions. Every new vertex is the midpoint of an edge of the input longer than the bound, and no two split edges share an end.", "quantifier": "all closed surfaces without opposite faces, all bounds, all outcomes of the vertex searches", "why_tests_cant": "Candidates are collected first and split later, when earlier splits have changed the mesh.", "anchors": ["src/mesh_processing/remesh.rs:split_long_edges", "src/mesh/core.rs:split_edge"]}
{"id": "C84", "title": "The collapse pass keeps a closed surface and contracts short edges", "statement": "collapse_short_edges applied to a closed surface never panics; it performs as many edge contractions as it reports, each of an edge that is present and shorter than the bound at that moment, placed at the midpoint; the result is a closed surface.", "quantifier": "all closed surfaces, all bounds, all iteration orders of the candidate set", "why_tests_cant": "Candidates are a hash set visited in arbitrary order while the mesh changes.", "anchors": ["src/mesh_processing/remesh.rs:collapse_short_edges", "src/mesh/edge_collapse.rs:collapse_edge"]}
{"id": "C85", "title": "Remeshing keeps a closed surface", "statement": "isotropic_remesh applied to a closed surface without opposite faces on the same vertices yields a closed surface, for any number of iterations.", "quantifier": "all such surfaces, all target lengths and iteration counts, all hash orders", "why_tests_cant": "Iterations compose splits, collapses, flips and moves without bound.", "anchors": ["src/mesh_processing/remesh.rs:isotropic_remesh"]}
{"id": "C86", "title": "Smoothing moves along the tangent plane", "statement": "When smooth_tangential moves a vertex with one ring of faces, the displacement is orthogonal to the sum of the normals of its faces, and is alpha times the mean difference to its neighbours minus a multiple of that normal.", "quantifier": "all well-formed meshes with CgarRational positions, all vertices, all alpha", "why_tests_cant": "Vertex degrees are unbounded.", "anchors": ["src/mesh/core.rs:smooth_tangential"]}
{"id": "C87", "title": "cast_ray_3 reports the nearest crossing", "statement": "For a well-formed mesh and a tree holding its faces, cast_ray_3 (without tolerance, or with tolerance 0) never panics. A reported hit at parameter t >= 0 is a point where the ray crosses a live face, on the reported face, edge or vertex (up to the classification tolerance in barycentric weights), and no crossing with parameter at most 10^7 comes earlier. A miss means there is no crossing with parameter at most 10^7.", "quantifier": "all meshes, trees built and edited in any way, points, directions", "why_tests_cant": "Meshes, trees and rational coordinates are unbounded; a test samples finitely many, and the failing configurations (holes, removed faces, coordinates that are not doubles) are not the usual test meshes.", "anchors": ["src/mesh/topology.rs:cast_ray_3"]}
{"id": "C88", "title": "what point_in_mesh_3 decides", "statement": "For a well-formed mesh within 10^7 of the point and a tree holding its faces, point_in_mesh_3 never panics, answers OnSurface exactly for the points on a face of positive area, and Inside exactly for the other points from which at least four of the six axis directions cross the surface.", "quantifier": "all meshes, trees and rational points", "why_tests_cant": "Meshes, trees and rational coordinates are unbounded; a test samples finitely many, and the failing configurations (holes, removed faces, coordinates that are not doubles) are not the usual test meshes.", "anchors": ["src/mesh/topology.rs:point_in_mesh_3"]}
{"id": "C89", "title": "build_face_tree holds exactly the live faces, in boxes that contain them", "statement": "For every mesh with a live face, build_face_tree returns a tree whose valid entries are the live faces, each in a box that contains its corners.", "quantifier": "all well-formed meshes and all orders of the median selection", "why_tests_cant": "Meshes, trees and rational coordinates are unbounded; a test samples finitely many, and the failing configurations (holes, removed faces, coordinates that are not doubles) are not the usual test meshes.", "anchors": ["src/mesh/core.rs:build_face_tree", "src/mesh/core.rs:internal_build_face_tree", "src/mesh/core.rs:compute_triangle_aabb_fast"]}
{"id": "C90", "title": "point_in_mesh_2 decides whether a point lies in a planar mesh", "statement": "For a planar mesh, point_in_mesh_2 never panics and answers true exactly for the points covered by a face (away from the boundary).", "quantifier": "all well-formed planar meshes, points, and iteration orders of the edge map", "why_tests_cant": "Meshes, trees and rational coordinates are unbounded; a test samples finitely many, and the failing configurations (holes, removed faces, coordinates that are not doubles) are not the usual test meshes.", "anchors": ["src/mesh/topology.rs:point_in_mesh_2", "src/mesh/topology.rs:cast_ray_2", "src/mesh/topology.rs:get_boundary_half_edges"]}
{"id": "C91", "title": "Triangle-triangle intersection reports exactly the common part of two triangles in different planes", "statement": "For two triangles of positive area in different planes, where an edge of one lies in the plane of the other only if that plane is parallel to two axes, tri_tri_intersection and tri_tri_intersection_with_precomp report nothing exactly if the triangles share no point, and otherwise the end points of the segment they share; a reported single point means that the shared segment is at most a millionth long. The comparison of magnitudes through doubles that picks a coordinate is assumed to tell zero from non-zero (no underflow).", "quantifier": "all such pairs of triangles with rational coordinates and all magnitude comparisons that tell zero from non-zero", "why_tests_cant": "Coordinates are unbounded rationals; a test samples finitely many pairs of triangles, and the failing configurations (edges in a tilted plane, touching corners, needles, underflow) are rarely sampled.", "anchors": ["src/geometry/tri_tri_intersect.rs:tri_tri_intersection", "src/geometry/tri_tri_intersect.rs:tri_tri_intersection_with_precomp", "src/geometry/tri_tri_intersect.rs:clip_segment_to_triangle_in_plane"]}
{"id": "C92", "title": "The three triangle-triangle functions report the same points", "statement": "tri_tri_intersection_detailed and tri_tri_intersection_with_precomp report the same points for all pairs of triangles, and tri_tri_intersection the same result as the latter if the first triangle has positive area.", "quantifier": "all pairs of triangles, all magnitude comparisons", "why_tests_cant": "Coordinates are unbounded rationals; a test samples finitely many pairs of triangles, and the failing configurations (edges in a tilted plane, touching corners, needles, underflow) are rarely sampled.", "anchors": ["src/geometry/tri_tri_intersect.rs:tri_tri_intersection", "src/geometry/tri_tri_intersect.rs:tri_tri_intersection_with_precomp", "src/geometry/tri_tri_intersect.rs:tri_tri_intersection_with_precomp_detailed", "src/geometry/tri_tri_intersect.rs:tri_tri_intersection_detailed"]}
{"id": "C93", "title": "Contacts of tri_tri_intersection_detailed say where the ends lie", "statement": "Under the conditions of C91, tri_tri_intersection_detailed reports the common part, and each end carries for each triangle a contact (corner, edge with parameter, or barycentric coordinates) that names the place of a point at most a millionth away from the end. The answer is marked as coplanar only if an edge of the first triangle lies in the plane of the second.", "quantifier": "all such pairs of triangles, all magnitude comparisons that tell zero from non-zero", "why_tests_cant": "Coordinates are unbounded rationals; a test samples finitely many pairs of triangles, and the failing configurations (edges in a tilted plane, touching corners, needles, underflow) are rarely sampled.", "anchors": ["src/geometry/tri_tri_intersect.rs:tri_tri_intersection_detailed", "src/geometry/tri_tri_intersect.rs:tri_tri_intersection_with_precomp_detailed", "src/geometry/tri_tri_intersect.rs:classify_on_tri", "src/geometry/tri_tri_intersect.rs:snap_exterior_to_edge", "src/geometry/tri_tri_intersect.rs:merge_contact"]}
{"id": "C94", "title": "An edge in the plane of the other triangle is clipped to that triangle", "statement": "If an edge of one triangle lies in the plane of the other and the planes differ, the functions report the part of the edge that lies on the other triangle.", "quantifier": "all pairs of triangles of positive area in different planes with an edge in the plane of the other", "why_tests_cant": "Coordinates are unbounded rationals; a test samples finitely many pairs of triangles, and the failing configurations (edges in a tilted plane, touching corners, needles, underflow) are rarely sampled.", "anchors": ["src/geometry/tri_tri_intersect.rs:clip_segment_to_triangle_in_plane", "src/geometry/tri_tri_intersect.rs:back_project_to_3d", "src/geometry/tri_tri_intersect.rs:tri_tri_intersection"]}
{"id": "C95", "title": "Two triangles in one plane: the reported polygon is their common part", "statement": "For two triangles of positive area in one plane, tri_tri_intersection reports the convex polygon they share (up to merging corners closer than a millionth), and nothing only if they share no point.", "quantifier": "all pairs of triangles of positive area in one plane", "why_tests_cant": "Coordinates are unbounded rationals; a test samples finitely many pairs of triangles, and the failing configurations (edges in a tilted plane, touching corners, needles, underflow) are rarely sampled.", "anchors": ["src/geometry/tri_tri_intersect.rs:coplanar_tri_tri_intersection", "src/geometry/tri_tri_intersect.rs:convex_hull_2d_indices", "src/geometry/tri_tri_intersect.rs:tri_tri_intersection"]}
{"id": "C96", "title": "segment_intersect_2d returns the common part of two segments", "statement": "For a first segment that is not a single point and any second segment, segment_intersect_2d returns the ends of the common part, and None only if there is none.", "quantifier": "all pairs of planar segments with rational coordinates, the first of positive length", "why_tests_cant": "Coordinates are unbounded rationals; a test samples finitely many pairs of triangles, and the failing configurations (edges in a tilted plane, touching corners, needles, underflow) are rarely sampled.", "anchors": ["src/geometry/tri_tri_intersect.rs:segment_intersect_2d"]}
{"id": "C97", "title": "convex_hull_2d_indices returns the convex hull", "statement": "For every list of points, with repeated and collinear points, the result lists distinct positions of the list: the corners of the convex hull in counter-clockwise order with strict left turns, and every half-plane that contains them contains all the points.", "quantifier": "all finite lists of points with rational coordinates", "why_tests_cant": "Coordinates are unbounded rationals; a test samples finitely many pairs of triangles, and the failing configurations (edges in a tilted plane, touching corners, needles, underflow) are rarely sampled.", "anchors": ["src/geometry/tri_tri_intersect.rs:convex_hull_2d_indices"]}
{"id": "C98", "title": "remove_invalidated_faces drops exactly the removed faces and renumbers the others in order", "statement": "On a well-formed mesh the call does not panic; afterwards no face is removed, the i-th face is the i-th formerly live face with the same corners in the same orientation, vertices and edge map are unchanged, and the mesh is well formed.", "quantifier": "all well-formed meshes", "why_tests_cant": "The meshes, histories of removed elements, coordinates and classifications are unbounded, and the iteration order of hash tables varies from run to run; a test sees a few meshes and one order.", "anchors": ["src/mesh/core.rs:remove_invalidated_faces"]}
{"id": "C99", "title": "remove_duplicate_vertices merges exactly the vertices with equal positions", "statement": "On a well-formed mesh the call does not panic; afterwards no two vertices have equal positions, every former vertex has a copy with an equal position, every vertex is such a copy, every live face has the copies of its corners, the edge map has the copies of the edges, and the returned number is the number of vertices that went. Equal positions are assumed to have equal hash keys.", "quantifier": "all well-formed meshes, all position types whose equality is an equivalence with equal keys for equal positions, all iteration orders of the hash tables", "why_tests_cant": "The meshes, histories of removed elements, coordinates and classifications are unbounded, and the iteration order of hash tables varies from run to run; a test sees a few meshes and one order.", "anchors": ["src/mesh/core.rs:remove_duplicate_vertices"]}
{"id": "C100", "title": "A Boolean operation builds exactly the triangles its classification selects", "statement": "For meshes A and B with classified faces, the mesh built by the last part of corefine_and_boolean has, in order, the triangles of A outside (union, difference) or inside (intersection), then those of B outside (union), inside (intersection) or inside and reversed (difference), provided that no directed side occurs twice among them and no side has equal ends; vertices have different positions, all are used, and the mesh is well formed.", "quantifier": "all pairs of well-formed meshes within the index range, all classifications, all three operations, all iteration orders", "why_tests_cant": "The meshes, histories of removed elements, coordinates and classifications are unbounded, and the iteration order of hash tables varies from run to run; a test sees a few meshes and one order.", "anchors": ["src/mesh_processing/boolean.rs:corefine_and_boolean", "src/mesh/core.rs:remove_duplicate_vertices", "src/mesh/core.rs:remove_unused_vertices", "src/mesh/core.rs:remove_invalidated_faces"]}
{"id": "C101", "title": "The result of a Boolean operation is a well-formed mesh for every classification", "statement": "Whatever the classification and however the selected triangles clash, the last part of corefine_and_boolean does not panic and returns a well-formed mesh whose faces are all live and are selected triangles, possibly turned around.", "quantifier": "all pairs of well-formed meshes within the index range, all classifications, all three operations, all iteration orders", "why_tests_cant": "The meshes, histories of removed elements, coordinates and classifications are unbounded, and the iteration order of hash tables varies from run to run; a test sees a few meshes and one order.", "anchors": ["src/mesh_processing/boolean.rs:corefine_and_boolean"]}
{"id": "C102", "title": "The result of a Boolean operation is closed when the selected triangles match up", "statement": "If in addition to C100 every directed side of the selected triangles is met by a side in the opposite direction, no half-edge of the result lies on a border.", "quantifier": "all pairs of well-formed meshes within the index range, all classifications whose selected triangles match up, all three operations, all iteration orders", "why_tests_cant": "The meshes, histories of removed elements, coordinates and classifications are unbounded, and the iteration order of hash tables varies from run to run; a test sees a few meshes and one order.", "anchors": ["src/mesh_processing/boolean.rs:corefine_and_boolean"]}
{"id": "C103", "title": "Half-edges and faces are found again by find_valid_half_edge and face_from_vertices", "statement": "In a well-formed mesh find_valid_half_edge of a half-edge in use returns that half-edge, for every point; face_from_vertices of three vertices that each have one fan of faces returns a live face with these corners, or usize::MAX when there is none.", "quantifier": "all well-formed meshes, half-edges in use, points and vertex triples", "why_tests_cant": "The meshes, segment lists, classifications and iteration orders of hash tables are unbounded; a test sees a few meshes with one order.", "anchors": ["src/mesh/topology.rs:find_valid_half_edge", "src/mesh/topology.rs:face_from_vertices"]}
{"id": "C104", "title": "Classification marks the faces a walk reaches without crossing a segment", "statement": "classify_faces_3 and classify_faces_2 do not panic. When no face beside an intersection segment counts as inside, every live face is marked exactly if its own location counts. Otherwise some face beside a segment counts, and exactly the faces reached from it over shared edges that are not segments are marked, together with, where included, a face for every coplanar triangle.", "quantifier": "all well-formed meshes, segments along inner edges, coplanar triangles and answers of the point location", "why_tests_cant": "The meshes, segment lists, classifications and iteration orders of hash tables are unbounded; a test sees a few meshes with one order.", "anchors": ["src/mesh_processing/boolean.rs:classify_faces_3", "src/mesh_processing/boolean.rs:classify_faces_2", "src/mesh_processing/boolean.rs:get_seed_face_3"]}
{"id": "C105", "title": "Classification agrees with the true inside region", "statement": "If the location test is right, the segments separate inside from outside faces and coplanar triangles are inside, every marked face is inside; if the inside faces are also connected without crossing a segment, exactly the inside faces are marked.", "quantifier": "all well-formed meshes, segments along inner edges and true inside regions", "why_tests_cant": "The meshes, segment lists, classifications and iteration orders of hash tables are unbounded; a test sees a few meshes with one order.", "anchors": ["src/mesh_processing/boolean.rs:classify_faces_3", "src/mesh_processing/boolean.rs:classify_faces_2"]}
{"id": "C106", "title": "A Boolean operation on correctly split meshes returns the Boolean result", "statement": "If for both meshes the conditions of C105 hold, the last part of corefine_and_boolean (classification and assembly) does not panic and the mesh returned has exactly the triangles that the operation selects from the true inside regions, provided that no directed side occurs twice among them.", "quantifier": "all pairs of well-formed meshes, true inside regions, three operations, iteration orders", "why_tests_cant": "The meshes, segment lists, classifications and iteration orders of hash tables are unbounded; a test sees a few meshes with one order.", "anchors": ["src/mesh_processing/boolean.rs:corefine_and_boolean"]}
{"id": "C107", "title": "Of the intersection segments with the same ends exactly one is left", "statement": "remove_duplicate_and_invalid_segments does not panic and changes only the invalidated marks. For each segment exactly one unmarked segment has the same end points (in either order): the first coplanar one, or the first one when none is coplanar.", "quantifier": "all segment lists, all hash functions and equalities of points where equality is an equivalence and equal points have equal hashes (collisions allowed)", "why_tests_cant": "The meshes, segment lists, classifications and iteration orders of hash tables are unbounded; a test sees a few meshes with one order.", "anchors": ["src/mesh_processing/boolean.rs:remove_duplicate_and_invalid_segments"]}
{"id": "C108", "title": "extract_triangles_in_group finds exactly the triangles of segments", "statement": "For segments whose ends are vertices of the mesh the call does not panic and returns, each once, the triples a < b < c of vertices joined pairwise by segments of the group whose triangle is not flat.", "quantifier": "all segment groups and meshes", "why_tests_cant": "The meshes, segment lists, classifications and iteration orders of hash tables are unbounded; a test sees a few meshes with one order.", "anchors": ["src/mesh_processing/boolean.rs:extract_triangles_in_group"]}
{"id": "C109", "title": "build_links separates coplanar segments and finds their triangles plane by plane", "statement": "build_links does not panic; the segments left are those that are not coplanar, in order; the triangles returned are exactly the non-flat triangles of coplanar segments that run along edges of faces of one plane.", "quantifier": "all well-formed meshes, segment lists with known ends, plane keys and iteration orders", "why_tests_cant": "The meshes, segment lists, classifications and iteration orders of hash tables are unbounded; a test sees a few meshes with one order.", "anchors": ["src/mesh_processing/boolean.rs:build_links"]}
{"id": "C110", "title": "The intersection segments of two meshes are exactly the common parts of their faces", "statement": "For two closed meshes without removed faces in general position get_mesh_intersections_3 does not panic and returns pairs of segments, one for each mesh: each pair is the common part of a face of one and a face of the other, with hints that name the vertex, edge and parameter, or face and weights where its ends lie; a pair is marked as coplanar only if an edge of the first face lies in the plane of the second; any two faces that share a point have exactly one pair.", "quantifier": "all pairs of closed meshes with exact rational coordinates in general position, all ways to build the box trees", "why_tests_cant": "The meshes, their coordinates and the orders inside the box trees are unbounded; a test sees a few pairs of meshes.", "anchors": ["src/mesh_processing/boolean.rs:get_mesh_intersections_3", "src/mesh/core.rs:face_aabb"]}
{"id": "C111", "title": "No intersection segments are reported exactly if the surfaces share no point", "statement": "For two closed meshes without removed faces in general position both lists of get_mesh_intersections_3 are empty if and only if no point lies on both surfaces.", "quantifier": "all pairs of closed meshes with exact rational coordinates in general position", "why_tests_cant": "The meshes, their coordinates and the orders inside the box trees are unbounded; a test sees a few pairs of meshes.", "anchors": ["src/mesh_processing/boolean.rs:get_mesh_intersections_3"]}
{"id": "C112", "title": "The in-circle test of the triangulation tells whether a point is inside the circumcircle", "statement": "point_in_circumcircle and point_in_circumcircle_fast answer true exactly if the point lies strictly inside the circle through the three corners, for triangles of either orientation; the answers of the double-precision filter agree with the exact test.", "quantifier": "all points and triangles that are not flat", "why_tests_cant": "Points and triangles are unbounded; the wrong answers of the filter appear only for triangles far from the origin.", "anchors": ["src/operations/triangulation/delaunay.rs:point_in_circumcircle", "src/operations/triangulation/delaunay.rs:point_in_circumcircle_fast", "src/operations/triangulation/delaunay.rs:circumcircle_approx_fast"]}
{"id": "C113", "title": "Allocating vertices for intersection segments only adds vertices and gives every end one near its point", "statement": "For a well-formed mesh and segments whose hints name a vertex, an edge or a face of it, allocate_vertices_for_splits_no_topology does not panic; faces, half-edges and old vertices stay as they are; every new vertex is at an end of a segment in use where no earlier vertex answered; every end gets a vertex of the mesh and its hints are replaced by that vertex and the faces; an end on an edge gets its own vertex unless an end on a vertex has the same cell of a millionth, ends on vertices and inside faces share the vertex of their cell; around the origin the vertex is at most 2.002 millionths away in each coordinate; the segments of the search (C110) meet the conditions.", "quantifier": "all well-formed meshes with exact rational coordinates, all lists of segments", "why_tests_cant": "The meshes, the segments and their coordinates are unbounded; a test sees a few of them.", "anchors": ["src/mesh_processing/boolean.rs:allocate_vertices_for_splits_no_topology", "src/mesh_processing/boolean.rs:point_key"]}
{"id": "C114", "title": "Ends of segments at different points get different vertices, exactly at their points", "statement": "If the coordinates are at most 1000 in magnitude and any two different points among the vertices and ends differ by more than 1.001 millionths in some coordinate, then allocate_vertices_for_splits_no_topology gives every end a vertex exactly at its point, gives two ends the same vertex exactly if they are at the same point, and leaves no two vertices at one place.", "quantifier": "all well-formed meshes without double vertices, all lists of segments with separated points", "why_tests_cant": "The meshes, the segments and their coordinates are unbounded; a test sees a few of them.", "anchors": ["src/mesh_processing/boolean.rs:allocate_vertices_for_splits_no_topology", "src/mesh_processing/boolean.rs:point_key"]}
{"id": "C115", "title": "One triangulation job is made for each face in which intersection segments end, with its corners and these ends", "statement": "For a well-formed mesh and segments whose ends have vertices with a single fan of faces and whose faces are not flat, build_face_pslgs does not panic, whatever the order of its hash maps. It makes exactly one job for each live face in which a segment in use ends. The job has the corners of the face in order, then the ends on it (those of segments across the face with no end in a corner, and those of segments of other faces whose hints name the face), each once, with the weights of its perpendicular projection. Its segments join different points of the job and none occurs twice. What the search (C110) and the allocation (C113) make of operands in general position meets the conditions.", "quantifier": "all well-formed meshes with exact rational coordinates, all lists of segments, all orders of the hash maps", "why_tests_cant": "The meshes, the segments and their coordinates are unbounded; a test sees a few of them.", "anchors": ["src/mesh_processing/batching.rs:build_face_pslgs_3", "src/mesh_processing/batching.rs:push_vertex_uv_3", "src/mesh_processing/batching.rs:choose_vertex_on_face_3"]}
{"id": "C116", "title": "The sides of a face and the segments across it become chains of job segments through all the points on them", "statement": "If the vertices lie on the faces for which they are named, all points of a job are in its triangle. Each side of the triangle is a chain of job segments through every point on it, in their order along it. A segment across the face between two points that are not corners is such a chain, or its ends are within a billionth, or a corner is within a billionth of it. Every segment of the job is within a billionth of a side or of a segment across the face, and of a side if it ends in a corner.", "quantifier": "all well-formed meshes with exact rational coordinates, all lists of segments, all orders of the hash maps", "why_tests_cant": "The meshes, the segments and their coordinates are unbounded; a test sees a few of them.", "anchors": ["src/mesh_processing/batching.rs:build_face_pslgs_3", "src/mesh_processing/batching.rs:push_vertex_uv_3", "src/mesh_processing/batching.rs:choose_vertex_on_face_3"]}
{"id": "C117", "title": "Every segment across a face is in its triangulation job", "statement": "For operands in general position, the two ends of a segment across a face are points of the job that build_face_pslgs makes for the face, and a chain of segments of the job joins them.", "quantifier": "all pairs of operands in general position", "why_tests_cant": "The meshes, the segments and their coordinates are unbounded; a test sees a few of them.", "anchors": ["src/mesh_processing/batching.rs:build_face_pslgs_3", "src/mesh_processing/batching.rs:push_vertex_uv_3", "src/mesh_processing/batching.rs:choose_vertex_on_face_3"]}
{"id": "C118", "title": "A Boolean operation on operands whose surfaces have no common point picks whole faces by their centroids", "statement": "For two closed operands in general position with double coordinates up to a million and no double vertices, whose surfaces have no common point, corefine_and_boolean does not panic. The result is well-formed and has no double or unused vertices. Its faces are exactly the faces of the operands that the operation picks, in order, those of the second operand reversed in a difference. A face counts as inside the other operand if its centroid, up to a billionth, is on the surface (not for the second operand of a difference) or at least four of the six axis directions from it cross the surface.", "quantifier": "all such pairs of operands, all three operations, all hash functions and orders of hash maps", "why_tests_cant": "The operands and their coordinates are unbounded; a test sees a few of them.", "anchors": ["src/mesh_processing/boolean.rs:corefine_and_boolean", "src/mesh_processing/boolean.rs:classify_faces_3", "src/mesh/topology.rs:face_centroid_fast"]}
{"id": "C119", "title": "A Boolean operation on separated operands gives both, nothing, or the first", "statement": "For two closed operands in general position with coordinates up to a million and no double vertices, and a plane between them with a gap of a millionth, corefine_and_boolean does not panic. The union has exactly the triangles of both operands, the intersection has none, the difference has exactly those of the first operand. The result is well-formed and has no border.", "quantifier": "all such pairs of operands, all three operations, all hash functions and orders of hash maps", "why_tests_cant": "The operands and their coordinates are unbounded; a test sees a few of them.", "anchors": ["src/mesh_processing/boolean.rs:corefine_and_boolean", "src/mesh_processing/boolean.rs:classify_faces_3", "src/mesh/topology.rs:face_centroid_fast"]}
{"id": "C120", "title": "The result of a Boolean operation on closed operands is closed", "statement": "For two closed operands in general position with coordinates up to a million and no double vertices, the result of corefine_and_boolean has no border: every side of a face is a side of another face in the opposite direction.", "quantifier": "all such pairs of operands, all three operations", "why_tests_cant": "The operands and their coordinates are unbounded; a test sees a few of them.", "anchors": ["src/mesh_processing/boolean.rs:corefine_and_boolean", "src/mesh_processing/boolean.rs:classify_faces_3", "src/mesh/topology.rs:face_centroid_fast"]}
{"id": "C121", "title": "A ray from a corner leaves its face at the right place", "statement": "cast_ray_from_vertex_in_triangle(f, v, d), for a corner v of the face f, projects d on the plane of f. If the projected direction points strictly into the face, it returns EdgeIntersection with the half-edge of f opposite to v, and the distance t > 0 and parameter u in (0, 1) at which the ray meets that edge. If it points along a side that starts at v, it returns that half-edge as CollinearWithEdge. Otherwise, and for a degenerate face or a vertex that is not a corner, it returns None.", "quantifier": "all well-formed meshes with exact coordinates, faces, corners and directions", "why_tests_cant": "Directions and coordinates are unbounded; the code chooses among eight branches by exact sign tests.", "anchors": ["src/mesh/topology.rs:cast_ray_from_vertex_in_triangle"]}
{"id": "C122", "title": "The geodesic version of the corner ray gives the same answers", "statement": "cast_ray_from_vertex_in_triangle_3 returns the exit described in C121.", "quantifier": "all well-formed meshes with exact coordinates, faces, corners and directions", "why_tests_cant": "Directions and coordinates are unbounded.", "anchors": ["src/mesh/topology.rs:cast_ray_from_vertex_in_triangle_3"]}
{"id": "C123", "title": "location_on_face names the place of a point on a face", "statement": "For a point whose foot on the plane of the face f lies on f, location_on_face(f, p) answers with f and the place of the foot: Inside with its three positive barycentric weights, OnEdge with the half-edge of f that holds it and the parameter in (0, 1) along it, or OnVertex with the corner. For a face that is flat it panics.", "quantifier": "all well-formed meshes with exact coordinates in any dimension, faces and points", "why_tests_cant": "Coordinates are unbounded; the code chooses among the sides and corners by exact zero tests.", "anchors": ["src/mesh/topology.rs:location_on_face", "src/mesh/topology.rs:edge_and_u_from_bary_zero", "src/mesh/topology.rs:vertex_from_bary_zero"]}
{"id": "C124", "title": "find_valid_face finds the face that holds a point", "statement": "find_valid_face(start, p), from any live face, terminates and answers with a face that holds p and the place of p on it, whenever some live face holds p.", "quantifier": "all well-formed meshes with exact coordinates, start faces, points and contents of face_split_map", "why_tests_cant": "The search visits faces in breadth-first order over meshes of any size and falls back to a scan; its answer depends on which face comes first.", "anchors": ["src/mesh/topology.rs:find_valid_face"]}
{"id": "C125", "title": "faces_containing_point_aabb finds exactly the faces under a point", "statement": "With a tree whose valid entries are the live faces with boxes that contain their corners, faces_containing_point_aabb(tree, p) in space returns exactly the live faces of non-zero area for which the foot of p on the plane of the face is strictly inside the face and at most query_tolerance (1/100000) away from p. In particular a point strictly inside a face has that face in its answer.", "quantifier": "all well-formed meshes with exact coordinates, all histories of tree edits, all points", "why_tests_cant": "Meshes, trees and coordinates are unbounded; the box query and the exact sign tests must agree.", "anchors": ["src/mesh/topology.rs:faces_containing_point_aabb"]}
{"id": "C126", "title": "split_face adds a vertex at the point and keeps the region of the mesh", "statement": "If a live face of the mesh holds p, split_face(start, p) from any live face returns a vertex at p (a new one, or the corner at p), leaves the mesh well formed, and a point of the plane or space lies on some live face after the call exactly if it did before.", "quantifier": "all well-formed meshes with exact coordinates, in the plane and in space, start faces and points", "why_tests_cant": "The region is an infinite set of points, and meshes and search paths are unbounded.", "anchors": ["src/mesh/core.rs:split_face", "src/mesh/core.rs:split_edge", "src/mesh/topology.rs:find_valid_face"]}
{"id": "C127", "title": "get_mesh_intersections_2 reports exactly the meetings of sides", "statement": "Every segment listed for a mesh lies on a side of one of its faces and on a side of a face of the other mesh, with hints that name the face, half-edge, parameters and the face beyond the side. Every point in the interior of a side that is also on a side of the other mesh is on a listed segment of that side (up to the merging of equal parameter buckets).", "quantifier": "all pairs of well-formed plane meshes with exact coordinates, every bucket function and every order of selection in the box tree", "why_tests_cant": "Pairs of meshes and positions of the sides are unbounded, and the merging depends on the order of faces.", "anchors": ["src/mesh_processing/boolean.rs:get_mesh_intersections_2"]}
{"id": "C128", "title": "get_mesh_intersections_2 reports the part of an edge that runs through a face", "statement": "If a point inside a side of one mesh is strictly inside a face of the other, then it lies on one of the listed segments.", "quantifier": "all pairs of well-formed plane meshes with exact coordinates", "why_tests_cant": "Pairs of meshes are unbounded.", "anchors": ["src/mesh_processing/boolean.rs:get_mesh_intersections_2"]}
{"id": "C129", "title": "build_face_pslgs_2 makes one well-formed job per reached face", "statement": "The construction does not panic and makes exactly one job for each live face that a segment in use lies on or is beside. The job lists the corners of the face, then every other vertex at which such a segment ends, each once and with its position; its segments join two different points of the job and none of them occurs twice.", "quantifier": "all well-formed plane meshes, all lists of segments with vertices and faces of the mesh, every order of the hash map", "why_tests_cant": "Meshes and lists of segments are unbounded and the order of the hash map is arbitrary.", "anchors": ["src/mesh_processing/batching.rs:build_face_pslgs_2"]}
{"id": "C130", "title": "The jobs of build_face_pslgs_2 contain the sides of the face and the cuts as chains of segments", "statement": "In each job, every side of the face is a chain of segments through exactly the points on it, in order, and so is every segment of the mesh between two points of the job; every segment of the job lies on a side or on such a line.", "quantifier": "all well-formed plane meshes, all lists of segments with vertices and faces of the mesh", "why_tests_cant": "Positions of points are unbounded, and the tests for points on lines are made in rounded floats.", "anchors": ["src/mesh_processing/batching.rs:build_face_pslgs_2", "src/mesh_processing/batching.rs:add_split_or_chain_uv", "src/mesh_processing/batching.rs:chain_on_edge"]}
{"id": "C131", "title": "Both faces at a cut edge get the same vertices in the plane", "statement": "After get_mesh_intersections_2 and the allocation of vertices, build_face_pslgs_2 does not panic; each segment in use on an edge has been given vertices at most 1.001 millionths away from its two ends, and both vertices are points of the job of every face at that edge.", "quantifier": "all pairs of well-formed plane meshes without removed faces, every choice of segments put out of use, every bucket function and every order of trees and hash maps", "why_tests_cant": "Pairs of meshes are unbounded, and the faces are visited in an arbitrary order.", "anchors": ["src/mesh_processing/batching.rs:build_face_pslgs_2", "src/mesh_processing/boolean.rs:allocate_vertices_for_splits_no_topology", "src/mesh_processing/boolean.rs:get_mesh_intersections_2"]}
{"id": "C132", "title": "Boolean operations in the plane on operands whose sides do not meet", "statement": "When no side of one operand has a point in common with a side of the other, union, intersection and difference do not panic. The result consists exactly of the triangles that the operation picks, in order, where a face counts as inside the other operand if point_in_mesh_2 says so of its centroid (up to a billionth). The result is well-formed, has no two vertices at one place and no vertex without a face.", "quantifier": "all pairs of well-formed plane meshes without removed faces and double vertices, with coordinates up to a million; every order of hash maps and trees", "why_tests_cant": "Operands are unbounded in number and size, and the orders of hash maps vary.", "anchors": ["src/mesh_processing/boolean.rs:corefine_and_boolean", "src/mesh_processing/boolean.rs:classify_faces_2", "src/mesh/topology.rs:face_centroid_fast"]}
{"id": "C133", "title": "Boolean operations in the plane on operands one above the other", "statement": "When all corners of one operand are below all corners of the other by at least a millionth, the union consists of all triangles of both operands, the intersection is empty, and the difference consists of the triangles of the first operand.", "quantifier": "all pairs of well-formed plane meshes without removed faces and double vertices, with coordinates up to a million; all three operations", "why_tests_cant": "Operands are unbounded in number and size.", "anchors": ["src/mesh_processing/boolean.rs:corefine_and_boolean", "src/mesh/topology.rs:point_in_mesh_2"]}
{"id": "C134", "title": "Points of the results for plane operands whose sides do not meet", "statement": "When the sides of the operands do not meet, the union covers the points covered by either operand, the intersection covers those covered by both, and the difference covers no point strictly inside a face of the second operand and all points covered by the first one only.", "quantifier": "all pairs of well-formed plane meshes whose sides do not meet", "why_tests_cant": "Operands are unbounded in number and position; the answer of the point location depends on the positions of all border sides.", "anchors": ["src/mesh_processing/boolean.rs:corefine_and_boolean", "src/mesh_processing/boolean.rs:classify_faces_2", "src/mesh/topology.rs:point_in_mesh_2"]}
{"id": "C135", "title": "Points of the results for overlapping plane operands", "statement": "The intersection of two overlapping plane meshes covers only points of both, and their union covers all points of both.", "quantifier": "all pairs of well-formed plane meshes", "why_tests_cant": "Operands are unbounded in number and position.", "anchors": ["src/mesh_processing/boolean.rs:corefine_and_boolean", "src/mesh_processing/boolean.rs:get_mesh_intersections_2"]}
{"id": "C136", "title": "find_valid_half_edge finds a half-edge in use that holds the point", "statement": "find_valid_half_edge(h, p) returns a half-edge in use. If half_edge_split_map records parts of h that are still in use, the answer is one of these, none of them is nearer to p, and it holds p if one of them does. If nothing is recorded for a half-edge out of use and some half-edge in use holds p, the answer holds p.", "quantifier": "all well-formed meshes with exact coordinates in any dimension, all half-edge slots, points and recorded parts", "why_tests_cant": "Meshes, points, and the histories of splits recorded in the map are unbounded.", "anchors": ["src/mesh/topology.rs:find_valid_half_edge", "src/mesh/topology.rs:find_valid_face"]}
{"id": "C137", "title": "build_face_adjacency_graph is the relation of sharing a side", "statement": "build_face_adjacency_graph returns a map with exactly one entry for each face number. The entry of a face in use lists, in the order of its sides, the face across each side that has one; so it lists exactly the faces that share a side with it, the relation is symmetric, no face is its own neighbour and no entry is longer than three. The entry of a removed face is empty. The call never panics.", "quantifier": "all well-formed meshes, with and without removed faces", "why_tests_cant": "A test checks a few meshes, usually without removed faces; the failures need a removed face whose recorded half-edge survives as a border half-edge, and for the panic a border of more than ten half-edges.", "anchors": ["src/mesh/core.rs:191-221", "src/mesh/topology.rs:1791-1836"]}
{"id": "C138", "title": "build_boundary_map returns exactly the face pairs that the segments separate", "statement": "build_boundary_map(segments) returns normally if and only if every segment has equal ends or is an edge of the mesh with a face on both sides, and otherwise panics. The set it returns holds exactly the pairs of faces that lie on the two sides of such an edge, once each, with the smaller face number first.", "quantifier": "all well-formed meshes, all lists of segments, any contents of half_edge_split_map", "why_tests_cant": "Tests run a few lists of segments; the claim covers every list on every mesh and both directions of the panic condition.", "anchors": ["src/mesh/core.rs:59-96", "src/mesh/topology.rs:1468-1580"]}
{"id": "C139", "title": "Points on half-edges are recognised exactly", "statement": "segment_from_half_edge(h) returns the positions of the two ends of h. point_on_half_edge(h, p) returns a parameter exactly if p lies on h, ends included, and then p is the point of h at that parameter. point_on_half_edge_with_tolerance(h, p, tol) returns a parameter exactly if p is at most tol from h; it is the parameter of the foot of the perpendicular. point_is_on_some_half_edge(f, p) returns the first side of f that holds p with its parameter, and None if no side does or if f is removed.", "quantifier": "all well-formed meshes with rational positions in any dimension, all half-edges and faces in use, all points and tolerances >= 0", "why_tests_cant": "Exactness concerns every rational point; a test tries a few.", "anchors": ["src/mesh/topology.rs:501-524", "src/mesh/topology.rs:1198-1222", "src/kernel/predicates.rs:159-280"]}
{"id": "C140", "title": "barycentric_coords_on_face returns weights exactly for the points of the face", "statement": "barycentric_coords_on_face(f, p) returns (u, v, w) exactly if the face is not flat and p is a point of the closed triangle; then u, v, w >= 0, u + v + w = 1 and p is the weighted sum of the corners.", "quantifier": "all well-formed meshes in the plane and in space, all faces in use, all rational points", "why_tests_cant": "The failures are points on an edge line outside the triangle and points off the plane of the triangle; tests use points of the triangle.", "anchors": ["src/mesh/topology.rs:1619-1646", "src/kernel/predicates.rs:358-467", "src/geometry/util.rs:69-106"]}
{"id": "C141", "title": "area2x4_after_move and boundary_vertices", "statement": "area2x4_after_move(f, v, p) is four times the squared area of the face f after its vertex v has moved to p, and zero exactly if the face becomes flat. boundary_vertices() returns, in increasing order, exactly the vertices with a half-edge on the border.", "quantifier": "all well-formed meshes, all faces, vertices and rational points in space", "why_tests_cant": "The area identity is over all rationals; boundary_vertices fails for meshes with an isolated vertex or a vertex of two fans, which tests do not build.", "anchors": ["src/mesh/topology.rs:1997-2020", "src/mesh/topology.rs:408-439"]}
{"id": "C142", "title": "triangles_inside_for_job returns the triangles inside the job", "statement": "triangles_inside_for_job(pts, tris, segments) returns a set of indices of tris without panicking. If the triangles fill the triangle of the first three points, it returns all of them.", "quantifier": "all lists of rational points in the plane and all lists of triangles", "why_tests_cant": "The function has no caller and no test. The triangles missed are those without a side on the border, so small examples pass.", "anchors": ["src/operations/triangulation/delaunay.rs:1193-1554"]}
{"id": "C143", "title": "compute_average_edge_length and rms_edge_length_f64 count each edge once", "statement": "compute_average_edge_length() returns the mean length of the edges in use, each counted once, and 1 if there are none. rms_edge_length_f64() returns the root of the mean squared length of the same edges.", "quantifier": "all well-formed meshes with rational positions", "why_tests_cant": "The only test compares the value before and after remeshing; it does not compare it with the lengths of the edges.", "anchors": ["src/mesh_processing/remesh.rs:66-97", "src/mesh_processing/remesh.rs:136-157", "src/mesh/topology.rs:142-144"]}
{"id": "C144", "title": "compute_triangle_aabb_exact returns the smallest box of the triangle", "statement": "compute_triangle_aabb_exact(p0, p1, p2) returns a box that contains every point of the closed triangle and lies in every box that contains the three corners.", "quantifier": "all triples of rational points of any one dimension", "why_tests_cant": "It is the fallback for scalars without a fast double, which no test uses; the claim is about every point and every box.", "anchors": ["src/mesh/core.rs:1379-1397", "src/mesh/core.rs:1430-1452", "src/geometry/aabb.rs:94-101"]}
{"id": "C145", "title": "face_centroid is the mean of the corners", "statement": "face_centroid(f) is the exact mean of the three corners of f.", "quantifier": "all well-formed meshes in the plane and in space with rational positions, all faces in use", "why_tests_cant": "Two tests check one face each with small integers.", "anchors": ["src/mesh/topology.rs:321-342"]}
{"id": "C146", "title": "face_uv_frame_metric returns an independent orthogonal frame of the plane of the triangle", "statement": "For a non-degenerate triangle, face_uv_frame_metric(a, b, c) returns b - a and a vector in the plane of the triangle that is orthogonal to b - a, independent of it and on the side of c. For a degenerate triangle the second vector is zero.", "quantifier": "all triples of rational points in space", "why_tests_cant": "No test calls it; the guarantee is for every non-degenerate triangle.", "anchors": ["src/mesh_processing/batching.rs:47-89", "src/geometry/vector.rs:444-451"]}
{"id": "C147", "title": "Quality flips never fold the surface and never panic", "statement": "flip_edges flips an edge only if its angle test accepts, and then the four triangles concerned, old and new, are not flat and the number of the test has become smaller. It leaves a flat mesh with counterclockwise faces with counterclockwise faces, and it never panics on a well-formed mesh.", "quantifier": "all quadruples of rational points in space for the test; all well-formed meshes with rational positions in space for the pass", "why_tests_cant": "The remeshing tests use a few regular shapes, where every pair of triangles is convex and no two vertices share a place.", "anchors": ["src/mesh_processing/remesh.rs:160-299", "src/mesh/core.rs:650-675"]}
