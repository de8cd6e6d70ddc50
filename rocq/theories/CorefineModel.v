(** Executable model of corefine_and_boolean (/repo/src/mesh_processing/boolean.rs 728-977)
    in space, with the scalar CgarRational: the parts of the other models, in order. The
    messages and the time measurements are left out. *)
From Coq Require Import QArith.
From Verif Require Export BoolPslgModel BoolSegModel BoolCutModel MeshBatchModel.
From Verif Require DelaunayModel DelaunayFloat PlaneModel.
Local Open Scope N_scope.

(** kernel/predicates.rs 42-53: are_equal; also == of points (geometry/point.rs 374-387) *)
Definition rat_eqb (p q : p3) : bool :=
  let '(x, y, z) := p in let '(x', y', z') := q in
  GeomModel.is_zero (x - x') && GeomModel.is_zero (y - y') && GeomModel.is_zero (z - z').
(** spatial_hash.rs 72-75: position_to_packed_key of a mesh made by Mesh::new *)
Definition rat_key (p : p3) : option Z := Some (rat_cell (coords p)).

(** topology.rs 344-353: face_centroid_fast. ball_center_f64 rounds to a double
    (cgar_rational.rs 123-125); T::from(f64) panics on an infinity or a NaN. *)
Definition centre_axis (x y z : Q) : option Q :=
  F64Model.f64_to_Q (F64Model.fdiv (F64Model.fadd (F64Model.fadd (F64Model.Q_to_f64 x) (F64Model.Q_to_f64 y)) (F64Model.Q_to_f64 z)) (F64Model.Q_to_f64 3)).
Definition face_centroid_fast (m : mesh p3) (f : N) : option p3 :=
  '(i, j, k) ← face_vertices m f;
  a ← pos m i; b ← pos m j; c ← pos m k;
  let '(x0, y0, z0) := a in let '(x1, y1, z1) := b in let '(x2, y2, z2) := c in
  x ← centre_axis x0 x1 x2; y ← centre_axis y0 y1 y2; z ← centre_axis z0 z1 z2;
  Some (x, y, z).

(** boolean.rs 1342-1352: the triangle has no area *)
Definition rat_flat (a b c : p3) : bool :=
  let '(x0, y0, z0) := a in let '(x1, y1, z1) := b in let '(x2, y2, z2) := c in
  let n := PlaneModel.cross_p (x1 - x0, y1 - y0, z1 - z0)%Q (x2 - x0, y2 - y0, z2 - z0)%Q in
  GeomModel.is_zero (PlaneModel.dot_p n n).
(** topology.rs 165-173 and plane.rs 59-88: plane_from_face(f).canonicalized() as a key: its
    coefficients in lowest terms *)
Definition low (q : Q) : Z * positive := let q := Qred q in (Qnum q, Qden q).
Definition plane_key (m : mesh p3) (f : N) : option (list (Z * positive)) :=
  '(i, j, k) ← face_vertices m f;
  a ← pos m i; b ← pos m j; c ← pos m k;
  let p := PlaneModel.canonicalized (PlaneModel.to_plane (PlaneModel.from_points3 a b c)) in
  Some (map low (PlaneModel.offset p :: PlaneModel.normal p)).

(** boolean.rs 123-137: the tree of classify_faces_3. Making a box from its two corners
    again does not change it. *)
Definition class_tree (select : nat → list (qbox * N) → list (qbox * N)) (m : mesh p3) : option ftree :=
  items ← mapM (λ f, b ← face_aabb m f; Some (b, f)) (range (nfaces m));
  AabbModel.build AabbModel.rat_box select items.

(** what the code gets from outside: the sign test of the triangle intersection, the
    pivots of the trees, the hash function, the orders of hash sets and maps and of sorted
    constraints, half_edge_split_map of the meshes, and the steps of find_valid_half_edge
    that BoolClassModel leaves open *)
Record env := mkEnv {
  e_gt : Q → Q → bool;
  e_select : nat → list (qbox * N) → list (qbox * N);
  e_hash : p3 → N;
  e_order : ∀ A : Type, list A → list A;
  e_norder : list N → list N;
  e_horder : nat → list DelaunayModel.edge → list DelaunayModel.edge;
  e_vorder : list nat → list nat;
  e_korder : list GeomModel.p2 → list DelaunayModel.edge → list DelaunayModel.edge;
  e_split_a : gmap N (N * N);
  e_split_b : gmap N (N * N);
  e_contains : mesh p3 → N → p3 → bool;
  e_nearer : mesh p3 → p3 → N → N → bool;
  e_last : mesh p3 → N → p3 → option N;
  e_debug : bool
}.

Section corefine.
Variable E : env.

(** a rational number is kept in lowest terms *)
Definition lowest3 (p : p3) : p3 := let '(x, y, z) := p in (Qred x, Qred y, Qred z).
Definition lowest2 (p : uv) : uv := (Qred p.1, Qred p.2).

(** boolean.rs 749-750: mark the duplicates *)
Definition mark (l : list cutseg) : option (list (gseg p3)) :=
  r ← remove_duplicate_segments (e_hash E) rat_eqb (map (λ c, mkSeg None None (ct_pa c) (ct_pb c) (ct_cop c) false) l);
  Some (zip_with (λ c s, mkG (ct_a c) (ct_b c) (lowest3 (ct_pa c)) (lowest3 (ct_pb c)) (ct_face c) (ct_cop c) (sg_inv s) None None) l r).

(** boolean.rs 756-777 and 780-799: allocate vertices, build the jobs, triangulate them,
    rewrite the faces *)
Definition refine (m : mesh p3) (l : list (gseg p3)) : option (mesh p3 * list (gseg p3)) :=
  r ← allocate_vertices point_key rat_hit u_low u_high bucket_u m l;
  js ← build_face_pslgs_3 (e_order E) r.1 r.2;
  ts ← DelaunayModel.build_batch DelaunayFloat.rat_fl DelaunayFloat.rat_filter DelaunayFloat.rat_exit (e_horder E) (e_vorder E) (e_korder E)
         (map (λ j, (map lowest2 (j_uv j), j_segs j)) js);
  m ← rewrite_faces_from_cdt_batch (e_norder E) (e_debug E) r.1 (map (λ j, (j_face j, j_verts j)) js) (map snd ts);
  Some (m, r.2).

(** boolean.rs 801-802: keep the segments in use *)
Definition in_use (l : list (gseg p3)) : list (iseg p3) :=
  map (λ s, mkSeg (g_va s) (g_vb s) (g_pa s) (g_pb s) (g_cop s) (g_inv s)) (List.filter (λ s, negb (g_inv s)) l).

Definition corefine_and_boolean (op : bop) (a b : mesh p3) : option (mesh p3) :=
  cuts ← get_mesh_intersections_3 (e_gt E) (e_select E) a b;
  sa ← mark cuts.1;
  sb ← mark cuts.2;
  ra ← refine a sa;
  rb ← refine b sb;
  let a := ra.1 in let b := rb.1 in
  la ← build_links rat_flat (plane_key a) (e_order E) a (in_use ra.2);
  lb ← build_links rat_flat (plane_key b) (e_order E) b (in_use rb.2);
  tb ← class_tree (e_select E) b;
  ta ← class_tree (e_select E) a;
  classify_and_build rat_key rat_eqb (e_order E) (e_split_a E) (e_split_b E) (e_contains E) (e_nearer E) (e_last E)
    (λ f, c ← face_centroid_fast a f; point_in_mesh_3 b tb c)
    (λ f, c ← face_centroid_fast b f; point_in_mesh_3 a ta c)
    op a b la.1 lb.1 la.2 lb.2.
End corefine.
