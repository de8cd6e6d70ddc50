(** Executable model of corefine_and_boolean (/repo/src/mesh_processing/boolean.rs 728-977)
    in the plane, with the scalar CgarRational: the parts of the other models, in order. The
    messages and the time measurements are left out. *)
From Coq Require Import QArith.
From Verif Require Export PslgPlaneModel CutPlaneModel CorefineModel RayModel.
Local Open Scope N_scope.

(** kernel/predicates.rs 42-53: are_equal; also == of points (geometry/point.rs 374-387) *)
Definition rat_eqb_2 (p q : p2) : bool := GeomModel.is_zero (p.1 - q.1) && GeomModel.is_zero (p.2 - q.2).
(** spatial_hash.rs 72-75: position_to_packed_key of a mesh made by Mesh::new *)
Definition rat_key_2 (p : p2) : option Z := Some (rat_cell [p.1; p.2]).
(** topology.rs 344-353: face_centroid_fast, see [centre_axis] of CorefineModel *)
Definition face_centroid_2 (m : mesh p2) (f : N) : option p2 :=
  '(i, j, k) ← face_vertices m f;
  a ← pos m i; b ← pos m j; c ← pos m k;
  x ← centre_axis a.1 b.1 c.1; y ← centre_axis a.2 b.2 c.2;
  Some (x, y).

(** what the code gets from outside: the buckets of parameters, the pivots of the trees, the
    hash function, and the orders of hash sets and maps and of sorted constraints *)
Record env2 := mkEnv2 {
  e2_bucket : Q → Z;
  e2_select : nat → list (qbox * N) → list (qbox * N);
  e2_hash : p2 → N;
  e2_order : ∀ A : Type, list A → list A;
  e2_norder : list N → list N;
  e2_horder : nat → list DelaunayModel.edge → list DelaunayModel.edge;
  e2_vorder : list nat → list nat;
  e2_korder : list GeomModel.p2 → list DelaunayModel.edge → list DelaunayModel.edge;
  e2_debug : bool
}.

Section corefine.
Variable E : env2.

(** boolean.rs 749-750: mark the duplicates; a rational number is kept in lowest terms *)
Definition mark_2 (l : list (gseg p2)) : option (list (gseg p2)) :=
  r ← remove_duplicate_segments (e2_hash E) rat_eqb_2 (map (λ c, mkSeg None None (g_pa c) (g_pb c) (g_cop c) false) l);
  Some (zip_with (λ c s, mkG (g_a c) (g_b c) (lowest2 (g_pa c)) (lowest2 (g_pb c)) (g_face c) (g_cop c) (sg_inv s) (g_va c) (g_vb c)) l r).

(** boolean.rs 756-777 and 780-799: allocate vertices, build the jobs, triangulate them,
    rewrite the faces *)
Definition refine_2 (m : mesh p2) (l : list (gseg p2)) : option (mesh p2 * list (gseg p2)) :=
  r ← allocate_2 m l;
  js ← build_face_pslgs_2 (e2_order E) r.1 r.2;
  ts ← DelaunayModel.build_batch DelaunayFloat.rat_fl DelaunayFloat.rat_filter DelaunayFloat.rat_exit (e2_horder E) (e2_vorder E) (e2_korder E)
         (map (λ j, (map lowest2 (j_uv j), j_segs j)) js);
  m ← rewrite_faces_from_cdt_batch (e2_norder E) (e2_debug E) r.1 (map (λ j, (j_face j, j_verts j)) js) (map snd ts);
  Some (m, r.2).

(** boolean.rs 801-802: keep the segments in use *)
Definition in_use_2 (l : list (gseg p2)) : list (iseg p2) :=
  map (λ s, mkSeg (g_va s) (g_vb s) (g_pa s) (g_pb s) (g_cop s) (g_inv s)) (List.filter (λ s, negb (g_inv s)) l).
(** boolean.rs 983-1029: build_links in the plane. It reads the vertices of all segments,
    writes links, which nothing in the plane reads, and returns no triangles. *)
Definition build_links_2 (l : list (iseg p2)) : option unit :=
  _ ← mapM (λ s, a ← sg_va s; b ← sg_vb s; Some (a, b)) l; Some tt.
(** topology.rs 616-626, with the answer as a location; the edge map is walked in some order *)
Definition inside_2 (m : mesh p2) (p : p2) : option where_result :=
  r ← point_in_mesh_2 m (e2_order E _ (map fst (map_to_list (emap m)))) p;
  Some (if r : bool then Inside else Outside).

Definition corefine_and_boolean_2 (op : bop) (a b : mesh p2) : option (mesh p2) :=
  cuts ← get_mesh_intersections_2 (e2_bucket E) (e2_select E) a b;
  sa ← mark_2 cuts.1;
  sb ← mark_2 cuts.2;
  ra ← refine_2 a sa;
  rb ← refine_2 b sb;
  let a := ra.1 in let b := rb.1 in
  _ ← build_links_2 (in_use_2 ra.2);
  _ ← build_links_2 (in_use_2 rb.2);
  cls_a ← classify_faces_2 (λ f, c ← face_centroid_2 a f; inside_2 b c) a (in_use_2 ra.2);
  cls_b ← classify_faces_2 (λ f, c ← face_centroid_2 b f; inside_2 a c) b (in_use_2 rb.2);
  boolean_result rat_key_2 rat_eqb_2 (e2_order E) op a b cls_a cls_b.
End corefine.
