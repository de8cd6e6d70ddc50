(** Executable model of the search for intersection segments between two meshes
    (/repo/src/mesh_processing/boolean.rs 377-494, mesh/core.rs 475-515), with the exact
    scalar CgarRational. [None] is a panic. *)
From Coq Require Import QArith.
From Verif Require Export RayModel.
From Verif Require TriTriModel.
Local Open Scope N_scope.

Notation contact := TriTriModel.contact.
Notation tri := TriTriModel.tri.

(** mesh/intersection_segment.rs 28-37: IntersectionEndPoint when it is created
    ([resulting_vertex] is still None) *)
Record hints := mkHints {
  h_verts : option (N * N);
  h_he : option N;
  h_u : option Q;
  h_faces : option (N * N);
  h_bary : option (Q * Q * Q) }.
(** mesh/intersection_segment.rs 78-88: IntersectionSegment when it is created ([links]
    empty, [invalidated] false, [split] true) *)
Record cutseg := mkCut { ct_a : hints; ct_b : hints; ct_pa : p3; ct_pb : p3; ct_face : N; ct_cop : bool }.

Definition origin_box : qbox := AabbModel.Box [0; 0; 0]%Q [0; 0; 0]%Q.
(** core.rs 475-515: face_aabb. The check of hes[1] and hes[2] (486-490) never fires:
    face_half_edges has read these half-edges. *)
Definition face_aabb (m : mesh p3) (f : N) : option qbox :=
  fc ← getF m f;
  if frem fc then Some origin_box else
  if fhe fc =? umax then Some origin_box else
  x ← getH m (fhe fc);
  if hrem x then Some origin_box else
  hs ← face_half_edges m f;
  h0 ← hs !! 0%nat; h1 ← hs !! 1%nat; h2 ← hs !! 2%nat;
  x0 ← getH m h0; x1 ← getH m h1; x2 ← getH m h2;
  if (nverts m <=? hv x0) || (nverts m <=? hv x1) || (nverts m <=? hv x2) then Some origin_box else
  a ← pos m (hv x0); b ← pos m (hv x1); c ← pos m (hv x2);
  compute_triangle_aabb_fast a b c.

Definition pick (t : N * N * N) (i : nat) : N :=
  let '(a, b, c) := t in match i with O => a | S O => b | _ => c end.

(** boolean.rs 447-478: the hints of one end on one mesh *)
Definition end_hints (m : mesh p3) (f : N) (idx : N * N * N) (c : contact) : option hints :=
  match c with
  | TriTriModel.CVertex i => Some (mkHints (Some (pick idx i, umax)) None None None None)
  | TriTriModel.CEdge i j u =>
      he ← emap m !! (pick idx i, pick idx j);
      x ← getH m he;
      f1 ← hface x;
      y ← getH m (htwin x);
      f2 ← hface y;
      Some (mkHints (Some (pick idx i, pick idx j)) (Some he) (Some u) (Some (f1, f2)) None)
  | TriTriModel.CInterior l0 l1 l2 => Some (mkHints None None None (Some (f, umax)) (Some (l0, l1, l2)))
  end.

(** boolean.rs 432-488: one pair of ends gives a segment of each mesh *)
Definition make_cuts (ma mb : mesh p3) (fa fb : N) (ia ib : N * N * N) (cop : bool)
    (e : TriTriModel.endpoint * TriTriModel.endpoint) : option (cutseg * cutseg) :=
  let '(e0, e1) := e in
  a0 ← end_hints ma fa ia (TriTriModel.on_p e0);
  a1 ← end_hints ma fa ia (TriTriModel.on_p e1);
  b0 ← end_hints mb fb ib (TriTriModel.on_q e0);
  b1 ← end_hints mb fb ib (TriTriModel.on_q e1);
  Some (mkCut a0 a1 (TriTriModel.e_point e0) (TriTriModel.e_point e1) fa cop,
        mkCut b0 b1 (TriTriModel.e_point e0) (TriTriModel.e_point e1) fb cop).

(** the three corners of a face *)
Definition face_tri (m : mesh p3) (idx : N * N * N) : option tri :=
  let '(i, j, k) := idx in
  a ← pos m i; b ← pos m j; c ← pos m k; Some (a, b, c).

(** boolean.rs 408-489: one candidate. [gt] compares magnitudes, as in TriTriModel. *)
Definition cut_pair (gt : Q → Q → bool) (ma mb : mesh p3) (fa : N) (ia : N * N * N) (pa : tri) (fb : N) : option (list (cutseg * cutseg)) :=
  ib ← face_vertices mb fb;
  pb ← face_tri mb ib;
  match TriTriModel.tri_tri_intersection_detailed gt pa pb with
  | TriTriModel.DProper e0 e1 => mapM (make_cuts ma mb fa fb ia ib false) [(e0, e1)]
  | TriTriModel.DCoplanar segs => mapM (make_cuts ma mb fa fb ia ib true) segs
  | TriTriModel.DNone => Some []
  end.

(** boolean.rs 396-490: one face of the first mesh *)
Definition cut_face (gt : Q → Q → bool) (ma mb : mesh p3) (tree_b : ftree) (fa : N) : option (list (cutseg * cutseg)) :=
  bx ← face_aabb ma fa;
  match AabbModel.query AabbModel.rat_box tree_b bx with
  | [] => Some []
  | cands =>
      ia ← face_vertices ma fa;
      pa ← face_tri ma ia;
      ls ← mapM (cut_pair gt ma mb fa ia pa) cands;
      Some (concat ls)
  end.

(** boolean.rs 377-494: get_mesh_intersections_3. The two lists grow in step. *)
Definition get_mesh_intersections_3 (gt : Q → Q → bool) (select : nat → list (qbox * N) → list (qbox * N)) (ma mb : mesh p3) : option (list cutseg * list cutseg) :=
  tree_b ← build_face_tree select mb;
  ls ← mapM (cut_face gt ma mb tree_b) (range (nfaces ma));
  Some (map fst (concat ls), map snd (concat ls)).
