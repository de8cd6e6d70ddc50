(** Executable model of the search for intersection segments between two meshes of the
    plane (/repo/src/mesh_processing/boolean.rs 496-725, mesh/core.rs 429-515), with the
    exact scalar CgarRational. [None] is a panic. *)
From Coq Require Import QArith.
From Verif Require Export BoolAllocModel.
From Verif Require TriTriModel.
Local Open Scope N_scope.

(** core.rs 1399-1427 (compute_triangle_aabb_fast) for N = 2; see RayModel *)
Definition compute_triangle_aabb_2 (a b c : p2) : option qbox :=
  x ← fast_axis a.1 b.1 c.1; y ← fast_axis a.2 b.2 c.2;
  Some (AabbModel.Box [x.1; y.1] [x.2; y.2]).
(** core.rs 446-472 (internal_build_face_tree), one face; 429-435 (build_face_tree) *)
Definition face_item_2 (m : mesh p2) (f : N) : option (qbox * N) :=
  fc ← getF m f;
  x0 ← getH m (fhe fc);
  x1 ← getH m (hnext x0);
  x2 ← getH m (hnext x1);
  a ← pos m (hv x0); b ← pos m (hv x1); c ← pos m (hv x2);
  bx ← compute_triangle_aabb_2 a b c;
  Some (bx, f).
Definition build_face_tree_2 (select : nat → list (qbox * N) → list (qbox * N)) (m : mesh p2) : option ftree :=
  items ← mapM (face_item_2 m) (range (nfaces m));
  AabbModel.build AabbModel.rat_box select items.

Definition origin_box_2 : qbox := AabbModel.Box [0; 0]%Q [0; 0]%Q.
(** core.rs 475-515: face_aabb for N = 2; see BoolCutModel *)
Definition face_aabb_2 (m : mesh p2) (f : N) : option qbox :=
  fc ← getF m f;
  if frem fc then Some origin_box_2 else
  if fhe fc =? umax then Some origin_box_2 else
  x ← getH m (fhe fc);
  if hrem x then Some origin_box_2 else
  hs ← face_half_edges m f;
  h0 ← hs !! 0%nat; h1 ← hs !! 1%nat; h2 ← hs !! 2%nat;
  x0 ← getH m h0; x1 ← getH m h1; x2 ← getH m h2;
  if (nverts m <=? hv x0) || (nverts m <=? hv x1) || (nverts m <=? hv x2) then Some origin_box_2 else
  a ← pos m (hv x0); b ← pos m (hv x1); c ← pos m (hv x2);
  compute_triangle_aabb_2 a b c.

(** geometry/segment.rs 117-127: parameter_of_point for N = 2 *)
Definition param2 (a b p : p2) : Q :=
  let d := GeomModel.sub2 b a in
  let q := GeomModel.sub2 p a in
  let len2 := (d.1 * d.1 + d.2 * d.2)%Q in
  if GeomModel.is_zero len2 then 0 else ((q.1 * d.1 + q.2 * d.2) / len2)%Q.
(** geometry/point.rs 374-387 on two coordinates *)
Definition same2 (p q : p2) : bool := Qeq_bool p.1 q.1 && Qeq_bool p.2 q.2.
(** cgar_rational.rs 66-68 *)
Definition merge : Q := (1 # 1000000)%Q.
(** boolean.rs 581-586: u <= tol || u >= 1 - tol *)
Definition near_end (u : Q) : bool := Qle_bool u merge || Qle_bool (1 - merge) u.

Section cut.
(** boolean.rs 1373-1376 after the conversion of u to a double, with the tolerance of
    513-514; left open *)
Variable bucket : Q → Z.

(** the list of segments of one mesh, and coplanar_endpoints of that mesh (510-511) *)
Record cstate := mkCs { cs_list : list (gseg p2); cs_ends : gset (N * Z) }.

(** boolean.rs 588-652 for the first mesh, 654-718 for the second: what is recorded on the
    side from [v0] to [v1] of face [f] for the common part from [x] to [y], where [u0] and
    [u1] are the parameters of [x] and [y] on the side *)
Definition record (m : mesh p2) (f v0 v1 : N) (u0 u1 : Q) (x y : p2) (st : cstate) : option cstate :=
  let is_point := same2 x y in
  let he := emap m !! (v0, v1) in
  let dominated := is_point && match he with Some h => bool_decide ((h, bucket u0) ∈ cs_ends st) | None => false end in
  if dominated then Some st else
  let e0 := near_end u0 in
  let e1 := near_end u1 in
  if (negb e0 || negb e1 || negb is_point) && negb (is_point && e0) then
    match he with
    | Some h =>
        z ← getH m h;
        z' ← getH m (htwin z);
        let fs := Some (default umax (hface z), default umax (hface z')) in
        let g := mkG (mkHints (Some (v0, v1)) (Some h) (Some u0) fs None) (mkHints (Some (v0, v1)) (Some h) (Some u1) fs None)
                     x y f (negb is_point) false None None in
        Some (mkCs (cs_list st ++ [g])
                   (if is_point then cs_ends st else {[(h, bucket u1)]} ∪ ({[(h, bucket u0)]} ∪ cs_ends st)))
    | None =>
        let g := mkG (mkHints (Some (v0, v1)) None (Some u0) None None) (mkHints (Some (v0, v1)) None (Some u1) None None)
                     x y f (negb is_point) false None None in
        Some (mkCs (cs_list st ++ [g]) (cs_ends st))
    end
  else Some st.

Definition both := (cstate * cstate)%type.
(** boolean.rs 532-720: one side of a face of each mesh *)
Definition meet_sides (ma mb : mesh p2) (fa fb : N) (st : both) (e : (N * N) * (N * N)) : option both :=
  let '((va0, va1), (vb0, vb1)) := e in
  a0 ← pos ma va0; a1 ← pos ma va1; b0 ← pos mb vb0; b1 ← pos mb vb1;
  match TriTriModel.segment_intersect_2d a0 a1 b0 b1 with
  | None => Some st
  | Some (x, y) =>
      sa ← record ma fa va0 va1 (param2 a0 a1 x) (param2 a0 a1 y) x y st.1;
      sb ← record mb fb vb0 vb1 (param2 b0 b1 x) (param2 b0 b1 y) x y st.2;
      Some (sa, sb)
  end.
(** a loop that may panic *)
Fixpoint foldM {A B} (g : B → A → option B) (b : B) (l : list A) : option B :=
  match l with [] => Some b | a :: l => b' ← g b a; foldM g b' l end.
Definition sides (t : N * N * N) : list (N * N) := let '(i, j, k) := t in [(i, j); (j, k); (k, i)].
(** boolean.rs 528-721: one candidate *)
Definition meet_faces (ma mb : mesh p2) (fa : N) (ia : N * N * N) (st : both) (fb : N) : option both :=
  ib ← face_vertices mb fb;
  foldM (meet_sides ma mb fa fb) st (list_prod (sides ia) (sides ib)).
(** boolean.rs 517-722: one face of the first mesh *)
Definition meet_face (ma mb : mesh p2) (tree_b : ftree) (st : both) (fa : N) : option both :=
  bx ← face_aabb_2 ma fa;
  match AabbModel.query AabbModel.rat_box tree_b bx with
  | [] => Some st
  | cands => ia ← face_vertices ma fa; foldM (meet_faces ma mb fa ia) st cands
  end.
(** boolean.rs 496-725: get_mesh_intersections_2 *)
Definition get_mesh_intersections_2 (select : nat → list (qbox * N) → list (qbox * N)) (ma mb : mesh p2) : option (list (gseg p2) * list (gseg p2)) :=
  tree_b ← build_face_tree_2 select mb;
  st ← foldM (meet_face ma mb tree_b) (mkCs [] ∅, mkCs [] ∅) (range (nfaces ma));
  Some (cs_list st.1, cs_list st.2).
End cut.
