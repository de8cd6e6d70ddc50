(** Executable model of the geometric queries on half-edges and faces
    (/repo/src/mesh/topology.rs 435-439, 501-524, 1198-1222, 1619-1646, 1997-2020), with exact
    rational coordinates. The outer [None] is a panic. *)
From Verif Require Export PointLocModel.
Local Open Scope Q_scope.

(** topology.rs 435-439: boundary_vertices *)
Definition boundary_vertices {P} (m : mesh P) : option (list N) :=
  bs ← mapM (λ v, b ← is_boundary_vertex m v; Some (v, b)) (range (nverts m));
  Some (fst <$> filter (λ vb, snd vb = true) bs).

Section sides.
Implicit Types (m : mesh point) (p : point) (h f v : N).

(** topology.rs 517-524: segment_from_half_edge; also the ends read at 503-504, 511-512 and
    1212-1215 *)
Definition segment_from_half_edge m h : option (point * point) :=
  x ← getH m h;
  y ← getH m (hprev x);
  a ← place_of m (hv y);
  b ← place_of m (hv x);
  Some (a, b).

(** topology.rs 501-507: point_on_half_edge *)
Definition point_on_half_edge m h p : option (option Q) :=
  '(a, b) ← segment_from_half_edge m h;
  Some (point_u_on_segment a b p).

(** topology.rs 509-515: point_on_half_edge_with_tolerance *)
Definition point_on_half_edge_with_tolerance m h p (tol : Q) : option (option Q) :=
  '(a, b) ← segment_from_half_edge m h;
  Some (point_u_on_segment_with_tolerance a b p tol).

(** topology.rs 1211-1220: the loop over the sides *)
Fixpoint first_side m p (l : list N) : option (option (N * Q)) :=
  match l with
  | [] => Some None
  | h :: l =>
      r ← point_on_half_edge m h p;
      match r with
      | Some u => Some (Some (h, u))
      | None => first_side m p l
      end
  end.

(** topology.rs 1198-1222: point_is_on_some_half_edge *)
Definition point_is_on_some_half_edge m f p : option (option (N * Q)) :=
  x ← getF m f;
  if frem x then Some None else
  l ← face_half_edges m f;
  first_side m p l.

(** kernel/predicates.rs 401-467: point_in_or_on_triangle by the number of coordinates;
    [near] is near_edge_approx as in [GeomModel.edges_answer] *)
Definition point_in_or_on_triangle near (p a b c : point) : option triangle_point :=
  match p, a, b, c with
  | [px; py], [ax; ay], [bx; yb], [cx; cy] =>
      Some (point_in_or_on_triangle_2 near (px, py) (ax, ay) (bx, yb) (cx, cy))
  | [px; py; pz], [ax; ay; az], [bx; yb; bz], [cx; cy; cz] =>
      Some (point_in_or_on_triangle_3 near (px, py, pz) (ax, ay, az) (bx, yb, bz) (cx, cy, cz))
  | _, _, _, _ => None
  end.

(** topology.rs 1619-1646: barycentric_coords_on_face. face_vertices always has three
    entries, so the first return is not taken *)
Definition barycentric_coords_on_face near m f p : option (option (Q * Q * Q)) :=
  '(i, j, k) ← face_vertices m f;
  a ← place_of m i;
  b ← place_of m j;
  c ← place_of m k;
  w ← point_in_or_on_triangle near p a b c;
  Some (match w with Off => None | _ => barycentric_coords p a b c end).

(** topology.rs 1997-2020: area2x4_after_move. [Cross3] exists for three coordinates only
    (vector.rs 436), so other positions do not occur; here they give [None] *)
Definition area2x4_after_move m f (mv : N) p : option Q :=
  '(i, j, k) ← face_vertices m f;
  let at_ v := if (v =? mv)%N then Some p else place_of m v in
  a ← at_ i;
  b ← at_ j;
  c ← at_ k;
  match a, b, c with
  | [ax; ay; az], [bx; yb; bz], [cx; cy; cz] =>
      let n := cross3 (sub3 (bx, yb, bz) (ax, ay, az)) (sub3 (cx, cy, cz) (ax, ay, az)) in
      Some (dot3 n n)
  | _, _, _ => None
  end.
End sides.
