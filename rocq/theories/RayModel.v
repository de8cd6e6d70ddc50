(** Model of ray casting and point location in a mesh: mesh/topology.rs 553-780 and
    1225-1241, and the face boxes of mesh/core.rs 429-472 and 1398-1427, with the
    exact scalar CgarRational (a position is three rationals).

    [None] is a panic. *)
From Coq Require Import QArith.
From Verif Require Export MeshQueryModel.
From Verif Require AabbModel GeomModel.
Local Open Scope N_scope.

Notation p3 := GeomModel.p3.
Notation p2 := GeomModel.p2.
Notation qbox := (AabbModel.box Q).
Notation ftree := (AabbModel.tree Q N).

(** mesh/basic_types.rs 82-99: PointInMeshResult, IntersectionHit, IntersectionResult
    (Miss is None, Hit(h, t) is Some (h, t)) *)
Inductive where_result := Outside | OnSurface | Inside.
Inductive hit :=
| HFace (f : N) (l0 l1 l2 : Q)
| HEdge (v0 v1 : N) (u : Q)
| HVertex (v : N).
Definition ray_result := option (hit * Q).

Definition coords (p : p3) : list Q := let '(x, y, z) := p in [x; y; z].
(** the position of a vertex *)
Definition pos {P} (m : mesh P) (v : N) : option P := x ← getV m v; Some (vpos x).

(** core.rs 1399-1427 (compute_triangle_aabb_fast), one axis: as_f64_fast rounds to a
    double (cgar_rational.rs 118-120), f64::min and f64::max, then T::from(f64), which
    panics on an infinity or a NaN *)
Definition fast_axis (x y z : Q) : option (Q * Q) :=
  let a := F64Model.Q_to_f64 x in let b := F64Model.Q_to_f64 y in let c := F64Model.Q_to_f64 z in
  lo ← F64Model.f64_to_Q (AabbModel.f64_min (AabbModel.f64_min a b) c);
  hi ← F64Model.f64_to_Q (AabbModel.f64_max (AabbModel.f64_max a b) c);
  Some (lo, hi).
Definition compute_triangle_aabb_fast (p0 p1 p2 : p3) : option qbox :=
  let '(x0, y0, z0) := p0 in let '(x1, y1, z1) := p1 in let '(x2, y2, z2) := p2 in
  x ← fast_axis x0 x1 x2; y ← fast_axis y0 y1 y2; z ← fast_axis z0 z1 z2;
  Some (AabbModel.Box [x.1; y.1; z.1] [x.2; y.2; z.2]).

(** core.rs 446-472 (internal_build_face_tree), one face.  Removed faces are not skipped.
    The exact fallback is never taken: as_f64_fast of CgarRational always answers. *)
Definition face_item (m : mesh p3) (f : N) : option (qbox * N) :=
  fc ← getF m f;
  x0 ← getH m (fhe fc);
  x1 ← getH m (hnext x0);
  x2 ← getH m (hnext x1);
  a ← pos m (hv x0); b ← pos m (hv x1); c ← pos m (hv x2);
  bx ← compute_triangle_aabb_fast a b c;
  Some (bx, f).
Definition internal_build_face_tree (m : mesh p3) : option (list (qbox * N)) :=
  mapM (face_item m) (range (nfaces m)).
(** core.rs 429-435 (build_face_tree); [select] as in AabbModel *)
Definition build_face_tree (select : nat → list (qbox * N) → list (qbox * N)) (m : mesh p3) : option ftree :=
  items ← internal_build_face_tree m;
  AabbModel.build AabbModel.rat_box select items.

(** topology.rs 1225-1231 (face_edges) with its debug assertion *)
Definition face_edges (m : mesh p3) (f : N) : option (N * N * N) :=
  fc ← getF m f;
  let e0 := fhe fc in
  x0 ← getH m e0; let e1 := hnext x0 in
  x1 ← getH m e1; let e2 := hnext x1 in
  x2 ← getH m e2;
  _ ← assertb (hnext x2 =? e0);
  Some (e0, e1, e2).
(** topology.rs 1235-1241 (edge_and_u_from_bary_zero) *)
Definition edge_and_u_from_bary_zero (m : mesh p3) (f : N) (l0 l1 l2 : Q) : option (option (N * Q)) :=
  '(e0, e1, e2) ← face_edges m f;
  Some (if GeomModel.is_zero l2 then Some (e0, l1)
        else if GeomModel.is_zero l0 then Some (e1, l2)
        else if GeomModel.is_zero l1 then Some (e2, l0)
        else None).

(** topology.rs 680-682 *)
Definition near_zero (tol l : Q) : bool :=
  negb (GeomModel.is_positive (l - tol)) && negb (GeomModel.is_negative (l + tol)).
(** topology.rs 690-693, 715-718, 724-727: keep the nearer of two hits *)
Definition keep (best : ray_result) (h : hit) (t : Q) : ray_result :=
  match best with
  | Some (_, bt) => if GeomModel.qlt t bt then Some (h, t) else best
  | None => Some (h, t)
  end.
(** topology.rs 658-730: one candidate face; [eps] is the tolerance of the intersection
    test, [tol] that of the classification *)
Definition cast_one (m : mesh p3) (p dir : p3) (eps tol : Q) (best : ray_result) (f : N) : option ray_result :=
  '(i0, i1, i2) ← face_vertices m f;
  a ← pos m i0; b ← pos m i1; c ← pos m i2;
  match GeomModel.ray_triangle_intersection eps p dir a b c with
  | None => Some best
  | Some (t, u, v) =>
    if GeomModel.is_negative t then Some best else
    let l1 := u in let l2 := v in let l0 := (1 - (l1 + l2))%Q in
    let z0 := near_zero tol l0 in let z1 := near_zero tol l1 in let z2 := near_zero tol l2 in
    let zero_count := (if z0 then 1 else 0) + (if z1 then 1 else 0) + (if z2 then 1 else 0) in
    if 2 <=? zero_count then
      let v_id := if z1 && z2 then i0 else if z2 && z0 then i1 else i2 in
      Some (keep best (HVertex v_id) t)
    else
      r ← (if zero_count =? 1
           then edge_and_u_from_bary_zero m f (if z0 then 0%Q else l0) (if z1 then 0%Q else l1) (if z2 then 0%Q else l2)
           else Some None);
      match r with
      | Some (he, u_edge) =>
        let u_edge := if GeomModel.is_negative u_edge then 0%Q else u_edge in
        let u_edge := if GeomModel.is_positive (u_edge - 1) then 1%Q else u_edge in
        x ← getH m he;
        y ← getH m (hprev x);
        Some (keep best (HEdge (hv y) (hv x) u_edge) t)
      | None => Some (keep best (HFace f l0 l1 l2) t)
      end
  end.
Fixpoint cast_all (m : mesh p3) (p dir : p3) (eps tol : Q) (best : ray_result) (l : list N) : option ray_result :=
  match l with
  | [] => Some best
  | f :: l => best ← cast_one m p dir eps tol best f; cast_all m p dir eps tol best l
  end.
(** topology.rs 645-656: the query box, from p to p + dir * 10e6 *)
Definition far_multiplier : Q := 10000000.
Definition far_point (p dir : p3) : p3 :=
  let '(x, y, z) := p in let '(u, v, w) := dir in
  (x + u * far_multiplier, y + v * far_multiplier, z + w * far_multiplier)%Q.
Definition ray_box (p dir : p3) : qbox := AabbModel.from_points AabbModel.rat_box (coords p) (coords (far_point p dir)).
(** topology.rs 628-733 (cast_ray_3); without a given tolerance the intersection test
    uses T::tolerance() = 0 (2119) and the classification T::query_tolerance() (677) *)
Definition cast_ray_3 (m : mesh p3) (p dir : p3) (tree : ftree) (tolerance : option Q) : option ray_result :=
  let eps := match tolerance with Some e => e | None => 0%Q end in
  let tol := match tolerance with Some e => e | None => (1 # 100000)%Q end in
  cast_all m p dir eps tol None (AabbModel.query_valid AabbModel.rat_box tree (ray_box p dir)).

(** topology.rs 559-566 *)
Definition axis_rays : list p3 :=
  [(1, 0, 0); (0, 1, 0); (0, 0, 1); (-(1), 0, 0); (0, -(1), 0); (0, 0, -(1))]%Q.
(** topology.rs 572-586: the loop over the rays, with on_surface and inside_count *)
Fixpoint cast_rays (m : mesh p3) (tree : ftree) (p : p3) (on : bool) (count : N) (rays : list p3) : option (bool * N) :=
  match rays with
  | [] => Some (on, count)
  | r :: rays =>
    res ← cast_ray_3 m p r tree None;
    match res with
    | Some (_, t) => if GeomModel.is_zero t then cast_rays m tree p true count rays else cast_rays m tree p on (count + 1) rays
    | None => cast_rays m tree p on count rays
    end
  end.
(** topology.rs 553-595 (point_in_mesh_3) *)
Definition point_in_mesh_3 (m : mesh p3) (tree : ftree) (p : p3) : option where_result :=
  match cast_rays m tree p false 0 axis_rays with
  | Some (on, count) =>
    Some (if on then OnSurface else if N.of_nat (length axis_rays) / 2 <? count then Inside else Outside)
  | None => None
  end.

(** topology.rs 597-614 (get_boundary_half_edges); the keys of the hash map come in an
    arbitrary order [keys] *)
Definition is_boundary_entry (m : mesh p2) (k : N * N) : option (option N) :=
  he ← emap m !! k;
  x ← getH m he;
  let tw := htwin x in
  if tw =? umax then Some (Some he) else
  y ← getH m tw;
  match hface y with
  | None => Some (Some he)
  | Some g => fc ← getF m g; Some (if frem fc then Some he else None)
  end.
Fixpoint boundary_half_edges (m : mesh p2) (keys : list (N * N)) : option (list N) :=
  match keys with
  | [] => Some []
  | k :: keys => r ← is_boundary_entry m k; rs ← boundary_half_edges m keys;
    Some (match r with Some h => h :: rs | None => rs end)
  end.
(** topology.rs 735-780 (cast_ray_2) *)
Definition cast_ray_2 (m : mesh p2) (point : p2) (he : N) : option bool :=
  x ← getH m he;
  y ← getH m (hnext x);
  q1 ← pos m (hv x);
  q2 ← pos m (hv y);
  let '(x1, y1) := q1 in let '(x2, y2) := q2 in let '(px, py) := point in
  Some (
    if (GeomModel.is_positive (y1 - py) && GeomModel.is_positive (y2 - py))
       || (GeomModel.is_negative (y1 - py) && GeomModel.is_negative (y2 - py)) then false
    else if GeomModel.is_zero (y1 - y2) && GeomModel.is_zero (y1 - py) then
      let min_x := if GeomModel.is_negative (x1 - x2) then x1 else x2 in
      let max_x := if GeomModel.is_positive (x1 - x2) then x1 else x2 in
      negb (GeomModel.is_negative (px - min_x)) && negb (GeomModel.is_positive (px - max_x))
    else
      let dy := (y2 - y1)%Q in
      if GeomModel.is_zero dy then false else
      let t := ((py - y1) / dy)%Q in
      let x_intersect := (x1 + t * (x2 - x1))%Q in
      negb (GeomModel.is_negative (x_intersect - px))).
Fixpoint parity (m : mesh p2) (point : p2) (inside : bool) (l : list N) : option bool :=
  match l with
  | [] => Some inside
  | he :: l => c ← cast_ray_2 m point he; parity m point (if c : bool then negb inside else inside) l
  end.
(** topology.rs 616-626 (point_in_mesh_2) *)
Definition point_in_mesh_2 (m : mesh p2) (keys : list (N * N)) (point : p2) : option bool :=
  hs ← boundary_half_edges m keys; parity m point false hs.
