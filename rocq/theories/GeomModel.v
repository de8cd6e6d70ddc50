(** Model of the geometric predicates on exact scalars.

    The scalar is the exact rational type CgarRational (numeric/cgar_rational.rs):
    a value is a rational [Q], [==] is equality of values, and sign tests and
    comparisons are exact (cgar_rational.rs 92-119, 302-345).  A division by zero
    panics in the code; each division below is reached only after a test that
    the divisor is non-zero.  A [Point<T, N>] (geometry/point.rs 37-42) is the
    list of its N coordinates. *)
From Coq Require Export Utf8_core QArith Qabs List Bool Lia Lqa.
Export ListNotations.
Open Scope Q_scope.

(** numeric/cgar_rational.rs 324-345 (Zero for CgarRational) *)
Definition is_zero (x : Q) : bool := Qeq_bool x 0.
Definition is_positive (x : Q) : bool := negb (Qle_bool x 0).
Definition is_negative (x : Q) : bool := negb (Qle_bool 0 x).
(** numeric/cgar_rational.rs 305-309 (PartialOrd for CgarRational) *)
Definition qlt (x y : Q) : bool := negb (Qle_bool y x).
Definition qle (x y : Q) : bool := Qle_bool x y.

Definition point := list Q.

Fixpoint map2 {A B C} (f : A → B → C) (l : list A) (k : list B) : list C :=
  match l, k with x :: l, y :: k => f x y :: map2 f l k | _, _ => [] end.

(** geometry/point.rs 141-153 ([&a - &b]) and as_vector *)
Definition psub (a b : point) : point := map2 Qminus a b.
(** geometry/point.rs 115-127 *)
Definition padd (a b : point) : point := map2 Qplus a b.
(** geometry/vector.rs 176, 212, 264 (dot); the code writes the sum out for N = 2, 3, 4 *)
Fixpoint dot (u v : point) : Q :=
  match u, v with x :: u, y :: v => x * y + dot u v | _, _ => 0 end.
(** geometry/vector.rs 180, 216, 268 (scale) *)
Definition scale (u : point) (s : Q) : point := map (λ x, x * s) u.

(** kernel/predicates.rs 42-53 (are_equal) *)
Fixpoint are_equal (p1 p2 : point) : bool :=
  match p1, p2 with
  | x :: p1, y :: p2 => if negb (is_zero (x - y)) then false else are_equal p1 p2
  | _, _ => true
  end.

(** kernel/predicates.rs 80-111 (are_collinear): the inner loop, then the outer one *)
Fixpoint proportional (r : Q) (a b c : point) : bool :=
  match a, b, c with
  | x :: a, y :: b, z :: c =>
    if is_positive (Qabs ((z - x) - (y - x) * r)) then false else proportional r a b c
  | _, _, _ => true
  end.
Fixpoint are_collinear (a b c : point) : bool :=
  match a, b, c with
  | x :: a, y :: b, z :: c =>
    let u := y - x in
    let v := z - x in
    if is_positive (Qabs u) then proportional (v / u) a b c
    else if is_positive (Qabs v) then false else are_collinear a b c
  | _, _, _ => true
  end.

(** kernel/predicates.rs 113-126 (triangle_is_degenerate) *)
Definition triangle_is_degenerate (a b c : point) : bool :=
  are_equal a b || are_equal a c || are_equal b c || are_collinear a b c.

(** kernel/predicates.rs 141-155: the per-axis loop of is_point_on_segment *)
Fixpoint between_axes (p a b : point) : bool :=
  match p, a, b with
  | pi :: p, ai :: a, bi :: b =>
    let '(mn, mx) := if qle ai bi then (ai, bi) else (bi, ai) in
    if qlt pi mn || qlt mx pi then false else between_axes p a b
  | _, _, _ => true
  end.
(** kernel/predicates.rs 128-157 (is_point_on_segment) *)
Definition is_point_on_segment (p a b : point) : bool :=
  if negb (are_collinear p a b) then false else between_axes p a b.

(** kernel/predicates.rs 159-200 (point_u_on_segment) *)
Definition point_u_on_segment (a b p : point) : option Q :=
  let ab := psub b a in
  let ap := psub p a in
  let ab2 := dot ab ab in
  if is_zero ab2 then
    if are_equal a p then Some 0 else if are_equal b p then Some 1 else None
  else if negb (are_collinear a b p) then None
  else
    let u := dot ap ab / ab2 in
    if qlt u 0 || qlt 1 u then None else Some u.

(** kernel/predicates.rs 216-236 (are_approx inside point_u_on_segment_with_tolerance) *)
Definition are_approx (p1 p2 : point) (tol : Q) : bool :=
  negb (is_positive (dot (psub p1 p2) (psub p1 p2) - tol * tol)).
(** kernel/predicates.rs 202-280 (point_u_on_segment_with_tolerance) *)
Definition point_u_on_segment_with_tolerance (a b p : point) (tol : Q) : option Q :=
  let ab := psub b a in
  let ap := psub p a in
  let ab2 := dot ab ab in
  if is_zero ab2 then
    if are_approx a p tol then Some 0 else if are_approx b p tol then Some 1 else None
  else
    let u := dot ap ab / ab2 in
    let uc := if qlt u 0 then 0 else if qlt 1 u then 1 else u in
    let closest := padd a (scale ab uc) in
    let dv := psub p closest in
    if qle (dot dv dv) (tol * tol) then Some u else None.

(** geometry/segment.rs 98-115 (midpoint), 117-127 (parameter_of_point) *)
Definition midpoint (a b : point) : point := map2 (λ x y, (x + y) / 2) a b.
Definition parameter_of_point (a b p : point) : Q :=
  let e := psub b a in
  let l2 := dot e e in
  if is_zero l2 then 0 else dot (psub p a) e / l2.

(** geometry/util.rs 69-106 (barycentric_coords) *)
Definition barycentric_coords (p a b c : point) : option (Q * Q * Q) :=
  let v0 := psub b a in
  let v1 := psub c a in
  let v2 := psub p a in
  let d00 := dot v0 v0 in
  let d01 := dot v0 v1 in
  let d11 := dot v1 v1 in
  let d20 := dot v2 v0 in
  let d21 := dot v2 v1 in
  let denom := d00 * d11 - d01 * d01 in
  if is_zero denom then None
  else
    let v := (d11 * d20 - d01 * d21) / denom in
    let w := (d00 * d21 - d01 * d20) / denom in
    Some (1 - v - w, v, w).

(** kernel/orientation.rs 31-60 (orient), N = 2 and N = 3.  The elimination step
    replaces m[i][j] by m[i][j]*pivot - m[i][k]*m[k][j] for i, j > k and
    multiplies the running product by the pivot; the result is returned as
    soon as a pivot is zero.  The matrix is a list of rows. *)
Definition eliminate (row : list Q) (rows : list (list Q)) : list (list Q) :=
  match row with
  | [] => rows
  | piv :: rest =>
    map (λ r, match r with
              | [] => []
              | ri :: rr => map2 (λ mij mkj, mij * piv - ri * mkj) rr rest
              end) rows
  end.
Fixpoint orient_loop (fuel : nat) (det : Q) (m : list (list Q)) : Q :=
  match fuel, m with
  | S fuel, (piv :: rest) :: rows =>
    if Qeq_bool (Qabs piv) 0 then 0
    else orient_loop fuel (det * piv) (eliminate (piv :: rest) rows)
  | _, _ => det
  end.
Definition orient (p0 : point) (ps : list point) : Q :=
  orient_loop (length ps) 1 (map (λ p, psub p p0) ps).

Definition p2 : Type := Q * Q.
Definition p3 : Type := Q * Q * Q.
Definition l2 (p : p2) : point := [fst p; snd p].
Definition l3 (p : p3) : point := let '(x, y, z) := p in [x; y; z].

(** geometry/vector.rs 431-434 (cross in the plane), 444-451 (in space) *)
Definition cross2 (u v : p2) : Q := fst u * snd v - snd u * fst v.
Definition cross3 (u v : p3) : p3 :=
  let '(a, b, c) := u in let '(x, y, z) := v in
  (b * z - c * y, c * x - a * z, a * y - b * x).
Definition sub2 (a b : p2) : p2 := (fst a - fst b, snd a - snd b).
Definition sub3 (a b : p3) : p3 :=
  let '(x, y, z) := a in let '(u, v, w) := b in (x - u, y - v, z - w).
Definition dot3 (u v : p3) : Q :=
  let '(a, b, c) := u in let '(x, y, z) := v in a * x + b * y + c * z.

(** kernel/predicates.rs 33-39 (TrianglePoint) *)
Inductive triangle_point := Off | OnEdge | OnVertex | InTri.

(** kernel/predicates.rs 368-399 (classify_from_edges) *)
Definition b2n (b : bool) : nat := if b then 1 else 0.
Definition classify_from_edges (e0 e1 e2 : Q) : triangle_point :=
  let z0 := is_zero e0 in let z1 := is_zero e1 in let z2 := is_zero e2 in
  let zc := (b2n z0 + b2n z1 + b2n z2)%nat in
  let has_neg := (negb z0 && qlt e0 0) || (negb z1 && qlt e1 0) || (negb z2 && qlt e2 0) in
  let has_pos := (negb z0 && qlt 0 e0) || (negb z1 && qlt 0 e1) || (negb z2 && qlt 0 e2) in
  if has_neg && has_pos then Off
  else if Nat.leb 2 zc then OnVertex
  else if Nat.eqb zc 1 then OnEdge
  else InTri.
(** kernel/predicates.rs 430-439, 458-466: the near-edge shortcut, then the
    classification.  [near e0 e1 e2] is near_edge_approx (358-366): one of the
    double approximations is at most the query tolerance. *)
Definition edges_answer (near : Q → Q → Q → bool) (e0 e1 e2 : Q) : triangle_point :=
  if near e0 e1 e2 && (is_zero e0 || is_zero e1 || is_zero e2) then
    if Nat.leb 2 (b2n (is_zero e0) + b2n (is_zero e1) + b2n (is_zero e2)) then OnVertex else OnEdge
  else classify_from_edges e0 e1 e2.
(** kernel/predicates.rs 401-441 (point_in_or_on_triangle, N = 2) *)
Definition point_in_or_on_triangle_2 near (p a b c : p2) : triangle_point :=
  if is_zero (cross2 (sub2 b a) (sub2 c a)) then Off
  else edges_answer near (cross2 (sub2 b a) (sub2 p a)) (cross2 (sub2 c b) (sub2 p b)) (cross2 (sub2 a c) (sub2 p c)).
(** kernel/predicates.rs 441-467 (N = 3) *)
Definition point_in_or_on_triangle_3 near (p a b c : p3) : triangle_point :=
  let n := cross3 (sub3 b a) (sub3 c a) in
  let '(nx, ny, nz) := n in
  if is_zero nx && is_zero ny && is_zero nz then Off
  else edges_answer near
    (dot3 (cross3 (sub3 b a) (sub3 p a)) n)
    (dot3 (cross3 (sub3 c b) (sub3 p b)) n)
    (dot3 (cross3 (sub3 a c) (sub3 p c)) n).

(** the exact rational value of the double 1e-10 (geometry/util.rs 33, EPS) *)
Definition EPS : Q := 7737125245533627 # 77371252455336267181195264.
(** kernel/predicates.rs 472-504 (orient2d).  [fl] is rounding to double: the
    value of [as_f64_fast] and of every double operation.  The branch in which
    an approximation is missing is not modelled: CgarRational always has one. *)
Definition orient2d_det (a b c : p2) : Q :=
  (fst b - fst a) * (snd c - snd a) - (snd b - snd a) * (fst c - fst a).
Definition orient2d_scale (fl : Q → Q) (a b c : p2) : Q :=
  let add x y := fl (x + y) in
  let m x := Qabs (fl x) in
  fl (add (add (add (add (add (m (fst a)) (m (snd a))) (m (fst b))) (m (snd b))) (m (fst c))) (m (snd c)) * EPS).
Definition orient2d (fl : Q → Q) (a b c : p2) : Q :=
  let det := orient2d_det a b c in
  if qle (Qabs (fl det)) (orient2d_scale fl a b c) then 0 else det.

(** numeric/scalar.rs 74-79 *)
Definition qmax (x y : Q) : Q := if qlt y x then x else y.
Definition qmin (x y : Q) : Q := if qlt x y then x else y.
(** kernel/predicates.rs 507-538 (incircle) *)
Definition incircle_det (a b c d : p2) : Q :=
  let ax := fst a - fst d in let ay := snd a - snd d in
  let a2 := ax * ax + ay * ay in
  let bx := fst b - fst d in let yb := snd b - snd d in
  let b2 := bx * bx + yb * yb in
  let cx := fst c - fst d in let cy := snd c - snd d in
  let c2 := cx * cx + cy * cy in
  ax * (yb * c2 - b2 * cy) - ay * (bx * c2 - b2 * cx) + a2 * (bx * cy - yb * cx).
Definition incircle_eps (a b c d : p2) : Q :=
  let ax := fst a - fst d in let ay := snd a - snd d in
  let bx := fst b - fst d in let yb := snd b - snd d in
  let cx := fst c - fst d in let cy := snd c - snd d in
  let s := qmax (Qabs ax + Qabs ay + Qabs bx + Qabs yb + Qabs cx + Qabs cy) 1 in
  s * s * EPS.
Definition incircle (a b c d : p2) : Q :=
  let det := incircle_det a b c d in
  if negb (is_positive (Qabs det - incircle_eps a b c d)) then 0 else det.

(** kernel/predicates.rs 541-573 (bbox2d), 605-648 (bbox3d): the running bounds
    of one coordinate.  The code keeps the bounds of all axes in one loop. *)
Definition min_step (m x : Q) : Q := if is_negative (x - m) then x else m.
Definition max_step (m x : Q) : Q := if is_positive (x - m) then x else m.
(** [None] is the out-of-bounds panic on an empty slice *)
Definition bbox2d (pts : list p2) : option (p2 * p2) :=
  match pts with
  | [] => None
  | p :: ps =>
    Some (fold_left (λ m q, (min_step (fst m) (fst q), min_step (snd m) (snd q))) ps p,
          fold_left (λ m q, (max_step (fst m) (fst q), max_step (snd m) (snd q))) ps p)
  end.
Definition bbox3d (pts : list p3) : option (p3 * p3) :=
  match pts with
  | [] => None
  | p :: ps =>
    Some (fold_left (λ '(x, y, z) '(u, v, w), (min_step x u, min_step y v, min_step z w)) ps p,
          fold_left (λ '(x, y, z) '(u, v, w), (max_step x u, max_step y v, max_step z w)) ps p)
  end.

(** kernel/predicates.rs 685-697 (centroid2) *)
Definition centroid2 (a b : p2) : p2 := ((1 # 2) * (fst a + fst b), (1 # 2) * (snd a + snd b)).

(** geometry/edge_edge_intersect.rs 30-64, N = 2 *)
Definition edge_edge_intersection_2 (q1 q2 q3 q4 : p2) : option p2 :=
  let d1 := (fst q2 - fst q1) * (snd q4 - snd q3) - (snd q2 - snd q1) * (fst q4 - fst q3) in
  if is_zero d1 then None
  else
    let d2 := (fst q1 - fst q3) * (snd q4 - snd q3) - (snd q1 - snd q3) * (fst q4 - fst q3) in
    let t := d2 / d1 in
    if qle 0 t && qle t 1 then
      Some (fst q1 + t * (fst q2 - fst q1), snd q1 + t * (snd q2 - snd q1))
    else None.

(** Stable sort of the four end points: Rust's slice::sort_by is stable, hence
    equal to insertion sort. [le x y] is "not (y compares less than x)". *)
Section sort.
Context {A : Type} (lt : A → A → bool).
Fixpoint insert (x : A) (l : list A) : list A :=
  match l with
  | [] => [x]
  | y :: l => if lt y x then y :: insert x l else x :: y :: l
  end.
Fixpoint isort (l : list A) : list A :=
  match l with [] => [] | x :: l => insert x (isort l) end.
End sort.

Inductive seg_inter (A : Type) := INone | IPoint (p : A) | IOverlap (p q : A).
Arguments INone {A}. Arguments IPoint {A} p. Arguments IOverlap {A} p q.

(** geometry/intersection.rs 120-130: comparison by x, then y *)
Definition lex2 (p q : p2) : bool :=
  qlt (fst p) (fst q) || (Qeq_bool (fst p) (fst q) && qlt (snd p) (snd q)).
(** geometry/intersection.rs 67-142 (segment_segment_intersection_2) *)
Definition orient_2 (a b c : p2) : Q := orient (l2 a) [l2 b; l2 c].
Definition segment_segment_intersection_2 (a b c d : p2) : seg_inter p2 :=
  let o1 := orient_2 a b c in
  let o2 := orient_2 a b d in
  let o3 := orient_2 c d a in
  let o4 := orient_2 c d b in
  if qle (o1 * o2) 0 && qle (o3 * o4) 0 then
    if is_positive (Qabs o1) || is_positive (Qabs o2) || is_positive (Qabs o3) || is_positive (Qabs o4) then
      let '(x1, y1) := a in let '(x2, y2) := b in
      let '(x3, y3) := c in let '(x4, y4) := d in
      let denom := (x1 - x2) * (y3 - y4) - (y1 - y2) * (x3 - x4) in
      if is_zero (Qabs denom) then INone
      else
        let px := (x1 * y2 - y1 * x2) * (x3 - x4) - (x1 - x2) * (x3 * y4 - y3 * x4) in
        let py := (x1 * y2 - y1 * x2) * (y3 - y4) - (y1 - y2) * (x3 * y4 - y3 * x4) in
        IPoint (px / denom, py / denom)
    else if are_collinear (l2 a) (l2 b) (l2 c) then
      match isort lex2 [a; b; c; d] with
      | [_; p; q; _] => IOverlap p q
      | _ => INone
      end
    else INone
  else INone.

(** geometry/intersection.rs 225-241: comparison by x, then y, then z *)
Definition lex3 (p q : p3) : bool :=
  let '(x, y, z) := p in let '(u, v, w) := q in
  qlt x u || (Qeq_bool x u && (qlt y v || (Qeq_bool y v && qlt z w))).
Definition clamp01 (s : Q) : Q := if qlt s 0 then 0 else if qlt 1 s then 1 else s.
Definition along3 (p d : p3) (s : Q) : p3 :=
  let '(x, y, z) := p in let '(u, v, w) := d in (x + u * s, y + v * s, z + w * s).
(** geometry/intersection.rs 170-287 (segment_segment_intersection_3) *)
Definition segment_segment_intersection_3 (q1 q2 r1 r2 : p3) : seg_inter p3 :=
  let d1 := sub3 q2 q1 in
  let d2 := sub3 r2 r1 in
  let r := sub3 q1 r1 in
  let a := dot3 d1 d1 in
  let b := dot3 d1 d2 in
  let c := dot3 d2 d2 in
  let d := dot3 d1 r in
  let e := dot3 d2 r in
  let denom := a * c - b * b in
  if is_positive (Qabs denom) then
    let s := clamp01 ((b * e - c * d) / denom) in
    let t := clamp01 ((a * e - b * d) / denom) in
    let cp := along3 q1 d1 s in
    let cq := along3 r1 d2 t in
    let dv := sub3 cp cq in
    if qle (dot3 dv dv) 0 then IPoint cp else INone
  else if are_collinear (l3 q1) (l3 q2) (l3 r1) then
    match isort lex3 [q1; q2; r1; r2] with
    | [_; p; q; _] => IOverlap p q
    | _ => INone
    end
  else INone.

(** mesh/topology.rs 2022-2104 (ray_segment_intersection_2d) *)
Definition ray_segment_intersection_2d (o d a b : p2) : option (Q * Q) :=
  let '(rx, ry) := d in
  let rr := rx * rx + ry * ry in
  if is_zero rr then None
  else
    let '(sx, sy) := sub2 b a in
    let '(qx, qy) := sub2 a o in
    let rxs := rx * sy - ry * sx in
    let qxr := qx * ry - qy * rx in
    let qxs := qx * sy - qy * sx in
    if is_zero rxs then
      let o' := [fst o + rx; snd o + ry] in
      if negb (is_zero qxr && are_collinear (l2 o) o' (l2 a) && are_collinear (l2 o) o' (l2 b)) then None
      else
        let t0 := (qx * rx + qy * ry) / rr in
        let t1 := t0 + (sx * rx + sy * ry) / rr in
        let '(tmin, tmax) := if qle t0 t1 then (t0, t1) else (t1, t0) in
        if qlt tmax 0 then None
        else
          let t_hit := if qle 0 tmin then tmin else 0 in
          match point_u_on_segment (l2 a) (l2 b) [fst o + rx * t_hit; snd o + ry * t_hit] with
          | Some u => Some (t_hit, u)
          | None => None
          end
    else
      let t := qxs / rxs in
      let u := qxr / rxs in
      if qlt t 0 || qlt u 0 || qlt 1 u then None else Some (t, u).

(** mesh/topology.rs 2107-2195 (ray_triangle_intersection); [eps] is the given
    tolerance or [T::tolerance()], which is 0 for CgarRational *)
Definition ray_triangle_intersection (eps : Q) (o d v0 v1 v2 : p3) : option (Q * Q * Q) :=
  let e1 := sub3 v1 v0 in
  let e2 := sub3 v2 v0 in
  let pvec := cross3 d e2 in
  let det := dot3 e1 pvec in
  if qle (Qabs det) eps then None
  else
    let inv := 1 / det in
    let s := sub3 o v0 in
    let u := dot3 s pvec * inv in
    if is_negative (u + eps) || is_positive (u - (1 + eps)) then None
    else
      let qvec := cross3 s e1 in
      let v := dot3 d qvec * inv in
      if is_negative (v + eps) || is_positive (u + v - (1 + eps)) then None
      else
        let t := dot3 e2 qvec * inv in
        if is_negative (t + eps) then None
        else Some ((if is_negative t then 0 else t), u, v).

(** mesh/topology.rs 364-383 (face_area_2) and 385-403 (face_area_3) on the corners *)
Definition face_area_2 (a b c : p2) : Q := Qabs (cross2 (sub2 b a) (sub2 c a)) / 2.
Definition face_area_3 (a b c : p3) : Q :=
  let n := cross3 (sub3 b a) (sub3 c a) in dot3 n n / 4.
