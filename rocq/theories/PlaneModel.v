(** Model of planes, canonical edges and edge keys on exact scalars
    (geometry/plane.rs, geometry/canonical_edge.rs, geometry/vector.rs,
    mesh/basic_types.rs).  Same conventions as GeomModel.v. *)
From Verif Require Export GeomModel.

(** geometry/plane.rs 32-40 *)
Record plane := Plane { normal : point; offset : Q }.

(** geometry/plane.rs 64-69: zero coordinates are stored as the scalar zero *)
Definition clean (n : point) : point := map (λ x, if is_zero x then 0 else x) n.
(** geometry/plane.rs 59-88 (canonicalized) *)
Definition canonicalized (p : plane) : plane :=
  let n := clean (normal p) in
  match find (λ x, negb (is_zero x)) n with
  | Some c =>
    let s := Qabs c in
    let '(n, d) :=
      if negb (is_zero s) then (map (λ x, x / s) n, offset p / s) else (n, offset p) in
    if qlt c 0 then Plane (map Qopp n) (- d) else Plane n d
  | None => Plane n (offset p)
  end.
(** geometry/plane.rs 97-101 (eq), through geometry/point.rs 374-387 *)
Fixpoint coords_eq (a b : point) : bool :=
  match a, b with
  | x :: a, y :: b => if negb (Qeq_bool x y) then false else coords_eq a b
  | [], [] => true
  | _, _ => false
  end.
Definition plane_eq (p q : plane) : bool := coords_eq (normal p) (normal q) && Qeq_bool (offset p) (offset q).

(** geometry/vector.rs 444-451 (cross for N = 3) *)
Definition cross_p (a b : p3) : p3 :=
  let '(a0, a1, a2) := a in
  let '(b0, b1, b2) := b in
  (a1 * b2 - a2 * b1, a2 * b0 - a0 * b2, a0 * b1 - a1 * b0).
(** geometry/vector.rs 212-214 *)
Definition dot_p (a b : p3) : Q :=
  let '(a0, a1, a2) := a in let '(b0, b1, b2) := b in a0 * b0 + a1 * b1 + a2 * b2.
(** geometry/vector.rs 231-239 (any_perpendicular for N = 3) *)
Definition any_perpendicular (v : p3) : p3 :=
  let '(x, y, z) := v in
  if qlt (Qabs x) (Qabs y) && qlt (Qabs x) (Qabs z) then cross_p v (1, 0, 0)
  else if qlt (Qabs y) (Qabs z) then cross_p v (0, 1, 0)
  else cross_p v (0, 0, 1).

(** A plane in three dimensions, with its normal as a triple. *)
Record plane3 := Plane3 { n3 : p3; d3 : Q }.
(** geometry/plane.rs 125-132 (basis) *)
Definition basis3 (p : plane3) : p3 * p3 :=
  let u := any_perpendicular (n3 p) in (u, cross_p (n3 p) u).
(** geometry/plane.rs 134-150 (origin); the panic is [None] *)
Definition origin3 (p : plane3) : option p3 :=
  let '(a, b, c) := n3 p in
  if negb (is_zero c) then Some (0, 0, - d3 p / c)
  else if negb (is_zero b) then Some (0, - d3 p / b, 0)
  else if negb (is_zero a) then Some (- d3 p / a, 0, 0)
  else None.
(** geometry/plane.rs 152-158 (from_points) *)
Definition from_points3 (q0 q1 q2 : p3) : plane3 :=
  let '(x0, y0, z0) := q0 in
  let '(x1, y1, z1) := q1 in
  let '(x2, y2, z2) := q2 in
  let n := cross_p (x1 - x0, y1 - y0, z1 - z0) (x2 - x0, y2 - y0, z2 - z0) in
  Plane3 n (- dot_p n q0).
(** A 3D plane as a plane of any dimension. *)
Definition to_plane (p : plane3) : plane :=
  let '(a, b, c) := n3 p in Plane [a; b; c] (d3 p).

(** A line of the plane, with its normal as a pair. *)
Record line2 := Line2 { n2 : p2; d2o : Q }.
(** geometry/plane.rs 172-177 (basis) *)
Definition basis2 (l : line2) : p2 * p2 :=
  ((snd (n2 l), - fst (n2 l)), n2 l).
(** geometry/plane.rs 179-192 (origin) *)
Definition origin2 (l : line2) : option p2 :=
  let '(a, b) := n2 l in
  if negb (is_zero b) then Some (0, - d2o l / b)
  else if negb (is_zero a) then Some (- d2o l / a, 0)
  else None.
(** geometry/plane.rs 194-202 (from_points) *)
Definition from_points2 (q0 q1 : p2) : line2 :=
  let '(x0, y0) := q0 in
  let '(x1, y1) := q1 in
  let n := (- (y1 - y0), x1 - x0) in
  Line2 n (- (fst n * x0 + snd n * y0)).

(** geometry/vector.rs 285-311 (any_perpendicular for N = 4): the scan for the
    coordinate vector least aligned with [v], then the projection step.  A
    vector is the list of its coordinates. *)
Definition unit4 (i : nat) : point :=
  map (λ j, if Nat.eqb i j then 1 else 0) [0; 1; 2; 3]%nat.
Definition any_perpendicular4 (v : point) : point :=
  let best :=
    fst (fold_left (λ '(best, best_val) ei,
           let w := Qabs (dot v ei) in
           if qlt w best_val then (ei, w) else (best, best_val))
         (map unit4 [1; 2; 3]%nat) (unit4 0, Qabs (dot v (unit4 0)))) in
  let denom := dot v v in
  if is_zero denom then unit4 0
  else psub best (scale v (dot v best / denom)).

(** geometry/point.rs 389-403 (partial_cmp), exact scalars: the comparison of
    two coordinates never fails *)
Fixpoint point_cmp (a b : point) : comparison :=
  match a, b with
  | x :: a, y :: b => match x ?= y with Eq => point_cmp a b | c => c end
  | _, _ => Eq
  end.
Definition point_lt (a b : point) : bool := match point_cmp a b with Lt => true | _ => false end.
(** geometry/canonical_edge.rs 27-48 (CanonicalEdge::new); the pair is (a, b) *)
Definition canonical_edge (p1 p2 : point) : point * point :=
  if point_lt p1 p2 then (p1, p2) else (p2, p1).
(** geometry/canonical_edge.rs 27 (derived PartialEq) *)
Definition canonical_edge_eq (e f : point * point) : bool :=
  coords_eq (fst e) (fst f) && coords_eq (snd e) (snd f).
(** geometry/canonical_edge.rs 50-70 (parameter_t): only coordinates 0 and 1 are
    read; N = 1 would be an out-of-bounds access and is not modelled *)
Definition parameter_t (e : point * point) (p : point) : Q :=
  let ev := psub (snd e) (fst e) in
  let pv := psub p (fst e) in
  let len2 := nth 0 ev 0 * nth 0 ev 0 + nth 1 ev 0 * nth 1 ev 0 in
  if is_zero len2 then 0
  else (nth 0 pv 0 * nth 0 ev 0 + nth 1 pv 0 * nth 1 ev 0) / len2.

(** mesh/basic_types.rs 41-49 (Edge::new); Edge equality is equality of pairs *)
Definition edge_new (a b : N) : N * N := if (a <? b)%N then (a, b) else (b, a).
