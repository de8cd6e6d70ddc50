(** Model of the search for the faces that contain a point with the box tree
    (/repo/src/mesh/topology.rs 201-316), in space and with the exact scalar
    CgarRational.  [None] is a panic. *)
From Verif Require Export RayModel GeomModel.
From Verif Require AabbModel.
Local Open Scope Q_scope.

(** cgar_rational.rs 78-80 (query_tolerance) *)
Definition query_tolerance : Q := 1 # 100000.
(** cgar_rational.rs 56 (tolerance), times 100 (topology.rs 226) *)
Definition wide_tolerance : Q := 0 * 100.

(** topology.rs 213-216 *)
Definition around (p : p3) (r : Q) : qbox :=
  let '(x, y, z) := p in AabbModel.Box [x - r; y - r; z - r] [x + r; y + r; z + r].
(** topology.rs 226-229: the second box, through from_points *)
Definition around_wide (p : p3) (r : Q) : qbox :=
  let '(x, y, z) := p in AabbModel.from_points AabbModel.rat_box [x - r; y - r; z - r] [x + r; y + r; z + r].

(** topology.rs 281-312: the tests on one triangle *)
Definition in_triangle (p a b c : p3) : bool :=
  let ab := sub3 b a in
  let ac := sub3 c a in
  let ap := sub3 p a in
  let n := cross3 ab ac in
  let n2 := dot3 n n in
  if is_zero n2 then false else
  let d_plane := dot3 n ap in
  let d2 := d_plane * d_plane in
  let rhs := query_tolerance * query_tolerance * n2 in
  if is_positive (d2 - rhs) then false else
  let bp := sub3 p b in
  let bc := sub3 c b in
  let e0 := dot3 (cross3 ab ap) n in
  let e1 := dot3 (cross3 bc bp) n in
  let e2 := (n2 - e0) - e1 in
  let z0 := is_zero e0 in let z1 := is_zero e1 in let z2 := is_zero e2 in
  let neg := (negb z0 && is_negative e0) || (negb z1 && is_negative e1) || (negb z2 && is_negative e2) in
  let pos := (negb z0 && is_positive e0) || (negb z1 && is_positive e1) || (negb z2 && is_positive e2) in
  negb (neg && pos) && negb (z0 || z1 || z2).

(** topology.rs 262-316: one candidate *)
Definition face_contains (m : mesh p3) (p : p3) (f : N) : option bool :=
  fc ← getF m f;
  let he0 := fhe fc in
  if (nhes m <=? he0)%N then Some false else
  x0 ← getH m he0;
  let he1 := hnext x0 in
  x1 ← getH m he1;
  let he2 := hnext x1 in
  if (nhes m <=? he1)%N || (nhes m <=? he2)%N then Some false else
  x2 ← getH m he2;
  if negb (hnext x2 =? he0)%N then Some false else
  let v0 := hv x0 in let v1 := hv x1 in let v2 := hv x2 in
  if (nverts m <=? v0)%N || (nverts m <=? v1)%N || (nverts m <=? v2)%N then Some false else
  a ← pos m v0; b ← pos m v1; c ← pos m v2;
  Some (in_triangle p a b c).
Fixpoint keep_containing (m : mesh p3) (p : p3) (l : list N) : option (list N) :=
  match l with
  | [] => Some []
  | f :: l =>
      k ← face_contains m p f;
      r ← keep_containing m p l;
      Some (if (k : bool) then f :: r else r)
  end.

(** topology.rs 201-316: faces_containing_point_aabb, for N = 3 *)
Definition faces_containing_point_aabb (m : mesh p3) (t : ftree) (p : p3) : option (list N) :=
  let c := AabbModel.query_valid AabbModel.rat_box t (around p query_tolerance) in
  let c := match c with
           | [] => AabbModel.query_valid AabbModel.rat_box t (around_wide p wide_tolerance)
           | _ => c
           end in
  keep_containing m p c.
