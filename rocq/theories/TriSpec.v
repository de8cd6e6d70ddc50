(** Triangles of space as sets of points, and a ray against them. *)
From Verif Require Export GeomSpec.

(** the points of the triangle with corners a, b, c *)
Definition in_tri (a b c p : p3) : Prop :=
  ∃ u v w, 0 <= u ∧ 0 <= v ∧ 0 <= w ∧ u + v + w == 1 ∧ eq3 p (comb3 u v w a b c).
(** the direction d leaves the plane of the triangle *)
Definition transversal (a b c d : p3) : Prop := ~ vol6 a b c (ray3 a d 1) == 0.
(** the corners are not on one line *)
Definition thick (a b c : p3) : Prop := ¬ parallel3 a b a c.

(** q is at most r away from p on every axis *)
Definition close (r : Q) (p q : p3) : Prop :=
  let '(x, y, z) := p in let '(x', y', z') := q in
  (x - r <= x' ∧ x' <= x + r ∧ y - r <= y' ∧ y' <= y + r ∧ z - r <= z' ∧ z' <= z + r).
(** the scalar product *)
Definition height (n p : p3) : Q :=
  let '(u, v, w) := n in let '(x, y, z) := p in (u * x + v * y + w * z).
