(** Specification vocabulary for exact geometry: points, lines, segments,
    triangles and circles, with equality of rationals coordinate by coordinate. *)
From Verif Require Export GeomModel.

(** ** Any dimension: a point is its list of coordinates *)
Definition peq (p q : point) : Prop := Forall2 Qeq p q.
(** the point a + t (b - a) *)
Definition lerp (a b : point) (t : Q) : point := map2 (λ x y, x + t * (y - x)) a b.
Definition on_line (a b p : point) : Prop := ∃ t, peq p (lerp a b t).
Definition on_segment (a b p : point) : Prop := ∃ t, 0 <= t ∧ t <= 1 ∧ peq p (lerp a b t).
(** squared distance *)
Fixpoint dist2 (p q : point) : Q :=
  match p, q with x :: p, y :: q => (x - y) * (x - y) + dist2 p q | _, _ => 0 end.
(** the point u a + v b + w c *)
Definition comb (u v w : Q) (a b c : point) : point :=
  map2 Qplus (map (Qmult u) a) (map2 Qplus (map (Qmult v) b) (map (Qmult w) c)).
Definition same_dim (a b : point) : Prop := length a = length b.

(** ** The plane *)
Definition eq2 (p q : p2) : Prop := fst p == fst q ∧ snd p == snd q.
Definition at2 (a b : p2) (t : Q) : p2 := (fst a + t * (fst b - fst a), snd a + t * (snd b - snd a)).
Definition on_seg2 (a b p : p2) : Prop := ∃ t, 0 <= t ∧ t <= 1 ∧ eq2 p (at2 a b t).
Definition comb2 (u v w : Q) (a b c : p2) : p2 :=
  (u * fst a + v * fst b + w * fst c, u * snd a + v * snd b + w * snd c).
(** twice the signed area of the triangle *)
Definition area2 (a b c : p2) : Q :=
  (fst b - fst a) * (snd c - snd a) - (snd b - snd a) * (fst c - fst a).
Definition d2 (p q : p2) : Q :=
  (fst p - fst q) * (fst p - fst q) + (snd p - snd q) * (snd p - snd q).
(** the directions are parallel *)
Definition parallel2 (a b c d : p2) : Prop :=
  (fst b - fst a) * (snd d - snd c) == (snd b - snd a) * (fst d - fst c).

(** the point of the ray from o in direction d at parameter t *)
Definition ray2 (o d : p2) (t : Q) : p2 := (fst o + t * fst d, snd o + t * snd d).

(** [r] describes the common part of two segments of the plane *)
Definition right_answer2 (a b c d : p2) (r : seg_inter p2) : Prop :=
  match r with
  | INone => ∀ p, ¬ (on_seg2 a b p ∧ on_seg2 c d p)
  | IPoint q => ∀ p, on_seg2 a b p ∧ on_seg2 c d p ↔ eq2 p q
  | IOverlap q q' => ∀ p, on_seg2 a b p ∧ on_seg2 c d p ↔ on_seg2 q q' p
  end.

(** ** Space *)
Definition eq3 (p q : p3) : Prop :=
  let '(x, y, z) := p in let '(u, v, w) := q in x == u ∧ y == v ∧ z == w.
Definition at3 (a b : p3) (t : Q) : p3 :=
  let '(x, y, z) := a in let '(u, v, w) := b in
  (x + t * (u - x), y + t * (v - y), z + t * (w - z)).
Definition on_seg3 (a b p : p3) : Prop := ∃ t, 0 <= t ∧ t <= 1 ∧ eq3 p (at3 a b t).
Definition comb3 (u v w : Q) (a b c : p3) : p3 :=
  let '(x1, y1, z1) := a in let '(x2, y2, z2) := b in let '(x3, y3, z3) := c in
  (u * x1 + v * x2 + w * x3, u * y1 + v * y2 + w * y3, u * z1 + v * z2 + w * z3).
(** the determinant of b - a, c - a, d - a *)
Definition vol6 (a b c d : p3) : Q :=
  let '(x0, y0, z0) := a in let '(x1, y1, z1) := b in
  let '(x2, y2, z2) := c in let '(x3, y3, z3) := d in
  (x1 - x0) * ((y2 - y0) * (z3 - z0) - (z2 - z0) * (y3 - y0))
  - (y1 - y0) * ((x2 - x0) * (z3 - z0) - (z2 - z0) * (x3 - x0))
  + (z1 - z0) * ((x2 - x0) * (y3 - y0) - (y2 - y0) * (x3 - x0)).
(** the directions b - a and d - c are parallel *)
Definition parallel3 (a b c d : p3) : Prop :=
  let '(x0, y0, z0) := a in let '(x1, y1, z1) := b in
  let '(x2, y2, z2) := c in let '(x3, y3, z3) := d in
  (y1 - y0) * (z3 - z2) == (z1 - z0) * (y3 - y2) ∧
  (z1 - z0) * (x3 - x2) == (x1 - x0) * (z3 - z2) ∧
  (x1 - x0) * (y3 - y2) == (y1 - y0) * (x3 - x2).
(** the point of the ray from o in direction d at parameter t *)
Definition ray3 (o d : p3) (t : Q) : p3 :=
  let '(x, y, z) := o in let '(u, v, w) := d in (x + t * u, y + t * v, z + t * w).
(** [r] describes the common part of two segments of space *)
Definition right_answer3 (a b c d : p3) (r : seg_inter p3) : Prop :=
  match r with
  | INone => ∀ p, ¬ (on_seg3 a b p ∧ on_seg3 c d p)
  | IPoint q => ∀ p, on_seg3 a b p ∧ on_seg3 c d p ↔ eq3 p q
  | IOverlap q q' => ∀ p, on_seg3 a b p ∧ on_seg3 c d p ↔ on_seg3 q q' p
  end.

(** ** Barycentric weights *)
(** what a classification says about the weights of the point *)
Definition weights_say (r : triangle_point) (u v w : Q) : Prop :=
  match r with
  | InTri => 0 < u ∧ 0 < v ∧ 0 < w
  | OnVertex => (u == 1 ∧ v == 0 ∧ w == 0) ∨ (u == 0 ∧ v == 1 ∧ w == 0) ∨ (u == 0 ∧ v == 0 ∧ w == 1)
  | OnEdge => (u == 0 ∧ 0 < v ∧ 0 < w) ∨ (v == 0 ∧ 0 < u ∧ 0 < w) ∨ (w == 0 ∧ 0 < u ∧ 0 < v)
  | Off => u < 0 ∨ v < 0 ∨ w < 0
  end.

(** ** Rounding to double: exact on doubles, monotone *)
Definition rounding (fl : Q → Q) : Prop :=
  (∀ x y, x <= y → fl x <= fl y) ∧
  (∀ x (m : Z) (k : nat), x == inject_Z m * (1 # 2) ^ (Z.of_nat k) → (Z.abs m < 2 ^ 53)%Z → (k <= 1022)%nat → fl x == x).
