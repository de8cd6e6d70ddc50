(** Vocabulary for the intersection of two triangles: triangles as sets of points,
    the part they share, and what a contact says.  From the model it uses only the
    data types and [corner], [coord]. *)
From Verif Require Export TriSpec TriTriModel.

(** the point belongs to the triangle *)
Definition has (t : tri) (x : p3) : Prop := in_tri (corner t 0) (corner t 1) (corner t 2) x.
(** the corners are not on one line *)
Definition solid (t : tri) : Prop := thick (corner t 0) (corner t 1) (corner t 2).
(** the point lies in the plane of the triangle *)
Definition in_plane (t : tri) (x : p3) : Prop := vol6 (corner t 0) (corner t 1) (corner t 2) x == 0.
Definition shared (p q : tri) (x : p3) : Prop := has p x ∧ has q x.
(** squared distance *)
Definition dsq (a b : p3) : Q :=
  let '(x, y, z) := a in let '(u, v, w) := b in
  (x - u) * (x - u) + (y - v) * (y - v) + (z - w) * (z - w).
(** at most a millionth apart *)
Definition tiny (a b : p3) : Prop := dsq a b <= (1 # 1000000) * (1 # 1000000).

(** the segment from a to b is the common part of the triangles; if the two ends
    coincide, the common part may extend a millionth around them *)
Definition common_part (p q : tri) (a b : p3) : Prop :=
  shared p q a ∧ shared p q b ∧ ∀ x, shared p q x → on_seg3 a b x ∨ (eq3 a b ∧ tiny x a).

(** all corners of p lie in the plane of q *)
Definition same_plane (p q : tri) : Prop := ∀ i, (i < 3)%nat → in_plane q (corner p i).
(** some edge of p lies in the plane of q *)
Definition edge_in_plane (p q : tri) : Prop :=
  ∃ i j, (i < j)%nat ∧ (j < 3)%nat ∧ in_plane q (corner p i) ∧ in_plane q (corner p j).
(** the corners agree in one coordinate *)
Definition axis_parallel (t : tri) : Prop :=
  ∃ k, (k < 3)%nat ∧ coord (corner t 1) k == coord (corner t 0) k ∧ coord (corner t 2) k == coord (corner t 0) k.

(** the contact names the place of x on the triangle t *)
Definition describes (t : tri) (c : contact) (x : p3) : Prop :=
  match c with
  | CVertex i => (i < 3)%nat ∧ eq3 x (corner t i)
  | CEdge i j u => (i < 3)%nat ∧ j = Nat.modulo (i + 1) 3 ∧ 0 < u ∧ u < 1 ∧ eq3 x (at3 (corner t i) (corner t j) u)
  | CInterior l0 l1 l2 => 0 < l0 ∧ 0 < l1 ∧ 0 < l2 ∧ l0 + l1 + l2 == 1 ∧
      eq3 x (comb3 l0 l1 l2 (corner t 0) (corner t 1) (corner t 2))
  end.
(** the contact names the place of a point at most a millionth away from x *)
Definition nearly_describes (t : tri) (c : contact) (x : p3) : Prop := ∃ y, tiny y x ∧ describes t c y.
Definition good_end (p q : tri) (e : endpoint) : Prop :=
  nearly_describes p (on_p e) (e_point e) ∧ nearly_describes q (on_q e) (e_point e).

(** comparing magnitudes through doubles tells zero from non-zero: true of exact
    comparison and of rounding without underflow *)
Definition tells_zero (gt : Q → Q → bool) : Prop :=
  (∀ x y, gt x y = true → ¬ x == 0) ∧ (∀ x y, ¬ x == 0 → y == 0 → gt x y = true).

(** the answer with contacts and the plain one report the same points *)
Definition ends_at (s : endpoint * endpoint) (a b : p3) : Prop := e_point (fst s) = a ∧ e_point (snd s) = b.
Definition same_points (d : detailed) (r : result) : Prop :=
  match d, r with
  | DNone, RNone => True
  | DProper x y, RProper a b | DProper x y, Coplanar a b => ends_at (x, y) a b
  | DCoplanar [s], Coplanar a b => ends_at s a b
  | DCoplanar l, CoplanarPolygon segs => Forall2 (λ s ab, ends_at s (fst ab) (snd ab)) l segs
  | _, _ => False
  end.

(** h lists the corners of the convex hull of the points, counter-clockwise: every
    point is left of (or on) every side, the sides turn strictly left, and a
    half-plane that holds the corners holds all the points *)
Definition hull_of (pts : list p2) (h : list nat) : Prop :=
  let P i := nth i pts (0, 0) in
  let c w := P (nth (Nat.modulo w (length h)) h 0%nat) in
  NoDup h ∧ (∀ i, In i h → (i < length pts)%nat) ∧
  (∀ w x, (w < length h)%nat → In x pts → 0 <= area2 (c w) (c (w + 1)%nat) x) ∧
  ((3 <= length h)%nat → ∀ w, (w < length h)%nat → 0 < area2 (c w) (c (w + 1)%nat) (c (w + 2)%nat)) ∧
  (∀ a b d, (∀ i, In i h → a * fst (P i) + b * snd (P i) <= d) → ∀ x, In x pts → a * fst x + b * snd x <= d).
