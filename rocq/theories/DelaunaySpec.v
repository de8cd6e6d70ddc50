(** Specification vocabulary for the triangulations of delaunay.rs. *)
From Verif Require Export DelaunayModel GeomSpec.

(** three different indices below [n] *)
Definition valid_tri (n : nat) (t : tri) : Prop :=
  let '(a, b, c) := t in (a < n ∧ b < n ∧ c < n)%nat ∧ a ≠ b ∧ b ≠ c ∧ c ≠ a.

(** [fl] has the accuracy of rounding to double on values up to 10^300 *)
Definition limit : Q := inject_Z (10 ^ 300).
Definition double_like (fl : Q → Q) : Prop :=
  ∀ x, Qabs x <= limit → Qabs (fl x - x) <= (1 # 2 ^ 50) * Qabs x + (1 # 2 ^ 100).
(** coordinates up to 10^100 *)
Definition moderate (p : p2) : Prop :=
  Qabs (fst p) <= inject_Z (10 ^ 100) ∧ Qabs (snd p) <= inject_Z (10 ^ 100).
(** the sum of the magnitudes of the coordinates *)
Definition size (p : p2) : Q := Qabs (fst p) + Qabs (snd p).
(** the triangle is counter-clockwise, degenerate, or clockwise by at most a
    relative 2e-10 of the size of its corners *)
Definition nearly_ccw (pts : list p2) (t : tri) : Prop :=
  let '(i, j, k) := t in ∀ a b c,
    nth_error pts i = Some a → nth_error pts j = Some b → nth_error pts k = Some c →
    - (2 * EPS * (1 + size a + size b + size c)) <= area2 a b c.
Definition ccw (pts : list p2) (t : tri) : Prop :=
  let '(i, j, k) := t in ∀ a b c,
    nth_error pts i = Some a → nth_error pts j = Some b → nth_error pts k = Some c →
    0 <= area2 a b c.

(** [a] and [b] are joined by a side of some triangle *)
Definition joined (tris : list tri) (a b : nat) : Prop :=
  a ≠ b ∧ ∃ t, In t tris ∧ In a (corners t) ∧ In b (corners t).
Definition joined_e (tris : list tri) (e : edge) : Prop := joined tris (fst e) (snd e).

(** the adjacency lists name exactly the triangles at an edge and at a vertex,
    each once *)
Definition adj_exact (n : nat) (tris : list tri) (a : adj) : Prop :=
  (∀ u v, (u < v)%nat → NoDup (e2t a (u, v)) ∧
     ∀ i, In i (e2t a (u, v)) ↔ ∃ t, nth_error tris i = Some t ∧ In u (corners t) ∧ In v (corners t)) ∧
  length (v2t a) = n ∧
  (∀ v l, nth_error (v2t a) v = Some l → NoDup l ∧
     ∀ i, In i l ↔ ∃ t, nth_error tris i = Some t ∧ In v (corners t)).

(** the chosen exit edge is a side of the current triangle *)
Definition exits (exit : list p2 → list tri → nat → nat → nat → option edge) : Prop :=
  ∀ pts ts i a b e, exit pts ts i a b = Some e → ∃ t, nth_error ts i = Some t ∧ In e (sides t).
(** ... and it has neither [a] nor [b] as an end *)
Definition exits_across (exit : list p2 → list tri → nat → nat → nat → option edge) : Prop :=
  ∀ pts ts i a b e, exit pts ts i a b = Some e →
    fst e ≠ a ∧ fst e ≠ b ∧ snd e ≠ a ∧ snd e ≠ b.

(** a path from [a] to [b] *)
Fixpoint path_from (a : nat) (l : list (nat * nat)) (b : nat) : Prop :=
  match l with [] => a = b | (x, y) :: l => x = a ∧ x ≠ y ∧ path_from y l b end.

(** [p] is a convex combination of the corners *)
Definition in_triangle2 (a b c p : p2) : Prop :=
  ∃ u v w, 0 <= u ∧ 0 <= v ∧ 0 <= w ∧ u + v + w == 1 ∧ eq2 p (comb2 u v w a b c).
