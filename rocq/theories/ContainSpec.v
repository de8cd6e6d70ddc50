(** A point over the inside of a triangle. *)
From Coq Require Export QArith.
From Verif Require Export RaySpec.
Local Open Scope Q_scope.

(** the inner product of b - a and d - c *)
Definition inner3 (a b c d : p3) : Q :=
  let '(a1, a2, a3) := a in let '(b1, b2, b3) := b in let '(c1, c2, c3) := c in let '(d1, d2, d3) := d in
  (b1 - a1) * (d1 - c1) + (b2 - a2) * (d2 - c2) + (b3 - a3) * (d3 - c3).
(** the foot of [p] on the plane of the triangle is strictly inside it, and [p] is at most
    [r] away from that foot *)
Definition over (r : Q) (a b c p : p3) : Prop :=
  ∃ x y z, 0 < x ∧ 0 < y ∧ 0 < z ∧ x + y + z == 1 ∧
    inner3 (comb3 x y z a b c) p a b == 0 ∧ inner3 (comb3 x y z a b c) p a c == 0 ∧
    inner3 (comb3 x y z a b c) p (comb3 x y z a b c) p <= r * r.
