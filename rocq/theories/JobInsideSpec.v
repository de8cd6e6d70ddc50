(** What the choice of the triangles inside a triangulation job should do, without the
    ring, the entries and the queue of the model. *)
From Coq Require Import QArith.
From stdpp Require Import prelude.
Local Open Scope nat_scope.

(** the triangle [t] runs from [i] to [j] and has the third corner [k] *)
Definition has_side (t : nat * nat * nat) (i j k : nat) : Prop :=
  t = (i, j, k) ∨ t = (k, i, j) ∨ t = (j, k, i).
(** twice the signed area of three points *)
Definition area2 (a b c : Q * Q) : Q :=
  ((b.1 - a.1) * (c.2 - a.2) - (b.2 - a.2) * (c.1 - a.1))%Q.
Definition ccw (pts : list (Q * Q)) (t : nat * nat * nat) : Prop :=
  ∃ a b c, pts !! t.1.1 = Some a ∧ pts !! t.1.2 = Some b ∧ pts !! t.2 = Some c ∧ (0 < area2 a b c)%Q.
(** no two triangles run along the same directed side *)
Definition sides_once (tris : list (nat * nat * nat)) : Prop :=
  ∀ a b ta tb i j k l, tris !! a = Some ta → tris !! b = Some tb →
    has_side ta i j k → has_side tb i j l → a = b.
(** the triangle has both ends of [u, v] as corners and its third corner is on the side
    [w] of it: 1 for the left, -1 for the right, by the predicate [o] *)
Definition on_side (s : Q) (w : Z) : Prop := (w = 1%Z ∧ (0 < s)%Q) ∨ (w = (-1)%Z ∧ (s < 0)%Q).
Definition beside (o : nat → nat → nat → Q) (u v : nat) (w : Z) (t : nat * nat * nat) : Prop :=
  ∃ k, (has_side t u v k ∧ on_side (o u v k) w) ∨ (has_side t v u k ∧ on_side (o v u k) (- w)).

(** the triangles fill the triangle of the first three points: each runs counterclockwise,
    no side is used twice in one direction, each side not on the border has a triangle on
    the other side, and each of the three sides of the border is the side of a triangle *)
Definition fills (pts : list (Q * Q)) (tris : list (nat * nat * nat)) : Prop :=
  (∀ t, t ∈ tris → ccw pts t) ∧ sides_once tris ∧
  (∀ t i j k, t ∈ tris → has_side t i j k →
     (i, j) ∈ [(0, 1); (1, 2); (2, 0)] ∨ ∃ t' l, t' ∈ tris ∧ has_side t' j i l) ∧
  (∀ i j, (i, j) ∈ [(0, 1); (1, 2); (2, 0)] → ∃ t k, t ∈ tris ∧ has_side t i j k).
(** two numbers of opposite signs, and two segments that cross properly by [o] *)
Definition opposite (x y : Q) : Prop := ((x < 0 ∧ 0 < y) ∨ (0 < x ∧ y < 0))%Q.
Definition cross_properly (o : nat → nat → nat → Q) (a b c d : nat) : Prop :=
  opposite (o a b c) (o a b d) ∧ opposite (o c d a) (o c d b).
