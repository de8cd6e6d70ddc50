(** Vectors in space by coordinates. *)
From Coq Require Import QArith.
From stdpp Require Import prelude.
Local Open Scope Q_scope.

Definition vec : Type := Q * Q * Q.
Definition veq (u v : vec) : Prop := u.1.1 == v.1.1 ∧ u.1.2 == v.1.2 ∧ u.2 == v.2.
Definition comb2 (s t : Q) (u v : vec) : vec :=
  (s * u.1.1 + t * v.1.1, s * u.1.2 + t * v.1.2, s * u.2 + t * v.2).
Definition from (a b : vec) : vec := (b.1.1 - a.1.1, b.1.2 - a.1.2, b.2 - a.2).
Definition inner3 (u v : vec) : Q := u.1.1 * v.1.1 + u.1.2 * v.1.2 + u.2 * v.2.
Definition zero3 : vec := (0, 0, 0).
Definition independent (u v : vec) : Prop := ∀ s t, veq (comb2 s t u v) zero3 → s == 0 ∧ t == 0.
