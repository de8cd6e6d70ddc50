(** Distances and orientations by coordinates. *)
From Coq Require Import QArith.
From stdpp Require Import prelude.
From Verif Require Export FaceFrameSpec.
Local Open Scope Q_scope.

(** the squared distance *)
Definition dist2 (a b : vec) : Q := inner3 (from a b) (from a b).
(** less than 2^-537 apart *)
Definition too_close (a b : vec) : Prop := dist2 a b < 1 # (2 ^ 1074).
(** [a], [b], [c] are the corners of a triangle that is not flat *)
Definition proper_tri (a b c : vec) : Prop := independent (from a b) (from a c).
(** the corners lie in the plane of the first two coordinates and run counterclockwise *)
Definition counterclockwise (a b c : vec) : Prop :=
  a.2 == 0 ∧ b.2 == 0 ∧ c.2 == 0 ∧
  0 < (b.1.1 - a.1.1) * (c.1.2 - a.1.2) - (b.1.2 - a.1.2) * (c.1.1 - a.1.1).
