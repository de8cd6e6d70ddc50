(** Executable model of the exact box of a triangle
    (/repo/src/mesh/core.rs 1379-1397, 1430-1452) with rational coordinates in any
    dimension. *)
From Coq Require Import QArith.
From Verif Require Export AabbModel.
From Verif Require GeomModel.
Local Open Scope Q_scope.

(** core.rs 1380-1387: min3_ref *)
Definition min3 (a b c : Q) : Q :=
  let ab := if GeomModel.is_negative (a - b) then a else b in
  if GeomModel.is_negative (c - ab) then c else ab.
(** core.rs 1390-1396: max3_ref *)
Definition max3 (a b c : Q) : Q :=
  let ab := if GeomModel.is_positive (a - b) then a else b in
  if GeomModel.is_positive (c - ab) then c else ab.
Fixpoint map3 (f : Q → Q → Q → Q) (l k j : list Q) : list Q :=
  match l, k, j with a :: l, b :: k, c :: j => f a b c :: map3 f l k j | _, _, _ => [] end.
(** core.rs 1431-1452: compute_triangle_aabb_exact *)
Definition compute_triangle_aabb_exact (p0 p1 p2 : list Q) : box Q :=
  from_points rat_box (map3 min3 p0 p1 p2) (map3 max3 p0 p1 p2).
