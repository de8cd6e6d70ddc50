(** Executable model of the exact centroid of a face
    (/repo/src/mesh/topology.rs 321-342) and of the frame of a face
    (/repo/src/mesh_processing/batching.rs 47-89), with rational coordinates. The outer
    [None] is a panic. *)
From Coq Require Import QArith.
From Verif Require Export PointLocModel.
From Verif Require GeomModel.
Local Open Scope Q_scope.

(** topology.rs 328-339: the loops over the first three coordinates; the others stay zero.
    [k] is the number of the coordinate. *)
Fixpoint centroid_from (k : nat) (a b c : point) : point :=
  match a, b, c with
  | x :: a, y :: b, z :: c =>
    (if (k <? 3)%nat then 0 + x + y + z else 0) / 3 :: centroid_from (S k) a b c
  | _, _, _ => []
  end.
(** topology.rs 323-342: face_centroid *)
Definition face_centroid (m : mesh point) (f : N) : option point :=
  '(i, j, k) ← face_vertices m f;
  a ← place_of m i;
  b ← place_of m j;
  c ← place_of m k;
  Some (centroid_from 0 a b c).

Notation p3 := GeomModel.p3.
Definition scale (s : Q) (u : p3) : p3 := let '(x, y, z) := u in (s * x, s * y, s * z).
(** batching.rs 51-89: face_uv_frame_metric. The function is public; its only use is
    commented out. *)
Definition face_uv_frame_metric (a b c : p3) : p3 * p3 :=
  let e0 := GeomModel.sub3 b a in
  let e1 := GeomModel.sub3 c a in
  let u := if GeomModel.is_zero (GeomModel.dot3 e0 e0) then e1 else e0 in
  let n := GeomModel.cross3 u e1 in
  let v := GeomModel.cross3 n u in
  if GeomModel.is_zero (GeomModel.dot3 v v) then
    let uu := GeomModel.dot3 u u in
    if negb (GeomModel.is_zero uu) then (u, GeomModel.sub3 e1 (scale (GeomModel.dot3 u e1 / uu) u)) else (u, v)
  else (u, v).
