(** Executable model of the angle test for edge flips
    (/repo/src/mesh_processing/remesh.rs 160-193 and 219-249) with rational positions in
    space. [None] is the None of tri_min_angle_cos_f64 and, in [improves], the panic of the
    unwraps on it. *)
From Coq Require Import QArith.
From stdpp Require Import prelude.
From Verif Require Import EdgeLenModel.
From Verif Require F64Model AabbModel GeomModel.

Notation p3 := GeomModel.p3.
(** remesh.rs 167-169: the squared length, exact and then a double (to_f64 of a rational never
    fails) *)
Definition sq_dist (a b : p3) : f64 := F64Model.Q_to_f64 (GeomModel.dot3 (GeomModel.sub3 b a) (GeomModel.sub3 b a)).
Definition ftwo : f64 := F64Model.f64_from_bits 0x4000000000000000.
(** remesh.rs 179-185: cos_from *)
Definition cos_from (a2 b2 c2 : f64) : f64 :=
  let den := F64Model.fmul ftwo (fsqrt (F64Model.fmul b2 c2)) in
  if F64Model.feq den F64Model.fzero then F64Model.fone else
  let v := F64Model.fdiv (F64Model.fsub (F64Model.fadd b2 c2) a2) den in
  if F64Model.fgt v F64Model.fone then F64Model.fone
  else if F64Model.flt v (F64Model.fneg F64Model.fone) then F64Model.fneg F64Model.fone else v.
(** remesh.rs 160-193: tri_min_angle_cos_f64 for three different vertices at [a], [b], [c] (its
    caller has compared the ids) *)
Definition tri_min_angle_cos (a b c : p3) : option f64 :=
  let ab2 := sq_dist a b in let bc2 := sq_dist b c in let ca2 := sq_dist c a in
  if F64Model.feq ab2 F64Model.fzero || F64Model.feq bc2 F64Model.fzero || F64Model.feq ca2 F64Model.fzero then None else
  Some (AabbModel.f64_max (AabbModel.f64_max (cos_from bc2 ca2 ab2) (cos_from ca2 ab2 bc2)) (cos_from ab2 bc2 ca2)).
(** 1e-12 *)
Definition tiny : f64 := F64Model.f64_from_bits 0x3d719799812dea11.
(** remesh.rs 238-244: area_safe *)
Definition area_safe (p0 p1 p2 : p3) : bool :=
  let n := GeomModel.cross3 (GeomModel.sub3 p1 p0) (GeomModel.sub3 p2 p0) in
  GeomModel.qlt 0 (GeomModel.dot3 n n).
(** remesh.rs 219-249: the part of should_flip_edge that looks at the positions *)
Definition improves (q0 q1 q2 q3 : p3) : option bool :=
  old1 ← tri_min_angle_cos q0 q1 q2;
  old2 ← tri_min_angle_cos q1 q0 q3;
  new1 ← tri_min_angle_cos q0 q2 q3;
  new2 ← tri_min_angle_cos q1 q3 q2;
  let old_min := AabbModel.f64_max old1 old2 in
  let new_min := AabbModel.f64_max new1 new2 in
  if F64Model.fge (F64Model.fadd new_min tiny) old_min then Some false else
  Some (area_safe q0 q1 q2 && area_safe q1 q0 q3 && area_safe q0 q2 q3 && area_safe q1 q3 q2).
(** mesh/core.rs 650-675: the area guard of flip_edge, true if a new triangle is flat *)
Definition area_guard (a b c d : p3) : bool := negb (area_safe a d c) || negb (area_safe b c d).
