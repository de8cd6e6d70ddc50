(** Executable model of the average edge length of a mesh
    (/repo/src/mesh_processing/remesh.rs 66-96 and 136-157) with exact rational positions.
    The outer [None] is a panic. *)
From Flocq Require Import IEEE754.BinarySingleNaN IEEE754.Bits.
From Coq Require Import ZArith.
From Verif Require Export PointLocModel MeshQueryModel.
From Verif Require F64Model.
Local Open Scope N_scope.

Notation f64 := F64Model.f64.
(** f64::sqrt: correctly rounded *)
Definition fsqrt : f64 → f64 := b64_sqrt mode_NE.

Section lengths.
Implicit Types (m : mesh point) (i : N).

(** remesh.rs 70-82 and 140-145: the ends of the edge that the half-edge [i] stands for, or
    [None] if the loop skips it. [rms]: the loop of rms_edge_length_f64, which also skips
    half-edges without a twin. *)
Definition counted (rms : bool) m i : option (option (N * N)) :=
  x ← getH m i;
  if hrem x || (rms && (htwin x =? umax)) || (htwin x <=? i) then Some None else
  u ← source m i;
  a ← getV m u;
  b ← getV m (hv x);
  if vrem a || vrem b then Some None else Some (Some (u, hv x)).
(** lines 84-88 and 146-150: the squared length, exact and then a double *)
Definition len2 m (e : N * N) : option f64 :=
  p ← place_of m e.1;
  q ← place_of m e.2;
  Some (F64Model.Q_to_f64 (dot (psub q p) (psub q p))).
(** lines 92-97 and 155-156. The first counter is an i32; more than 2^31 edges are not
    modelled. *)
Definition root_mean (ls : list f64) : f64 :=
  match ls with
  | [] => F64Model.fone
  | _ => fsqrt (F64Model.fdiv (foldl F64Model.fadd F64Model.fzero ls) (F64Model.i64_to_f64 (Z.of_nat (length ls))))
  end.
Definition edge_length (rms : bool) m : option f64 :=
  l ← mapM (counted rms m) (range (nhes m));
  ls ← mapM (len2 m) (omap id l);
  Some (root_mean ls).
(** lines 66-97 *)
Definition compute_average_edge_length : mesh point → option f64 := edge_length false.
(** lines 137-157 *)
Definition rms_edge_length_f64 : mesh point → option f64 := edge_length true.
End lengths.
