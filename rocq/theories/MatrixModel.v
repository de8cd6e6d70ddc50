(** Model of geometry/matrix.rs over an exact scalar.

    The scalar is any field [F] (the exact scalar CgarRational is the instance
    [rat]); arithmetic in it is exact and [== 0] is the code's is_zero.  A
    [Matrix<T, R, C>] is the sequence of its R rows of C entries (matrix.rs
    30-40); a [Vector<T, N>] is the sequence of its N entries.  The functions
    take the dimensions R, C, K, N, which are const generics in the code. *)
From mathcomp Require Import all_ssreflect all_algebra.
Set Implicit Arguments.
Unset Strict Implicit.
Import GRing.Theory.
Open Scope ring_scope.

Section Model.
Variable F : fieldType.
Implicit Types m a b : seq (seq F).

(** matrix.rs 139-146 (indexing); reads outside the arrays do not occur *)
Definition entry m (i j : nat) : F := nth 0 (nth [::] m i) j.
(** core::array::from_fn, twice *)
Definition from_fn (R C : nat) (f : nat -> nat -> F) : seq (seq F) :=
  mkseq (fun i => mkseq (f i) C) R.

(** matrix.rs 62-66 *)
Definition transpose (R C : nat) m := from_fn C R (fun j i => entry m i j).
(** matrix.rs 68-75 *)
Definition scale (R C : nat) m (s : F) := from_fn R C (fun i j => entry m i j * s).
(** matrix.rs 83-93: columns given as C sequences of R entries *)
Definition from_cols (R C : nat) (cols : seq (seq F)) := from_fn R C (fun i j => entry cols j i).
(** matrix.rs 95-106, 108-119 *)
Definition mrow (C : nat) m (r : nat) : seq F := mkseq (fun j => entry m r j) C.
Definition mcol (R : nat) m (c : nat) : seq F := mkseq (fun i => entry m i c) R.
(** matrix.rs 185-199 and 213-227 (add, sub), entrywise *)
Definition madd (R C : nat) a b := from_fn R C (fun i j => entry a i j + entry b i j).
Definition msub (R C : nat) a b := from_fn R C (fun i j => entry a i j - entry b i j).
(** matrix.rs 121-131 *)
Definition mlerp (R C : nat) a b (u : F) := madd R C (scale R C a (1 - u)) (scale R C b u).
(** matrix.rs 133-140 *)
Definition outer (R C : nat) (x y : seq F) := from_fn R C (fun i j => nth 0 x i * nth 0 y j).

(** matrix.rs 310-325: matrix times vector, the accumulator loop *)
Definition mulv (R C : nat) m (v : seq F) : seq F :=
  mkseq (fun i => foldl (fun acc j => acc + entry m i j * nth 0 v j) 0 (iota 0 C)) R.
(** matrix.rs 341-359: matrix times matrix; out[i][k] starts at zero and
    accumulates over j *)
Definition mulm (R C K : nat) a b :=
  from_fn R K (fun i k => foldl (fun acc j => acc + entry a i j * entry b j k) 0 (iota 0 C)).
(** matrix.rs 382-390 *)
Definition identity (n : nat) := from_fn n n (fun i j => if i == j then 1 else 0).

(** matrix.rs 453-464 (minor of row 0, column j, inside det_from_data) and
    427-443 (minor_data with row = 0) *)
Definition minor (n : nat) m (j : nat) :=
  [seq [seq entry m i k | k <- iota 0 n & k != j] | i <- iota 1 n.-1].
(** matrix.rs 465-471 and 415-420 *)
Definition cofactor (j : nat) : F := if ~~ odd j then 1 else -1.
(** matrix.rs 445-478 (det_from_data); structural recursion on the size *)
Fixpoint det_from_data (n : nat) m : F :=
  match n with
  | 0 => 1
  | 1 => entry m 0 0
  | 2 => entry m 0 0 * entry m 1 1 - entry m 0 1 * entry m 1 0
  | n'.+1 =>
    foldl (fun det j => det + entry m 0 j * cofactor j * det_from_data n' (minor n m j)) 0 (iota 0 n)
  end.
(** matrix.rs 392-425 (det) *)
Definition det (n : nat) m : F :=
  match n with
  | 0 => 1
  | 1 => entry m 0 0
  | 2 => entry m 0 0 * entry m 1 1 - entry m 0 1 * entry m 1 0
  | 3 =>
    let a := entry m 0 0 in let b := entry m 0 1 in let c := entry m 0 2 in
    let d := entry m 1 0 in let e := entry m 1 1 in let f := entry m 1 2 in
    let g := entry m 2 0 in let h := entry m 2 1 in let i := entry m 2 2 in
    a * (e * i - f * h) - b * (d * i - f * g) + c * (d * h - e * g)
  | n'.+1 =>
    foldl (fun det j => det + entry m 0 j * cofactor j * det_from_data n' (minor n m j)) 0 (iota 0 n)
  end.

(** matrix.rs 489-508 (2x2 inverse) *)
Definition inverse2 m : option (seq (seq F)) :=
  let d := det 2 m in
  if d == 0 then None else
  let inv_d := 1 / d in
  let a := entry m 0 0 in let b := entry m 0 1 in
  let c := entry m 1 0 in let d_ := entry m 1 1 in
  Some [:: [:: d_ * inv_d; (-1 * b) * inv_d]; [:: (-1 * c) * inv_d; a * inv_d]].
(** matrix.rs 520-548 (3x3 inverse) *)
Definition inverse3 m : option (seq (seq F)) :=
  let d := det 3 m in
  if d == 0 then None else
  let inv_det := 1 / d in
  let c00 := entry m 1 1 * entry m 2 2 - entry m 1 2 * entry m 2 1 in
  let c01 := - (entry m 1 0 * entry m 2 2 - entry m 1 2 * entry m 2 0) in
  let c02 := entry m 1 0 * entry m 2 1 - entry m 1 1 * entry m 2 0 in
  let c10 := - (entry m 0 1 * entry m 2 2 - entry m 0 2 * entry m 2 1) in
  let c11 := entry m 0 0 * entry m 2 2 - entry m 0 2 * entry m 2 0 in
  let c12 := - (entry m 0 0 * entry m 2 1 - entry m 0 1 * entry m 2 0) in
  let c20 := entry m 0 1 * entry m 1 2 - entry m 0 2 * entry m 1 1 in
  let c21 := - (entry m 0 0 * entry m 1 2 - entry m 0 2 * entry m 1 0) in
  let c22 := entry m 0 0 * entry m 1 1 - entry m 0 1 * entry m 1 0 in
  Some (scale 3 3 [:: [:: c00; c10; c20]; [:: c01; c11; c21]; [:: c02; c12; c22]] inv_det).
End Model.
