(** Executable model of the choice of the triangles inside a triangulation job
    (/repo/src/operations/triangulation/delaunay.rs 1193-1545,
    triangles_inside_for_job) with the scalar CgarRational. The function is public; no
    other function of the crate calls it. *)
From Coq Require Import QArith Qabs.
From stdpp Require Import prelude.
From Verif Require Import BoolPslgModel.
From Verif Require GeomModel F64Model DelaunayFloat.
Local Open Scope nat_scope.

(** delaunay.rs: Triangle *)
Notation tri := (nat * nat * nat)%type.
(** lines 1457 and 1533: the sides of a triangle with the corner opposite *)
Definition rot (t : tri) : list (nat * nat * nat) :=
  let '(a, b, c) := t in [(a, b, c); (b, c, a); (c, a, b)].
(** lines 1466-1472 and 1540-1546 *)
Definition sgn (s : Q) : Z :=
  if GeomModel.is_positive s then 1%Z else if GeomModel.is_negative s then (-1)%Z else 0%Z.
(** lines 1485-1488: canon *)
Definition canon (u v : nat) : (nat * nat) * Z :=
  if u <? v then ((u, v), 1%Z) else ((v, u), (-1)%Z).

(** ** The boundary ring and the candidates *)
(** lines 1214-1243: on_edge_with_t; the arithmetic is that of batching.rs 708-734 *)
Definition clamp01 (t : f64) : f64 :=
  if F64Model.flt t F64Model.fzero then F64Model.fzero
  else if F64Model.fgt t F64Model.fone then F64Model.fone else t.
Definition edge_t (a b p : uv) : option f64 :=
  let '(ok, t) := on_edge_with_t a b p in if ok then Some (clamp01 t) else None.
(** lines 1359-1406: the points on one side of the base triangle, in order. The sort of
    the code is not stable; points with equal parameters are modelled in index order. *)
Definition chain (pts : list uv) (i j : nat) : list nat :=
  let t k := edge_t (at_uv pts i) (at_uv pts j) (at_uv pts k) in
  by_key (λ k, default F64Model.fzero (t k)) (filter (λ k, is_Some (t k)) (seq 0 (length pts))).
(** lines 1408-1415 *)
Definition ring_of (pts : list uv) : list nat :=
  let r := chain pts 0 1 ++ tail (chain pts 1 2) ++ tail (chain pts 2 0) in
  if bool_decide (last r = head r) then take (length r - 1) r else r.
(** lines 1337-1339, 1418-1424, 1495-1497: the directed edges of the ring *)
Definition ring_edges (r : list nat) : list (nat * nat) :=
  match r with [] => [] | a :: l => zip r (l ++ [a]) end.
(** lines 1418-1427 *)
Definition wanted_of (pts : list uv) (r : list nat) : Z :=
  let add (s : f64) (e : nat * nat) :=
    let '(x0, y0) := ctr (at_uv pts e.1) in
    let '(x1, y1) := ctr (at_uv pts e.2) in
    F64Model.fadd s (F64Model.fsub (F64Model.fmul x0 y1) (F64Model.fmul y0 x1)) in
  if F64Model.fgt (foldl add F64Model.fzero (ring_edges r)) F64Model.fzero then 1%Z else (-1)%Z.
(** lines 1351-1353: tri_area_abs *)
Definition area_abs (a b c : f64 * f64) : f64 :=
  F64Model.fmul (F64Model.fabs (F64Model.fsub
    (F64Model.fmul (F64Model.fsub b.1 a.1) (F64Model.fsub c.2 a.2))
    (F64Model.fmul (F64Model.fsub b.2 a.2) (F64Model.fsub c.1 a.1))))
    (F64Model.f64_from_bits 0x3fe0000000000000).
(** lines 1245-1253: centroid *)
Definition centroid_f (a b c : uv) : f64 * f64 :=
  (F64Model.Q_to_f64 ((a.1 + b.1 + c.1) / 3)%Q, F64Model.Q_to_f64 ((a.2 + b.2 + c.2) / 3)%Q).
(** lines 1255-1291: point_in_polygon_even_odd *)
Fixpoint even_odd (pts : list uv) (es : list (nat * nat)) (q : f64 * f64) (inside : bool) : bool :=
  match es with
  | [] => inside
  | (i0, i1) :: es =>
    let '(x0, y0) := ctr (at_uv pts i0) in
    let '(x1, y1) := ctr (at_uv pts i1) in
    let ux := F64Model.fsub x1 x0 in let uy := F64Model.fsub y1 y0 in
    let vx := F64Model.fsub q.1 x0 in let vy := F64Model.fsub q.2 y0 in
    let cross := F64Model.fsub (F64Model.fmul ux vy) (F64Model.fmul uy vx) in
    let dot := F64Model.fadd (F64Model.fmul ux vx) (F64Model.fmul uy vy) in
    let len2 := F64Model.fadd (F64Model.fmul ux ux) (F64Model.fmul uy uy) in
    if F64Model.fle (F64Model.fabs cross) (feps (at_uv pts i0) (at_uv pts i1))
       && F64Model.fge dot (F64Model.fneg F64Model.EPS) && F64Model.fle dot (F64Model.fadd len2 F64Model.EPS)
    then true else
    let x := F64Model.fadd (F64Model.fdiv (F64Model.fmul ux vy)
               (F64Model.fadd uy (F64Model.f64_from_bits 0x01a56e1fc2f8f359))) x0 in
    even_odd pts es q
      (if negb (Bool.eqb (F64Model.fgt y0 q.2) (F64Model.fgt y1 q.2)) && F64Model.flt q.1 x
       then negb inside else inside)
  end.
Definition in_ring (pts : list uv) (r : list nat) (q : f64 * f64) : bool :=
  if length r <? 3 then false else even_odd pts (ring_edges r) q false.
(** lines 1293-1316: segs_properly_intersect; [o] is orient2d of three points *)
Definition proper (o : nat → nat → nat → Q) (a b c d : nat) : bool :=
  GeomModel.is_negative (o a b c * o a b d)%Q && GeomModel.is_negative (o c d a * o c d b)%Q.
(** lines 1318-1349: tri_crosses_ring *)
Definition crosses (o : nat → nat → nat → Q) (pts : list uv) (r : list nat) (t : tri) : bool :=
  existsb (λ '(i, j, _),
    let on e := bool_decide (is_Some (edge_t (at_uv pts e.1) (at_uv pts e.2) (at_uv pts i)))
             && bool_decide (is_Some (edge_t (at_uv pts e.1) (at_uv pts e.2) (at_uv pts j))) in
    negb (existsb on [(0, 1); (1, 2); (2, 0)]) &&
    existsb (λ '(r0, r1),
      negb ((r0 =? i) || (r0 =? j) || (r1 =? i) || (r1 =? j)) && proper o i j r0 r1) (ring_edges r))
    (rot t).
(** lines 1431-1449 *)
Definition candidate (o : nat → nat → nat → Q) (pts : list uv) (r : list nat) (t : tri) : bool :=
  let '(a, b, c) := t in
  (a <? length pts) && (b <? length pts) && (c <? length pts) &&
  negb (F64Model.fle (area_abs (ctr (at_uv pts a)) (ctr (at_uv pts b)) (ctr (at_uv pts c)))
          (F64Model.f64_from_bits 0x3c32725dd1d243ac)) &&
  in_ring pts r (centroid_f (at_uv pts a) (at_uv pts b) (at_uv pts c)) &&
  negb (crosses o pts r t).

(** ** The flood fill *)
Section flood.
Context (o : nat → nat → nat → Q) (tris : list tri) (cand : tri → bool).
(** lines 1452-1481: the entries of e2cand, as one list in the order of the pushes *)
Record ent := mkEnt { en_edge : nat * nat; en_tri : nat; en_side : Z; en_score : Q }.
Definition entry (ti : nat) (x : nat * nat * nat) : list ent :=
  let '(i, j, k) := x in
  let s := if j <? i then (- o i j k)%Q else o i j k in
  let e := if j <? i then (j, i) else (i, j) in
  if (sgn s =? 0)%Z then [] else [mkEnt e ti (sgn s) (Qabs s)].
Definition entries_from (ti : nat) (t : tri) : list ent :=
  if cand t then rot t ≫= entry ti else [].
Definition entries : list ent := mjoin (imap entries_from tris).
(** lines 1515-1523: the entry not accepted on the side with the largest score, the
    first one among equals *)
Definition better (e : nat * nat) (w : Z) (acc : list nat) (best : option ent) (x : ent) : option ent :=
  if bool_decide (en_edge x = e) && (en_side x =? w)%Z && negb (bool_decide (en_tri x ∈ acc)) then
    match best with
    | None => Some x
    | Some y => if GeomModel.qlt (en_score y) (en_score x) then Some x else Some y
    end
  else best.
Definition pick (es : list ent) (e : nat * nat) (w : Z) (acc : list nat) : option ent :=
  foldl (better e w acc) None es.
(** lines 1532-1550: the edges pushed *)
Definition pushed (e : nat * nat) (t : tri) : list (nat * nat * Z) :=
  rot t ≫= λ '(i, j, k),
    if bool_decide ((canon i j).1 = e) || (sgn (o i j k) =? 0)%Z then [] else [(i, j, sgn (o i j k))].
(** lines 1501-1551. [None]: out of fuel. *)
Fixpoint flood (es : list ent) (fuel : nat) (q : list (nat * nat * Z)) (seen : list (nat * nat * Z)) (acc : list nat)
  : option (list nat) :=
  match fuel with
  | 0 => None
  | S fuel =>
    match q with
    | [] => Some acc
    | (u, v, wd) :: q =>
      let '(e, d) := canon u v in
      let w := (wd * d)%Z in
      if bool_decide ((e, w) ∈ seen) then flood es fuel q seen acc else
      match pick es e w acc with
      | None => flood es fuel q ((e, w) :: seen) acc
      | Some x =>
        flood es fuel (q ++ pushed e (default (0, 0, 0) (tris !! en_tri x))) ((e, w) :: seen) (en_tri x :: acc)
      end
    end
  end.
End flood.

(** lines 1193-1554: the indices of the triangles in the set returned; [fl] is the
    rounding to double in orient2d *)
Definition orient (fl : Q → Q) (pts : list uv) (i j k : nat) : Q :=
  GeomModel.orient2d fl (at_uv pts i) (at_uv pts j) (at_uv pts k).
Definition triangles_inside (fl : Q → Q) (pts : list uv) (tris : list tri) : option (list nat) :=
  if length pts <? 3 then Some [] else
  let r := ring_of pts in
  let w := wanted_of pts r in
  flood (orient fl pts) tris (entries (orient fl pts) tris (candidate (orient fl pts) pts r))
    (length (ring_edges r) + 3 * length tris + 1)
    ((λ e, (e.1, e.2, w)) <$> ring_edges r) [] [].
(** [as_f64_fast] and the double operations of orient2d, with the rounding of to_f64 *)
Definition fl64 (q : Q) : Q := default 0%Q (F64Model.f64_to_Q (F64Model.Q_to_f64 q)).
