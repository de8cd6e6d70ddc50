(** Model of mesh_processing/remesh.rs and of the smoothing step of mesh/core.rs.

    The geometric decisions are parameters: which edges count as long or short,
    the midpoint, the quality test of a flip, the target of a smoothing step. So
    are the vertex searches of the splits and the iteration orders of the hash
    sets. Everything about connectivity follows the code. A panic is [None]. *)
From Verif Require Export MeshCollapseModel MeshEditModel.
Open Scope N_scope.

Section remesh.
Context {P : Type}.
Implicit Types (m : mesh P) (ops : list Z) (iter : Z).

(** the indices 0 .. n-1 *)
Definition below (n : N) : list N := N.of_nat <$> seq 0 (N.to_nat n).

(** v_last_op[v] == iter; an index out of range panics *)
Definition op_is ops iter (v : N) : option bool := x ← ops !! N.to_nat v; Some (Z.eqb x iter).
(** v_last_op[v0] == iter || v_last_op[v1] == iter *)
Definition recent ops iter (v0 v1 : N) : option bool :=
  a ← op_is ops iter v0; if (a : bool) then Some true else op_is ops iter v1.
(** v_last_op[v] = iter *)
Definition stamp ops iter (v : N) : option (list Z) :=
  if bool_decide (N.to_nat v < length ops)%nat then Some (<[N.to_nat v := iter]> ops) else None.
(** remesh.rs 435-437, 444-446: v_last_op.resize(n, -1), done when it is shorter *)
Definition grow ops (n : N) : list Z := ops ++ replicate (N.to_nat n - length ops) (-1)%Z.

(** vertices[v0].removed || vertices[v1].removed, then the two positions *)
Definition both_kept m (v0 v1 : N) : option (option (P * P)) :=
  x ← getV m v0; if vrem x then Some None else
  y ← getV m v1; if vrem y then Some None else Some (Some (vpos x, vpos y)).

(** remesh.rs 316-331, 374-391: the edge of half-edge [h] if it passes the tests
    of the first loop of the split and of the collapse pass *)
Definition candidate (test : P → P → bool) m ops iter (h : N) : option (list (N * N * N)) :=
  x ← getH m h;
  if hrem x then Some [] else
  if htwin x =? umax then Some [] else
  if htwin x <=? h then Some [] else
  v0 ← source m h;
  let v1 := hv x in
  k ← both_kept m v0 v1;
  match k with
  | None => Some []
  | Some (p0, p1) =>
      r ← recent ops iter v0 v1;
      if (r : bool) then Some [] else
      Some (if test p0 p1 then [(h, v0, v1)] else [])
  end.
Fixpoint candidates (test : P → P → bool) m ops iter (l : list N) : option (list (N * N * N)) :=
  match l with
  | [] => Some []
  | h :: l =>
      c ← candidate test m ops iter h;
      cs ← candidates test m ops iter l;
      Some (c ++ cs)
  end.

(** ** Splitting *)
Context (half : P → P → P).

(** remesh.rs 337-355: the second loop of split_long_edges. [found h] is the
    outcome of the vertex search when half-edge [h] is split. The box tree passed
    along is not modelled. *)
Fixpoint split_each (found : N → option N) iter (l : list N) m ops : option (mesh P * list Z * nat) :=
  match l with
  | [] => Some (m, ops, 0%nat)
  | h :: l =>
      if nhes m <=? h then split_each found iter l m ops else
      x ← getH m h;
      if hrem x then split_each found iter l m ops else
      v0 ← source m h;
      let v1 := hv x in
      k ← both_kept m v0 v1;
      match k with
      | None => split_each found iter l m ops
      | Some (p0, p1) =>
          r ← recent ops iter v0 v1;
          if (r : bool) then split_each found iter l m ops else
          s ← split_edge m (found h) h (half p0 p1);       (* always Ok *)
          ops ← stamp ops iter v0;
          ops ← stamp ops iter v1;
          '(m, ops, n) ← split_each found iter l (fst s) ops;
          Some (m, ops, S n)
      end
  end.

(** remesh.rs 302-357: split_long_edges *)
Definition split_long_edges (long : P → P → bool) (found : N → option N) iter m ops :
    option (mesh P * list Z * nat) :=
  c ← candidates long m ops iter (below (nhes m));
  split_each found iter (fst ∘ fst <$> c) m ops.

(** ** Collapsing *)
Context (mid : P → P → P) (thin : P → P → P → bool).

(** remesh.rs 394-406: the second loop of collapse_short_edges. [o1], [o2] give
    the iteration orders of the hash maps inside each collapse. *)
Fixpoint collapse_each (o1 o2 : N * N → list bucket → list bucket) iter (l : list (N * N)) m ops :
    option (mesh P * list Z * nat) :=
  match l with
  | [] => Some (m, ops, 0%nat)
  | (a, b) :: l =>
      k ← both_kept m a b;
      match k with
      | None => collapse_each o1 o2 iter l m ops
      | Some _ =>
          r ← recent ops iter a b;
          if (r : bool) then collapse_each o1 o2 iter l m ops else
          '(m, e) ← collapse_edge mid thin (o1 (a, b)) (o2 (a, b)) m a b;
          match (e : option creject) with
          | Some _ => collapse_each o1 o2 iter l m ops
          | None =>
              ops ← stamp ops iter a;
              ops ← stamp ops iter b;
              '(m, ops, n) ← collapse_each o1 o2 iter l m ops;
              Some (m, ops, S n)
          end
      end
  end.

(** remesh.rs 360-408: collapse_short_edges. [order] is the iteration order of
    the set of vertex pairs. *)
Definition collapse_short_edges (short : P → P → bool) (order : list (N * N) → list (N * N))
    (o1 o2 : N * N → list bucket → list bucket) iter m ops : option (mesh P * list Z * nat) :=
  c ← candidates short m ops iter (below (nhes m));
  collapse_each o1 o2 iter (order ((λ '(_, v0, v1), if v0 <? v1 then (v0, v1) else (v1, v0)) <$> c)) m ops.

(** ** Flipping *)
(** remesh.rs 120-136: vertex_valence *)
Fixpoint valence_walk (fuel : nat) m (start cur : N) : option nat :=
  match fuel with
  | O => None
  | S fuel =>
      x ← getH m cur;
      let one := if hrem x then 0%nat else 1%nat in
      if htwin x =? umax then Some one else
      y ← getH m (htwin x);
      if hnext y =? start then Some one else
      n ← valence_walk fuel m start (hnext y); Some (one + n)%nat
  end.
Definition vertex_valence m (v : N) : option nat :=
  x ← getV m v;
  match vhe x with Some s => valence_walk (fuel_of m) m s s | None => Some 0%nat end.

(** remesh.rs 219-249, the geometric part of should_flip_edge on the positions of
    v0, v1, v2, v3: [None] when one of the four unwraps panics *)
Context (better : P → P → P → P → option bool).
(** mesh/core.rs 650-675: the area guard of flip_edge *)
Context (degen : P → P → P → P → bool).

(** remesh.rs 200-250: should_flip_edge *)
Definition should_flip_edge m (h : N) : option bool :=
  if nhes m <=? h then Some false else
  x ← getH m h;
  if hrem x then Some false else
  if (htwin x =? umax) || (nhes m <=? htwin x) then Some false else
  y ← getH m (htwin x);
  if hrem y then Some false else
  if is_none (hface x) || is_none (hface y) then Some false else
  v0 ← source m h;
  let v1 := hv x in
  z ← getH m (hnext x);
  let v2 := hv z in
  w ← getH m (hnext y);
  let v3 := hv w in
  if (v0 =? v1) || (v1 =? v2) || (v2 =? v0) || (v0 =? v3) || (v1 =? v3) || (v2 =? v3) then Some false else
  x0 ← getV m v0; x1 ← getV m v1; x2 ← getV m v2; x3 ← getV m v3;
  better (vpos x0) (vpos x1) (vpos x2) (vpos x3).

(** remesh.rs 258-264: the half-edges tried *)
Definition flip_candidate m (h : N) : option bool :=
  x ← getH m h;
  if hrem x then Some false else
  if htwin x =? umax then Some false else
  if htwin x <=? h then Some false else
  if is_none (hface x) then Some false else
  y ← getH m (htwin x); Some (negb (is_none (hface y))).
Fixpoint flip_candidates m (l : list N) : option (list N) :=
  match l with
  | [] => Some []
  | h :: l => b ← flip_candidate m h; hs ← flip_candidates m l; Some (if (b : bool) then h :: hs else hs)
  end.

(** remesh.rs 267-297 *)
Fixpoint flip_each (l : list N) m : option (mesh P * nat) :=
  match l with
  | [] => Some (m, 0%nat)
  | h :: l =>
      if nhes m <=? h then flip_each l m else
      x ← getH m h;
      if hrem x then flip_each l m else
      if (htwin x =? umax) || (nhes m <=? htwin x) then flip_each l m else
      y ← getH m (htwin x);
      if hrem y then flip_each l m else
      v0 ← source m h;
      let v1 := hv x in
      z ← getH m (hnext x);
      let v2 := hv z in
      w ← getH m (hnext y);
      let v3 := hv w in
      s ← should_flip_edge m h;
      if negb s then flip_each l m else
      '(m, ok) ← flip_edge degen m h;
      if negb ok then flip_each l m else
      _ ← vertex_valence m v0; _ ← vertex_valence m v1; _ ← vertex_valence m v2; _ ← vertex_valence m v3;
      '(m, n) ← flip_each l m;
      Some (m, S n)
  end.

(** remesh.rs 253-299: flip_edges *)
Definition flip_edges m : option (mesh P * nat) :=
  l ← flip_candidates m (below (nhes m));
  flip_each l m.

(** ** Smoothing *)
(** mesh/core.rs 1278-1352: the new position of a vertex at [a] whose neighbours
    are given with the third corner of their face *)
Context (target_of : P → list (P * option P) → P).

(** mesh/core.rs 1254-1271: one spoke of the ring: whether it is on the border,
    and the neighbour unless removed *)
Definition ring_entry m (h : N) : option (bool * option (N * N)) :=
  if nhes m <=? h then Some (false, None) else
  x ← getH m h;
  if hrem x then Some (false, None) else
  if hv x <? nverts m then
    z ← getV m (hv x); Some (is_none (hface x), if vrem z then None else Some (h, hv x))
  else Some (is_none (hface x), None).
Definition ring_entries m (l : list N) : option (list (bool * option (N * N))) := mapM (ring_entry m) l.

(** mesh/core.rs 1294-1325: position and third corner of a neighbour *)
Definition spoke_positions m (e : N * N) : option (P * option P) :=
  let '(h, b) := e in
  zb ← getV m b;
  x ← getH m h;
  if is_none (hface x) then Some (vpos zb, None) else
  if nhes m <=? hnext x then Some (vpos zb, None) else
  y ← getH m (hnext x);
  if hrem y then Some (vpos zb, None) else
  if nverts m <=? hv y then Some (vpos zb, None) else
  zc ← getV m (hv y);
  Some (vpos zb, if vrem zc then None else Some (vpos zc)).

(** mesh/core.rs 1234-1376: smooth_tangential for points with three coordinates.
    [far p q] is the test on the length of a new edge. *)
Definition smooth_tangential (far : P → P → bool) m (v : N) : option (mesh P * bool) :=
  if nverts m <=? v then Some (m, false) else
  z ← getV m v;
  if vrem z then Some (m, false) else
  r ← vertex_ring_ccw m v;
  match ring_spokes r with
  | [] => Some (m, false)
  | spokes =>
      es ← ring_entries m (fst ∘ fst <$> spokes);
      let ns := omap snd es in
      if existsb fst es || (length ns <? 2)%nat then Some (m, false) else
      ps ← mapM (spoke_positions m) ns;
      let p := target_of (vpos z) ps in
      if existsb (λ q, far p (fst q)) ps then Some (m, false) else
      m ← updV m v (λ z, mkVX p (vhe z) (vrem z));
      Some (m, true)
  end.

(** remesh.rs 104-114: one sweep *)
Fixpoint smooth_each (far : P → P → bool) (l : list N) m : option (mesh P * nat) :=
  match l with
  | [] => Some (m, 0%nat)
  | v :: l =>
      z ← getV m v;
      if vrem z then smooth_each far l m else
      '(m, b) ← smooth_tangential far m v;
      '(m, n) ← smooth_each far l m;
      Some (m, if (b : bool) then S n else n)
  end.
(** remesh.rs 99-117: smooth_vertices *)
Fixpoint smooth_vertices (far : P → P → bool) (sweeps : nat) m : option (mesh P * nat) :=
  match sweeps with
  | O => Some (m, 0%nat)
  | S k =>
      '(m, n) ← smooth_each far (below (nverts m)) m;
      '(m, n') ← smooth_vertices far k m;
      Some (m, (n + n')%nat)
  end.

(** ** The whole loop *)
(** what the hash sets, the hash maps and the vertex searches decide in one
    iteration *)
Record choices := mkChoices {
  ch_found : N → option N;
  ch_pairs : list (N * N) → list (N * N);
  ch_o1 : N * N → list bucket → list bucket;
  ch_o2 : N * N → list bucket → list bucket
}.

(** remesh.rs 434-452: one iteration; the flag is the convergence test. [long]
    is the test against split_len, used for splitting and for smoothing, [short]
    the one against collapse_len. *)
Definition remesh_round (long short : P → P → bool) (ch : choices) iter m ops :
    option (mesh P * list Z * bool) :=
  let ops := grow ops (nverts m) in
  '(m, ops, splits) ← split_long_edges long (ch_found ch) iter m ops;
  let ops := grow ops (nverts m) in
  '(m, ops, collapses) ← collapse_short_edges short (ch_pairs ch) (ch_o1 ch) (ch_o2 ch) iter m ops;
  '(m, flips) ← flip_edges m;
  '(m, _) ← smooth_vertices long 2 m;
  Some (m, ops, (splits =? 0)%nat && (collapses =? 0)%nat && (N.of_nat flips <? nhes m / 200)).

(** remesh.rs 432-455: the loop; [iter] is the number of the next iteration *)
Fixpoint remesh_loop (long short : P → P → bool) (ch : Z → choices) (todo : nat) iter m ops :
    option (mesh P) :=
  match todo with
  | O => Some m
  | S todo =>
      '(m, ops, stop) ← remesh_round long short (ch iter) iter m ops;
      if (stop : bool) then Some m else remesh_loop long short ch todo (iter + 1) m ops
  end.

(** remesh.rs 411-457: isotropic_remesh with max_iterations [n] *)
Definition isotropic_remesh (long short : P → P → bool) (ch : Z → choices) (n : nat) m : option (mesh P) :=
  remesh_loop long short ch n 0 m (replicate (N.to_nat (nverts m)) (-1)%Z).
End remesh.
