(** Executable model of the read-only queries of /repo/src/mesh/topology.rs:
    traversals around vertices and faces, edge look-ups, and the connectivity
    checker.

    A Rust [loop] without a bound is modelled with a fuel of one more than the
    number of half-edge slots; running out of fuel gives [None], like a panic,
    and the theorems show that neither happens.  [println!] lines are ignored.
    A set returned by a query ([AHashSet]) is a list without order or
    multiplicity of interest. *)
From Verif Require Export MeshModel.
Local Open Scope N_scope.

Section query.
Context {P : Type}.
Implicit Types (m : mesh P) (h f v : N).

Definition fuel_of m : nat := S (N.to_nat (nhes m)).

(** topology.rs 142-144: source *)
Definition source m h : option N :=
  x ← getH m h; y ← getH m (hprev x); Some (hv y).

(** topology.rs 146-148: target *)
Definition target m h : option N := x ← getH m h; Some (hv x).

(** topology.rs 408-425: outgoing_half_edges *)
Definition out_step m h : option N :=
  x ← getH m h; y ← getH m (htwin x); Some (hnext y).

(** push [h], step, stop when back at [start] *)
Fixpoint orbit (fuel : nat) (step : N → option N) (start h : N) : option (list N) :=
  match fuel with
  | O => None
  | S fuel =>
      h' ← step h;
      if h' =? start then Some [h] else l ← orbit fuel step start h'; Some (h :: l)
  end.

Definition outgoing_half_edges m v : option (list N) :=
  x ← getV m v;
  start ← vhe x;
  orbit (fuel_of m) (out_step m) start start.

(** topology.rs 428-432: is_boundary_vertex ([any] stops at the first match;
    all reads are in range whenever outgoing_half_edges succeeds) *)
Definition is_boundary_vertex m v : option bool :=
  l ← outgoing_half_edges m v;
  xs ← mapM (getH m) l;
  Some (existsb (λ x, is_none (hface x)) xs).

(** topology.rs 442-447: one_ring_neighbors *)
Definition one_ring_neighbors m v : option (list N) :=
  l ← outgoing_half_edges m v;
  mapM (target m) l.

(** topology.rs 451-475: face_half_edges; [cnt] is iter_guard *)
Fixpoint fhe_loop (fuel : nat) m (start h cnt : N) : option (list N) :=
  match fuel with
  | O => None
  | S fuel =>
      x ← getH m h;
      let h' := hnext x in
      if h' =? start then Some [h] else
      let cnt := cnt + 1 in
      if 3 <? cnt then Some [h] else
      l ← fhe_loop fuel m start h' cnt; Some (h :: l)
  end.

Definition face_half_edges m f : option (list N) :=
  x ← getF m f;
  _ ← assertb (negb (frem x));
  fhe_loop 5 m (fhe x) (fhe x) 0.

(** topology.rs 1791-1836: get_face_half_edges_iterative (inner [None] is the
    returned None; the bound of 10 iterations panics) *)
Fixpoint gfh_loop (fuel : nat) m (start cur : N) : option (option (list N)) :=
  match fuel with
  | O => None
  | S fuel =>
      if nhes m <=? cur then Some None else
      x ← getH m cur;
      let nxt := hnext x in
      if nhes m <=? nxt then Some None else
      if nxt =? start then Some (Some [cur]) else
      r ← gfh_loop fuel m start nxt; Some (match r with Some l => Some (cur :: l) | None => None end)
  end.

Definition get_face_half_edges_iterative m f : option (option (list N)) :=
  if nfaces m <=? f then Some None else
  x ← getF m f;
  if fhe x =? umax then Some None else
  y ← getH m (fhe x);
  if hrem y then Some None else
  if nhes m <=? fhe x then Some None else
  gfh_loop 10 m (fhe x) (fhe x).

(** topology.rs 526-539: adjacent_faces *)
Definition adjacent_faces m f : option (list N) :=
  r ← get_face_half_edges_iterative m f;
  let l := default [] r in
  fs ← mapM (λ h, x ← getH m h;
                  let t := htwin x in
                  if negb (t =? umax) && (t <? nhes m)
                  then y ← getH m t; Some (hface y)
                  else Some None) l;
  Some (filter (λ g, g ≠ f) (omap id fs)).

(** topology.rs 541-551: are_faces_adjacent *)
Definition are_faces_adjacent m f1 f2 : option bool :=
  l1 ← face_half_edges m f1;
  l2 ← face_half_edges m f2;
  xs ← mapM (getH m) l1;
  Some (existsb (λ x, existsb (N.eqb (htwin x)) l2) xs).

(** topology.rs 782-812: faces_around_face; [i] counts the results so far and
    the fixed array is padded with umax at the end *)
Fixpoint faf_loop (fuel : nat) m (start cur i : N) : option (list N) :=
  match fuel with
  | O => None
  | S fuel =>
      x ← getH m cur;
      found ← match hface x with
              | Some f => y ← getF m f; Some (if frem y then None else Some f)
              | None => Some None
              end;
      let i' := match found with Some _ => i + 1 | None => i end in
      let out := match found with Some f => [f] | None => [] end in
      if is_some found && (i' =? 3) then Some out else
      y ← getH m (htwin x);
      if hnext y =? start then Some out else
      l ← faf_loop fuel m start (hnext y) i'; Some (out ++ l)
  end.

Definition faces_around_face m f : option (list N) :=
  x ← getF m f;
  _ ← assertb (negb (fhe x =? umax));
  l ← faf_loop (fuel_of m) m (fhe x) (fhe x) 0;
  Some (take 3 (l ++ [umax; umax; umax])).

(** topology.rs 816-842: faces_around_vertex *)
Fixpoint fav_loop (fuel : nat) m (start cur : N) : option (list N) :=
  match fuel with
  | O => None
  | S fuel =>
      x ← getH m cur;
      out ← match hface x with
            | Some f => y ← getF m f; _ ← assertb (negb (frem y)); Some [f]
            | None => Some []
            end;
      y ← getH m (htwin x);
      if hnext y =? start then Some out else
      l ← fav_loop fuel m start (hnext y); Some (out ++ l)
  end.

Definition faces_around_vertex m v : option (list N) :=
  x ← getV m v;
  start ← vhe x;
  fav_loop (fuel_of m) m start start.

(** topology.rs 150-164: face_from_vertices *)
Definition face_from_vertices m v0 v1 v2 : option N :=
  fs0 ← faces_around_vertex m v0;
  fs1 ← faces_around_vertex m v1;
  fs2 ← faces_around_vertex m v2;
  Some (default umax (head (filter (λ f, f ∈ fs1 ∧ f ∈ fs2) fs0))).

(** topology.rs 1187-1189: half_edge_between *)
Definition half_edge_between m (u v : N) : option N := emap m !! (u, v).

(** topology.rs 1191-1196: edge_half_edges (outer option: panic) *)
Definition edge_half_edges m (u v : N) : option (option (N * N)) :=
  match emap m !! (u, v) with
  | Some h => x ← getH m h; Some (Some (h, htwin x))
  | None => Some None
  end.

(** topology.rs 1649-1652: are_vertices_connected *)
Definition are_vertices_connected m (a b : N) : bool :=
  is_some (emap m !! (a, b)) || is_some (emap m !! (b, a)).

(** topology.rs 1655-1663: vertices_connection *)
Definition vertices_connection m (a b : N) : N :=
  if (nverts m <=? a) || (nverts m <=? b) then umax
  else default umax (emap m !! (a, b)).

(** topology.rs 1665-1680: vertex_touches_face *)
Fixpoint vtf_loop (fuel : nat) m f (start cur : N) : option bool :=
  match fuel with
  | O => None
  | S fuel =>
      x ← getH m cur;
      if decide (hface x = Some f) then Some true else
      if htwin x =? umax then Some false else
      y ← getH m (htwin x);
      if hnext y =? start then Some false else vtf_loop fuel m f start (hnext y)
  end.

Definition vertex_touches_face m v f : option bool :=
  if nverts m <=? v then Some false else
  x ← getV m v;
  match vhe x with
  | Some h => vtf_loop (fuel_of m) m f h h
  | None => Some false
  end.

(** topology.rs 92-108: canonical_edge_indices *)
Definition canonical_edge_indices m h : option (option (N * N)) :=
  if nhes m <=? h then Some None else
  x ← getH m h;
  if nhes m <=? htwin x then Some None else
  y ← getH m (htwin x);
  Some (Some (if hv y <=? hv x then (hv y, hv x) else (hv x, hv y))).

(** topology.rs 1839-1844: rot_ccw_around_vertex *)
Definition rot_ccw_around_vertex m h : option N :=
  x ← getH m h; y ← getH m (hprev x); Some (htwin y).

(** topology.rs 1919-1925: face_ok *)
Definition face_ok m h : option bool :=
  x ← getH m h;
  match hface x with
  | Some f => y ← getF m f; Some (negb (frem y))
  | None => Some false
  end.

(** mesh/basic_types.rs: struct VertexRing; the three parallel vectors
    halfedges_ccw, neighbors_ccw, faces_ccw are one list of triples *)
Record vring := mkRing { ring_spokes : list (N * N * option N); ring_border : bool }.

(** topology.rs 1865-1884: skip removed spokes at the seed *)
Fixpoint vr_seed (fuel : nat) m (seed cur : N) (seen : list N) : option N :=
  match fuel with
  | O => None
  | S fuel =>
      x ← getH m cur;
      if hrem x && negb (bool_decide (cur ∈ seen)) then
        nxt ← rot_ccw_around_vertex m cur;
        if nxt =? seed then Some nxt else vr_seed fuel m seed nxt (cur :: seen)
      else Some cur
  end.

(** topology.rs 1896-1915: the traversal *)
Fixpoint vr_loop (fuel : nat) m (start cur : N) (seen : list N) : option (list (N * N * option N)) :=
  match fuel with
  | O => None
  | S fuel =>
      x ← getH m cur;
      ok ← (if hrem x then Some false else face_ok m cur);
      let out := if hrem x then [] else [(cur, hv x, if (ok : bool) then hface x else None)] in
      nxt ← rot_ccw_around_vertex m cur;
      if nxt =? start then Some out else
      if bool_decide (nxt ∈ seen) then Some out else
      l ← vr_loop fuel m start nxt (nxt :: seen); Some (out ++ l)
  end.

(** topology.rs 1846-1923: vertex_ring_ccw *)
Definition vertex_ring_ccw m v : option vring :=
  x ← getV m v;
  match vhe x with
  | None => Some (mkRing [] true)
  | Some h =>
      s ← source m h;
      seed ← (if s =? v then Some h else y ← getH m h; Some (htwin y));
      cur ← vr_seed (fuel_of m) m seed seed [];
      y ← getH m cur;
      if hrem y then Some (mkRing [] true) else
      l ← vr_loop (fuel_of m) m cur cur [];
      Some (mkRing l (existsb (λ t, is_none (snd t)) l))
  end.

(** topology.rs 490-499: incident_faces *)
Definition incident_faces m v : option (list N) :=
  r ← vertex_ring_ccw m v;
  let fs := omap snd (ring_spokes r) in
  xs ← mapM (λ f, y ← getF m f; Some (if frem y then None else Some f)) fs;
  Some (omap id xs).

(** topology.rs 1927-1983: ring_pair, restricted to the fields read by
    collapse_link_condition_triangle (topology.rs 1985-1995):
    common_neighbors, opposite_a, opposite_b; the debug assertions included *)
Definition opposite m h : option (option N) :=
  ok ← face_ok m h;
  if (ok : bool) then x ← getH m h; y ← getH m (hnext x); Some (Some (hv y)) else Some None.

Definition ring_pair m (v0 v1 : N) : option (option (list N * option N * option N)) :=
  if v0 =? v1 then Some None else
  match emap m !! (v0, v1), emap m !! (v1, v0) with
  | Some h01, Some h10 =>
      r0 ← vertex_ring_ccw m v0;
      r1 ← vertex_ring_ccw m v1;
      match filter (λ t, fst (fst t) = h01) (ring_spokes r0), filter (λ t, fst (fst t) = h10) (ring_spokes r1) with
      | t0 :: _, t1 :: _ =>
          _ ← assertb (snd (fst t0) =? v1);
          _ ← assertb (snd (fst t1) =? v0);
          oa ← opposite m h01;
          ob ← opposite m h10;
          let n0 := filter (λ x, x ≠ v1) ((λ t, snd (fst t)) <$> ring_spokes r0) in
          let n1 := filter (λ x, x ≠ v0) ((λ t, snd (fst t)) <$> ring_spokes r1) in
          Some (Some (filter (λ x, x ∈ n1) n0, oa, ob))
      | _, _ => Some None
      end
  | _, _ => Some None
  end.

Definition collapse_link_condition_triangle m (v0 v1 : N) : option bool :=
  r ← ring_pair m v0 v1;
  match r with
  | None => Some false
  | Some (common, oa, ob) =>
      let expected := match oa with Some a => [a] | None => [] end ++ match ob with Some b => [b] | None => [] end in
      (* equality of the two hash sets *)
      Some (bool_decide (Forall (λ x, x ∈ expected) common) && bool_decide (Forall (λ x, x ∈ common) expected))
  end.

(** ** topology.rs 1682-1770: validate_connectivity *)
Fixpoint for_all (l : list N) (chk : N → option unit) : option unit :=
  match l with [] => Some tt | i :: l => _ ← chk i; for_all l chk end.

(** lines 1704-1712: is [i] on the cycle of the face that starts at [start]? *)
Fixpoint in_face_loop (fuel : nat) m (i start cur : N) : option unit :=
  match fuel with
  | O => None
  | S fuel =>
      if cur =? i then Some tt else
      x ← getH m cur;
      let cur := hnext x in
      _ ← assertb (negb (cur =? start));
      in_face_loop fuel m i start cur
  end.

(** lines 1684-1714 *)
Definition check_he m i : option unit :=
  x ← getH m i;
  if hrem x then Some tt else
  n ← getH m (hnext x); _ ← assertb (hprev n =? i);
  p ← getH m (hprev x); _ ← assertb (hnext p =? i);
  t ← getH m (htwin x); _ ← assertb (htwin t =? i);
  match hface x with
  | Some f => y ← getF m f; in_face_loop (fuel_of m) m i (fhe y) (fhe y)
  | None => Some tt
  end.

(** lines 1716-1730, and validate_half_edges 1773-1788 *)
Fixpoint check_dup m (l : list N) (seen : gset (N * N)) : option unit :=
  match l with
  | [] => Some tt
  | i :: l =>
      x ← getH m i;
      if hrem x then check_dup m l seen else
      p ← getH m (hprev x);
      let e := (hv p, hv x) in
      _ ← assertb (negb (bool_decide (e ∈ seen)));
      check_dup m l ({[e]} ∪ seen)
  end.

Definition validate_half_edges m : option unit := check_dup m (range (nhes m)) ∅.

(** lines 1733-1752 *)
Fixpoint face_loop (fuel : nat) m f (start cur : N) : option unit :=
  match fuel with
  | O => None
  | S fuel =>
      x ← getH m cur;
      _ ← assertb (bool_decide (hface x = Some f));
      if hnext x =? start then Some tt else face_loop fuel m f start (hnext x)
  end.

Definition check_face m f : option unit :=
  y ← getF m f;
  if frem y then Some tt else face_loop (fuel_of m) m f (fhe y) (fhe y).

(** lines 1755-1769 *)
Definition check_vertex m v : option unit :=
  x ← getV m v;
  match vhe x with
  | Some h => s ← source m h; assertb (s =? v)
  | None => Some tt
  end.

Definition validate_connectivity m : option unit :=
  _ ← for_all (range (nhes m)) (check_he m);
  _ ← check_dup m (range (nhes m)) ∅;
  _ ← for_all (range (nfaces m)) (check_face m);
  for_all (range (nverts m)) (check_vertex m).
End query.
