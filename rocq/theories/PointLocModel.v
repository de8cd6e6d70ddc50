(** Executable model of the search for the face that holds a point
    (/repo/src/mesh/topology.rs 1220-1466), with exact rational coordinates.
    [None] is a panic: an index out of range, the [unwrap] of the barycentric
    coordinates of a degenerate triangle, or the final [panic!]. *)
From Verif Require Export GeomModel MeshQueryModel.
Local Open Scope Q_scope.

(** topology.rs 54-58: FindFaceResult *)
Inductive face_place :=
| PInside (f : N) (bary : Q * Q * Q)
| POnEdge (f he : N) (u : Q)
| POnVertex (f v : N).

Section locate.
Implicit Types (m : mesh point) (p : point) (f : N).

(** self.vertices[v].position *)
Definition place_of m (v : N) : option point := x ← getV m v; Some (vpos x).

(** barycentric_coords of a triangle given by its vertices, with [unwrap]
    (topology.rs 1258-1263, 1345-1353, 1401-1406) *)
Definition bary_of m p (vs : N * N * N) : option (Q * Q * Q) :=
  let '(i0, i1, i2) := vs in
  a ← place_of m i0; b ← place_of m i1; c ← place_of m i2;
  barycentric_coords p a b c.

(** topology.rs 1224-1230: face_edges, with its debug assertion *)
Definition face_edges m f : option (N * N * N) :=
  fc ← getF m f;
  x0 ← getH m (fhe fc);
  x1 ← getH m (hnext x0);
  x2 ← getH m (hnext x1);
  _ ← assertb (hnext x2 =? fhe fc)%N;
  Some (fhe fc, hnext x0, hnext x1).

(** topology.rs 1234-1240: edge_and_u_from_bary_zero *)
Definition edge_and_u_from_bary_zero m f (l0 l1 l2 : Q) : option (option (N * Q)) :=
  '(e0, e1, e2) ← face_edges m f;
  Some (if is_zero l2 then Some (e0, l1)
        else if is_zero l0 then Some (e1, l2)
        else if is_zero l1 then Some (e2, l0) else None).

(** topology.rs 1243-1249: vertex_from_bary_zero *)
Definition vertex_from_bary_zero m f (l0 l1 l2 : Q) : option (option N) :=
  '(a, b, c) ← face_vertices m f;
  Some (if is_zero l1 && is_zero l2 then Some a
        else if is_zero l2 && is_zero l0 then Some b
        else if is_zero l0 && is_zero l1 then Some c else None).

(** topology.rs 1268, 1413, 1444 *)
Definition zeros (l0 l1 l2 : Q) : nat := b2n (is_zero l0) + b2n (is_zero l1) + b2n (is_zero l2).
(** topology.rs 1271-1272, 1448-1449 *)
Definition clamp_unit (u : Q) : Q :=
  let u := if is_negative u then 0 else u in
  if is_positive (u - 1) then 1 else u.

(** topology.rs 1252-1285: location_on_face *)
Definition location_on_face m f p : option face_place :=
  vs ← face_vertices m f;
  '(l0, l1, l2) ← bary_of m p vs;
  let zc := zeros l0 l1 l2 in
  o ← (if Nat.eqb zc 1 then edge_and_u_from_bary_zero m f l0 l1 l2 else Some None);
  match o with
  | Some (he, u) => Some (POnEdge f he (clamp_unit u))
  | None =>
      if Nat.leb 2 zc then
        v ← vertex_from_bary_zero m f l0 l1 l2;
        Some (match v with Some v => POnVertex f v | None => PInside f (l0, l1, l2) end)
      else Some (PInside f (l0, l1, l2))
  end.

(** geometry/point.rs 237-239 (panics in the plane), 318-324 *)
Definition as_vector_3 p : option p3 :=
  match p with [x; y; z] => Some (x, y, z) | _ => None end.

(** topology.rs 1309-1341: live_face_degenerate *)
Definition live_face_degenerate m f : option bool :=
  '(i0, i1, i2) ← face_vertices m f;
  a ← place_of m i0; b ← place_of m i1; c ← place_of m i2;
  let ab := psub b a in
  let ac := psub c a in
  let bc := psub c b in
  if is_zero (dot ab ab) || is_zero (dot ac ac) || is_zero (dot bc bc) then Some true else
  ab3 ← as_vector_3 ab;
  ac3 ← as_vector_3 ac;
  let '(n0, n1, n2) := cross3 ab3 ac3 in
  Some (is_zero n0 && is_zero n1 && is_zero n2).

(** topology.rs 1384-1386, 1408-1411, 1441-1442 *)
Definition off_face (l : Q * Q * Q) : bool :=
  let '(l0, l1, l2) := l in is_negative l0 || is_negative l1 || is_negative l2.

(** topology.rs 1356-1366: push_live_neighbors; the faces pushed *)
Definition neighbour m (seen : gset N) (e : N) : option (list N) :=
  x ← getH m e;
  y ← getH m (htwin x);
  match hface y with
  | None => Some []
  | Some g => z ← getF m g; Some (if negb (frem z) && negb (bool_decide (g ∈ seen)) then [g] else [])
  end.
Definition live_neighbours m f (seen : gset N) : option (list N) :=
  '(e0, e1, e2) ← face_edges m f;
  l0 ← neighbour m seen e0; l1 ← neighbour m seen e1; l2 ← neighbour m seen e2;
  Some (l0 ++ l1 ++ l2).

(** face_split_map (basic_types.rs 163): for a removed face, the triangles recorded in
    its place.  No code writes to it. *)
Variable split : gmap N (list (N * (N * N * N))).

(** topology.rs 1396-1420: the recorded triangles that hold the point, those with the
    point inside first *)
Fixpoint sort_triangles m p (l : list (N * (N * N * N))) : option (list N * list N) :=
  match l with
  | [] => Some ([], [])
  | (g, vs) :: l =>
      '(l0, l1, l2) ← bary_of m p vs;
      r ← sort_triangles m p l;
      let '(inn, bnd) := r in
      Some (if off_face (l0, l1, l2) then (inn, bnd)
            else if Nat.leb 1 (zeros l0 l1 l2) then (inn, g :: bnd) else (g :: inn, bnd))
  end.
Definition unseen (seen : gset N) (l : list N) : list N := filter (λ g, g ∉ seen) l.

(** topology.rs 1368-1428: the search; [Some None]: the queue ran empty.  The debug
    bound of a million steps is left out. *)
Fixpoint face_bfs (fuel : nat) m p (q : list N) (seen : gset N) : option (option face_place) :=
  match fuel with
  | O => None
  | S fuel =>
      match q with
      | [] => Some None
      | f :: q =>
          if bool_decide (f ∈ seen) then face_bfs fuel m p q seen else
          let seen := {[f]} ∪ seen in
          x ← getF m f;
          if negb (frem x) then
            vs ← face_vertices m f;
            l ← bary_of m p vs;
            if off_face l then
              ns ← live_neighbours m f seen;
              face_bfs fuel m p (q ++ ns) seen
            else r ← location_on_face m f p; Some (Some r)
          else
            match split !! f with
            | None => face_bfs fuel m p q seen
            | Some tris =>
                r ← sort_triangles m p tris;
                let '(inn, bnd) := r in
                face_bfs fuel m p (rev (unseen seen inn) ++ q ++ unseen seen bnd ++ unseen seen (map fst tris)) seen
            end
      end
  end.

(** enough steps: one for each face ever pushed *)
Definition weight f : nat := (3 + 2 * length (default [] (split !! f)))%nat.
Definition face_fuel m : nat := (2 + foldr (λ f k, weight f + k) 0 (range (nfaces m)))%nat.

(** topology.rs 1431-1458: the scan of all live faces; the first edge ends it, else the
    first vertex, else the first face *)
Fixpoint face_scan m p (fs : list N) (bv : option (N * N)) (bi : option (N * (Q * Q * Q))) : option (option face_place) :=
  match fs with
  | [] => Some (match bv, bi with
                | Some (f, v), _ => Some (POnVertex f v)
                | None, Some (f, b) => Some (PInside f b)
                | None, None => None
                end)
  | f :: fs =>
      x ← getF m f;
      if frem x then face_scan m p fs bv bi else
      d ← live_face_degenerate m f;
      if (d : bool) then face_scan m p fs bv bi else
      vs ← face_vertices m f;
      l ← bary_of m p vs;
      if off_face l then face_scan m p fs bv bi else
      let '(l0, l1, l2) := l in
      let zc := zeros l0 l1 l2 in
      if Nat.eqb zc 1 then
        o ← edge_and_u_from_bary_zero m f l0 l1 l2;
        match o with
        | Some (he, u) => Some (Some (POnEdge f he (clamp_unit u)))
        | None => face_scan m p fs bv bi
        end
      else if Nat.leb 2 zc && is_none bv then
        o ← vertex_from_bary_zero m f l0 l1 l2;
        face_scan m p fs (match o with Some v => Some (f, v) | None => bv end) bi
      else if Nat.eqb zc 0 && is_none bi then face_scan m p fs bv (Some (f, l))
      else face_scan m p fs bv bi
  end.

(** topology.rs 1292-1466: find_valid_face *)
Definition find_valid_face m (start : N) p : option face_place :=
  r ← face_bfs (face_fuel m) m p [start] ∅;
  match r with
  | Some r => Some r
  | None => r ← face_scan m p (range (nfaces m)) None None; r
  end.
End locate.
