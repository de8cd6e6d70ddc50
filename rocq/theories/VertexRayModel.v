(** Executable model of the rays cast from a vertex inside one of its faces
    (/repo/src/mesh/topology.rs 847-1185), on meshes of points of space with exact
    rational coordinates (CgarRational: tolerance() is zero, cgar_rational.rs 56).
    The outer [option] is a panic, the inner one the [Option] of the code; the
    [println!] lines are left out. *)
From Verif Require Export GeomModel MeshQueryModel.
Local Open Scope Q_scope.

(** topology.rs 80 (VertexRayResult) *)
Inductive vertex_ray := CollinearWithEdge (h : N) | EdgeIntersection (h : N) (distance edge_parameter : Q).

Section cast.
Implicit Types (m : mesh p3).

(** self.vertices[v].position *)
Definition pos_at m (v : N) : option p3 := x ← getV m v; Some (vpos x).
(** geometry/vector.rs 216 (scale), 115 (sum) *)
Definition scale_3 (u : p3) (s : Q) : p3 := let '(x, y, z) := u in (x * s, y * s, z * s).
Definition add_3 (u v : p3) : p3 :=
  let '(a, b, c) := u in let '(x, y, z) := v in (a + x, b + y, c + z).
Definition neg_3 (u : p3) : p3 := let '(x, y, z) := u in (- x, - y, - z).

(** topology.rs 859-865 and 1020-1026, 924-929 and 1059-1064: the opposite edge and
    the two edges from the vertex *)
Definition corner_edges (vs : N * N * N) (v : N) : option (N * N * list (N * N)) :=
  let '(v0, v1, v2) := vs in
  if (v0 =? v)%N then Some (v1, v2, [(v0, v1); (v0, v2)])
  else if (v1 =? v)%N then Some (v2, v0, [(v1, v2); (v1, v0)])
  else if (v2 =? v)%N then Some (v0, v1, [(v2, v0); (v2, v1)])
  else None.

(** topology.rs 931-950 and 1066-1089: the first edge from the vertex that is
    collinear with the direction, as the half-edge that points the same way *)
Fixpoint along_edges m (dir : p3) (es : list (N * N)) : option (option N) :=
  match es with
  | [] => Some None
  | (s, e) :: es =>
      pe ← pos_at m e;
      ps ← pos_at m s;
      let ev := sub3 pe ps in
      let cr := cross3 dir ev in
      if qle (dot3 cr cr) 0 then
        match half_edge_between m s e, qlt 0 (dot3 dir ev) with
        | Some h, true => Some (Some h)
        | _, _ =>
            match half_edge_between m e s, qlt 0 (dot3 dir (neg_3 ev)) with
            | Some h, true => Some (Some h)
            | _, _ => along_edges m dir es
            end
        end
      else along_edges m dir es
  end.

(** topology.rs 973-990 and 1130-1163: the half-edge of the opposite edge that
    bounds the face *)
Definition edge_of_face m (f v1 v2 : N) : option (option N) :=
  match half_edge_between m v1 v2, half_edge_between m v2 v1 with
  | Some h0, Some h1 =>
      x ← getH m h0;
      if bool_decide (hface x = Some f) then Some (Some h0) else
      y ← getH m h1;
      Some (if bool_decide (hface y = Some f) then Some h1 else None)
  | Some h0, None => x ← getH m h0; Some (if bool_decide (hface x = Some f) then Some h0 else None)
  | None, Some h1 => y ← getH m h1; Some (if bool_decide (hface y = Some f) then Some h1 else None)
  | None, None => Some None
  end.

(** topology.rs 973-1003 and 1130-1184 *)
Definition hit_edge m (f v1 v2 : N) (t u : Q) : option (option vertex_ray) :=
  o ← edge_of_face m f v1 v2;
  match o with
  | None => Some None
  | Some h =>
      x ← getH m h;
      y ← getH m (htwin x);
      if (hv y =? v1)%N && (hv x =? v2)%N then Some (Some (EdgeIntersection h t u))
      else if (hv y =? v2)%N && (hv x =? v1)%N then Some (Some (EdgeIntersection h t (1 - u)))
      else Some None
  end.

(** topology.rs 1008-1185: cast_ray_from_vertex_in_triangle *)
Definition cast_ray_from_vertex_in_triangle m (face vertex : N) (direction : p3) : option (option vertex_ray) :=
  vs ← face_vertices m face;
  match corner_edges vs vertex with
  | None => Some None
  | Some (w1, w2, adjacent) =>
      p0 ← pos_at m vertex;
      p1 ← pos_at m w1;
      p2 ← pos_at m w2;
      let '(v0, v1, v2) := vs in
      q0 ← pos_at m v0;
      q1 ← pos_at m v1;
      q2 ← pos_at m v2;
      let face_normal := cross3 (sub3 q1 q0) (sub3 q2 q0) in
      let n2 := dot3 face_normal face_normal in
      if is_zero n2 then Some None else
      let dot_dn := dot3 direction face_normal in
      let dir := sub3 direction (scale_3 face_normal (dot_dn / n2)) in
      if qle (dot3 dir dir) 0 then Some None else
      o ← along_edges m dir adjacent;
      match o with
      | Some h => Some (Some (CollinearWithEdge h))
      | None =>
          let edge_vec := sub3 p2 p1 in
          let rhs := sub3 p1 p0 in
          let det := dot3 (cross3 dir edge_vec) face_normal in
          if qle (Qabs det) 0 then Some None else
          let inv_det := 1 / det in
          let t := dot3 (cross3 rhs edge_vec) face_normal * inv_det in
          let u := dot3 (cross3 rhs dir) face_normal * inv_det in
          if qle t 0 then Some None else
          if qlt u 0 || qlt 1 u then Some None else
          hit_edge m face w1 w2 t u
      end
  end.

(** topology.rs 847-1003: cast_ray_from_vertex_in_triangle_3 *)
Definition cast_ray_from_vertex_in_triangle_3 m (face vertex : N) (direction : p3) : option (option vertex_ray) :=
  vs ← face_vertices m face;
  match corner_edges vs vertex with
  | None => Some None
  | Some (w1, w2, adjacent) =>
      p0 ← pos_at m vertex;
      p1 ← pos_at m w1;
      p2 ← pos_at m w2;
      let '(v0, v1, v2) := vs in
      q0 ← pos_at m v0;
      q1 ← pos_at m v1;
      q2 ← pos_at m v2;
      let e1 := sub3 q1 q0 in
      let e2 := sub3 q2 q0 in
      let face_normal := cross3 e1 e2 in
      let n2 := dot3 face_normal face_normal in
      if is_zero n2 then Some None else
      let e11 := dot3 e1 e1 in
      let e22 := dot3 e2 e2 in
      let e12 := dot3 e1 e2 in
      if is_zero e11 || is_zero e22 then Some None else
      let d1 := dot3 direction e1 in
      let d2 := dot3 direction e2 in
      let metric_det := e11 * e22 - e12 * e12 in
      if qle (Qabs metric_det) 0 then Some None else
      let inv := 1 / metric_det in
      let coeff1 := (d1 * e22 - d2 * e12) * inv in
      let coeff2 := (d2 * e11 - d1 * e12) * inv in
      let dir := add_3 (scale_3 e1 coeff1) (scale_3 e2 coeff2) in
      if qle (dot3 dir dir) 0 then Some None else
      o ← along_edges m dir adjacent;
      match o with
      | Some h => Some (Some (CollinearWithEdge h))
      | None =>
          let edge_vec := sub3 p2 p1 in
          let rhs := sub3 p1 p0 in
          let det := dot3 (cross3 dir edge_vec) face_normal in
          if qle (Qabs det) 0 then Some None else
          let inv_det := 1 / det in
          let t := dot3 (cross3 rhs edge_vec) face_normal * inv_det in
          let u := dot3 (cross3 dir rhs) face_normal * inv_det in
          if qle t 0 || qlt u 0 || qlt 1 u then Some None else
          hit_edge m face w1 w2 t u
      end
  end.
End cast.
