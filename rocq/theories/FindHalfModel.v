(** Executable model of the search for a half-edge in use that holds a point
    (/repo/src/mesh/topology.rs 1468-1617), with exact rational coordinates.  The search
    through the descendants is [BoolClassModel.fvh_loop]. *)
From Verif Require Export BoolClassModel PointLocModel.
Local Open Scope Q_scope.

(** topology.rs 1494-1514: proj_u_and_dist2 *)
Definition proj_u_and_dist2 (a p b : point) : Q * Q :=
  let ab := psub b a in
  let ap := psub p a in
  let denom := dot ab ab in
  if is_zero denom then (0, dot ap ap) else
  let u := dot ap ab / denom in
  let uc := if is_negative u then 0 else if is_positive (u - 1) then 1 else u in
  let closest := padd a (scale ab uc) in
  (u, dot (psub p closest) (psub p closest)).

Section find_half.
Implicit Types (m : mesh point) (p : point) (h : N).

(** topology.rs 1484-1491, 1517-1520: the positions of the origin and the target *)
Definition ends_of m h : option (point * point) :=
  x ← getH m h; y ← getH m (htwin x);
  a ← place_of m (hv y); b ← place_of m (hv x);
  Some (a, b).

(** topology.rs 1516-1530: contains_exact. The search reads the ends before (read_ends),
    so a half-edge without ends is not met. *)
Definition contains_exact m h p : bool :=
  match ends_of m h with
  | Some (a, b) =>
      let '(u, d2) := proj_u_and_dist2 a p b in
      is_zero d2 && negb (is_negative u) && negb (is_positive (u - 1))
  | None => false
  end.

(** topology.rs 1553-1566: the squared distance of the first one is less *)
Definition nearer_exact m p h h' : bool :=
  match ends_of m h, ends_of m h' with
  | Some (a, b), Some (a', b') => is_negative (snd (proj_u_and_dist2 a p b) - snd (proj_u_and_dist2 a' p b'))
  | _, _ => false
  end.

(** topology.rs 1598-1609: the nearest of some half-edges *)
Fixpoint nearest_of m p (l : list N) (best : N * Q) : option (N * Q) :=
  match l with
  | [] => Some best
  | e :: l =>
      '(a, b) ← ends_of m e;
      let d2 := snd (proj_u_and_dist2 a p b) in
      nearest_of m p l (if is_negative (d2 - snd best) then (e, d2) else best)
  end.

(** face_split_map and half_edge_split_map of the mesh (basic_types.rs 161-163); no code
    writes to them *)
Variable fsplit : gmap N (list (N * (N * N * N))).
Variable split : gmap N (N * N).

(** topology.rs 1583-1616: the last resort; [.or] reads the twin in any case *)
Definition last_resort_exact m h p : option N :=
  x ← getH m h;
  y ← getH m (htwin x);
  f ← (match hface x with Some f => Some f | None => hface y end);     (* panic!("... no anchor") *)
  r ← find_valid_face fsplit m f p;
  match r with
  | POnEdge _ he _ => Some he
  | POnVertex f _ => fc ← getF m f; z ← getH m (fhe fc); Some (htwin z)
  | PInside f _ =>
      fc ← getF m f;
      let e0 := fhe fc in
      x0 ← getH m e0; let e1 := hnext x0 in
      x1 ← getH m e1; let e2 := hnext x1 in
      b ← nearest_of m p [e0; e1; e2] (e0, 1000000000);
      Some (fst b)
  end.

(** topology.rs 1468-1617: find_valid_half_edge *)
Definition find_half_edge m h p : option N :=
  find_valid_half_edge split contains_exact nearer_exact last_resort_exact m h p.
End find_half.
