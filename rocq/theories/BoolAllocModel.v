(** Executable model of the allocation of vertices for intersection segments
    (/repo/src/mesh_processing/boolean.rs 66-83 and 1373-1605). [None] is a panic. *)
From Coq Require Import QArith.
From Verif Require Export BoolCutModel MeshEditModel MeshQueryModel.
From Verif Require F64Model HashModel.
Local Open Scope N_scope.

(** mesh/intersection_segment.rs 78-88: a segment with the hints of its ends (see
    BoolCutModel); [g_va] and [g_vb] are the two [resulting_vertex]. *)
Record gseg {P : Type} := mkG { g_a : hints; g_b : hints; g_pa : P; g_pb : P; g_face : N; g_cop : bool; g_inv : bool; g_va : option N; g_vb : option N }.
Arguments gseg : clear implicits.
Arguments mkG {P}.

Section alloc.
Context {P K : Type} `{Countable K}.
(** boolean.rs 66-83: point_key *)
Variable key : P → K.
(** [hit q p]: a vertex at [q] answers a search for [p] in the spatial hash: same cell
    and are_approximately_equal (core.rs 517-572, see HashModel). *)
Variable hit : P → P → bool.
(** boolean.rs 1446-1449: u <= tol, u >= 1 - tol, both in doubles *)
Variable low high : Q → bool.
(** boolean.rs 1373-1376 of u, or of 1 - u if the flag is set *)
Variable bucket : bool → Q → Z.
Implicit Types (m : mesh P) (hn : hints) (p : P) (s : gseg P).

(** The search of get_or_insert_vertex as a function of the vertices: the first vertex
    that answers. Simplification: the hash is taken to hold every vertex under its current
    position, as it does in meshes built by add_vertex and get_or_insert_vertex. *)
Fixpoint find_in m p (vs : list N) : option (option N) :=
  match vs with
  | [] => Some None
  | v :: vs => x ← getV m v; if hit (vpos x) p then Some (Some v) else find_in m p vs
  end.
Definition find_vertex m p : option (option N) := find_in m p (range (nverts m)).
Definition get_or_insert m p : option (mesh P * N) :=
  found ← find_vertex m p;
  r ← get_or_insert_vertex m found p;
  Some r.1.

Definition no_pair : N * N := (umax, umax).
(** keys of keyed_map *)
Notation mkey := (K * (N * N) * (N * N) * bool)%type.

(** boolean.rs 1424-1431 *)
Definition edge_key m hn : option (N * N) :=
  match h_he hn with
  | None => Some no_pair
  | Some h => r ← canonical_edge_indices m h; Some (default no_pair r)
  end.
(** boolean.rs 1445-1449: endpoint_flag *)
Definition at_end hn : bool := match h_u hn with Some u => low u || high u | None => false end.

Record astate := mkSt { st_mesh : mesh P; st_keys : gmap mkey N; st_edges : gmap ((N * N) * Z) N }.

Definition or_insert {A B} `{Countable A} (a : A) (b : B) (t : gmap A B) : gmap A B :=
  match t !! a with Some _ => t | None => <[a := b]> t end.

(** boolean.rs 1504-1531 (1e and 1f). canonical_map is returned but not used by the
    callers and left out. *)
Definition place_plain (st : astate) hn p : option astate :=
  let k := (key p, no_pair, match h_faces hn, h_bary hn with Some fs, Some _ => fs | _, _ => no_pair end, false) in
  match st_keys st !! k with
  | Some _ => Some st
  | None => r ← get_or_insert (st_mesh st) p; Some (mkSt r.1 (<[k := r.2]> (st_keys st)) (st_edges st))
  end.

(** topology.rs 111-125: canonicalize_u_for_edge flips u *)
Definition flipped m (he : N) (ek : N * N) : option bool :=
  x ← getH m he; y ← getH m (htwin x); Some (negb (hv y =? ek.1)).

(** boolean.rs 1482-1502 (1d) *)
Definition place_edge (st : astate) hn p (mk : mkey) : option astate :=
  match h_he hn, h_u hn, at_end hn with
  | Some he, Some u, false =>
      ce ← canonical_edge_indices (st_mesh st) he;
      match ce with
      | None => place_plain st hn p
      | Some ek =>
          fl ← flipped (st_mesh st) he ek;
          let k := (ek, bucket fl u) in
          match st_edges st !! k with
          | Some v => Some (mkSt (st_mesh st) (<[mk := v]> (st_keys st)) (st_edges st))
          | None =>
              r ← get_or_insert (st_mesh st) p;
              Some (mkSt r.1 (<[mk := r.2]> (st_keys st)) (<[k := r.2]> (st_edges st)))
          end
      end
  | _, _, _ => place_plain st hn p
  end.

(** boolean.rs 1462-1480 (1c) *)
Definition place_corner (st : astate) hn p (mk : mkey) : option astate :=
  match at_end hn, h_he hn, h_u hn with
  | true, Some he, Some u =>
      if he <? nhes (st_mesh st) then
        x ← getH (st_mesh st) he;
        v ← (if low u then y ← getH (st_mesh st) (hprev x); Some (hv y) else Some (hv x));
        Some (mkSt (st_mesh st) (<[mk := v]> (st_keys st)) (st_edges st))
      else place_edge st hn p mk
  | _, _, _ => place_edge st hn p mk
  end.

(** boolean.rs 1418-1460: one end in the first pass *)
Definition place_end (st : astate) hn p : option astate :=
  ek ← edge_key (st_mesh st) hn;
  let mk := (key p, ek, default no_pair (h_faces hn), at_end hn) in
  let taken := match h_verts hn with
               | Some (v, _) => if negb (v =? umax) && (bool_decide (ek = no_pair) || at_end hn) then Some v else None
               | None => None
               end in
  match taken with
  | Some v => Some (mkSt (st_mesh st) (or_insert mk v (st_keys st)) (st_edges st))
  | None => if is_some (st_keys st !! mk) then Some st else place_corner st hn p mk
  end.

(** boolean.rs 1412-1533: the first pass *)
Fixpoint place_all (st : astate) (l : list (gseg P)) : option astate :=
  match l with
  | [] => Some st
  | s :: l =>
      if g_inv s then place_all st l else
      st ← place_end st (g_a s) (g_pa s);
      st ← place_end st (g_b s) (g_pb s);
      place_all st l
  end.

(** boolean.rs 1544-1594: one end in the second pass *)
Definition write_end (keys : gmap mkey N) m (face : N) hn p : option (mesh P * (hints * N)) :=
  ek ← edge_key m hn;
  let fk := if bool_decide (ek = no_pair) then default no_pair (h_faces hn) else no_pair in
  r ← match keys !! (key p, ek, fk, at_end hn) with
      | Some v => Some (m, v)
      | None => match keys !! (key p, no_pair, no_pair, false) with
                | Some v => Some (m, v)
                | None => get_or_insert m p
                end
      end;
  let faces := match h_he hn, h_faces hn with None, None => Some (face, umax) | _, o => o end in
  Some (r.1, (mkHints (Some (r.2, umax)) None None faces None, r.2)).

(** boolean.rs 1596-1602: the third pass for a segment that the second one skips *)
Definition hint_vertex hn : N := match h_verts hn with Some (v, _) => v | None => umax end.

(** boolean.rs 1535-1602: second and third pass *)
Fixpoint write_all (keys : gmap mkey N) m (l : list (gseg P)) : option (mesh P * list (gseg P)) :=
  match l with
  | [] => Some (m, [])
  | s :: l =>
      if g_inv s then
        r ← write_all keys m l;
        Some (r.1, mkG (g_a s) (g_b s) (g_pa s) (g_pb s) (g_face s) (g_cop s) true (Some (hint_vertex (g_a s))) (Some (hint_vertex (g_b s))) :: r.2)
      else
        a ← write_end keys m (g_face s) (g_a s) (g_pa s);
        b ← write_end keys a.1 (g_face s) (g_b s) (g_pb s);
        r ← write_all keys b.1 l;
        Some (r.1, mkG a.2.1 b.2.1 (g_pa s) (g_pb s) (g_face s) (g_cop s) false (Some a.2.2) (Some b.2.2) :: r.2)
  end.

(** boolean.rs 1382-1605: allocate_vertices_for_splits_no_topology *)
Definition allocate_vertices m (l : list (gseg P)) : option (mesh P * list (gseg P)) :=
  st ← place_all (mkSt m ∅ ∅) l;
  write_all (st_keys st) (st_mesh st) l.
End alloc.

(** ** With the scalar CgarRational *)
(** [round() as i64]: to nearest, ties away from zero, saturating *)
Definition round_i64 (x : F64Model.f64) : Z :=
  match F64Model.f64_to_Q x with
  | Some q =>
      let r := (Z.sgn (Qnum q) * ((2 * Z.abs (Qnum q) + Zpos (Qden q)) / (2 * Zpos (Qden q))))%Z in
      Z.max F64Model.i64_min (Z.min F64Model.i64_max r)
  | None => F64Model.f64_to_i64 x
  end.
(** cgar_rational.rs 66-68, as a double *)
Definition merge_tol : F64Model.f64 := F64Model.Q_to_f64 (1 # 1000000).
(** boolean.rs 66-83 *)
Definition point_key (p : p3) : Z * Z * Z :=
  let s := F64Model.fdiv F64Model.fone merge_tol in
  let q (x : Q) := round_i64 (F64Model.fmul (F64Model.Q_to_f64 x) s) in
  let '(x, y, z) := p in (q x, q y, q z).
(** boolean.rs 1446-1449 *)
Definition u_low (u : Q) : bool := F64Model.fle (F64Model.Q_to_f64 u) merge_tol.
Definition u_high (u : Q) : bool := F64Model.fge (F64Model.Q_to_f64 u) (F64Model.fsub F64Model.fone merge_tol).
(** boolean.rs 1373-1376 *)
Definition bucket_u (fl : bool) (u : Q) : Z :=
  let u := F64Model.Q_to_f64 u in
  let u := if fl then F64Model.fsub F64Model.fone u else u in
  Z.max (F64Model.i64_min / 4) (Z.min (F64Model.i64_max / 4) (round_i64 (F64Model.fdiv u merge_tol))).
(** core.rs 517-572 with CgarRational: a vertex at [q] answers for [p] if it is in the same
    cell and approximately equal. The cells around it only answer for exactly equal points,
    which are in the same cell. Simplification: the overflow of cell numbers next to the
    ends of i64 (core.rs 557), a panic in debug builds, is left out; see C64. *)
Definition rat_cell (p : list Q) : Z :=
  match HashModel.position_to_packed_key HashModel.rat_scalar (HashModel.new_mesh HashModel.rat_scalar) tt p with
  | LazyModel.Ok (_, k) => k
  | _ => 0%Z
  end.
Definition rat_near (q p : list Q) : bool :=
  match HashModel.are_approximately_equal HashModel.rat_scalar tt q p with
  | LazyModel.Ok (_, b) => b
  | _ => false
  end.
Definition coords (p : p3) : list Q := let '(x, y, z) := p in [x; y; z].
Definition rat_hit (q p : p3) : bool := Z.eqb (rat_cell (coords q)) (rat_cell (coords p)) && rat_near (coords q) (coords p).
