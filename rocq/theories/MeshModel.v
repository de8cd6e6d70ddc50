(** Executable model of the half-edge mesh of cgar.

    Sources modelled in this file:
    - /repo/src/mesh/half_edge.rs 22-45, face.rs 22-36, vertex.rs 22-43
    - /repo/src/mesh/basic_types.rs 155-167 (struct Mesh)
    - /repo/src/mesh/core.rs 43-57 (new), 574-582 (add_vertex)
    - /repo/src/mesh/triangle.rs 80-798 (add_triangle, remove_triangle, welding)

    Conventions.
    - [usize] ids are [N]; [usize::MAX] is [umax].
    - A [Vec] is a finite map plus its length; reading outside of it is a Rust
      panic, modelled by [None] of the [option] monad.
    - [Vec::push] aborts when the vector can no longer grow; the model puts that
      bound at [umax] (the real one, isize::MAX bytes, is smaller).
    - [debug_assert!] is modelled as an assertion (a panic), i.e. the model is
      the debug build; theorems show that none of them fires.
    - The position type is a parameter; the spatial hash, [face_split_map],
      [half_edge_split_map], [cell] and [hash_inv] fields are left out here: no
      function of this file reads them. *)
From Coq Require Export Lia.
From stdpp Require Export prelude gmap.
Local Open Scope N_scope.

(** usize::MAX *)
Definition umax : N := 18446744073709551615.

(** mesh/half_edge.rs 23-30: struct HalfEdge *)
Record HE := mkHE {
  hv : N;              (* vertex: head *)
  hface : option N;    (* face *)
  hnext : N;
  hprev : N;
  htwin : N;
  hrem : bool          (* removed *)
}.

(** mesh/half_edge.rs 33-43: HalfEdge::new *)
Definition he_new (v : N) : HE := mkHE v None umax umax umax false.

Definition with_face (f : option N) (x : HE) := mkHE (hv x) f (hnext x) (hprev x) (htwin x) (hrem x).
Definition with_next (n : N) (x : HE) := mkHE (hv x) (hface x) n (hprev x) (htwin x) (hrem x).
Definition with_prev (p : N) (x : HE) := mkHE (hv x) (hface x) (hnext x) p (htwin x) (hrem x).
Definition with_twin (t : N) (x : HE) := mkHE (hv x) (hface x) (hnext x) (hprev x) t (hrem x).
Definition with_rem (r : bool) (x : HE) := mkHE (hv x) (hface x) (hnext x) (hprev x) (htwin x) r.
Definition with_hv (v : N) (x : HE) := mkHE v (hface x) (hnext x) (hprev x) (htwin x) (hrem x).

(** mesh/face.rs 22-35: struct Face, Face::new *)
Record FC := mkFC { fhe : N; frem : bool }.

Definition is_none {A} (o : option A) : bool := match o with None => true | Some _ => false end.
Definition is_some {A} (o : option A) : bool := match o with None => false | Some _ => true end.

Section mesh.
Context {P : Type}.

(** mesh/vertex.rs 26-31: struct Vertex *)
Record VX := mkVX { vpos : P; vhe : option N; vrem : bool }.

(** mesh/basic_types.rs 155-167: struct Mesh (fields used by the topology code) *)
Record mesh := mkMesh {
  verts : gmap N VX; nverts : N;
  hes : gmap N HE; nhes : N;
  faces : gmap N FC; nfaces : N;
  emap : gmap (N * N) N
}.

(** mesh/core.rs 43-57: Mesh::new *)
Definition mesh_new : mesh := mkMesh ∅ 0 ∅ 0 ∅ 0 ∅.

Definition set_hes (h : gmap N HE) (m : mesh) : mesh :=
  mkMesh (verts m) (nverts m) h (nhes m) (faces m) (nfaces m) (emap m).
Definition set_emap (e : gmap (N * N) N) (m : mesh) : mesh :=
  mkMesh (verts m) (nverts m) (hes m) (nhes m) (faces m) (nfaces m) e.
Definition set_faces (f : gmap N FC) (m : mesh) : mesh :=
  mkMesh (verts m) (nverts m) (hes m) (nhes m) f (nfaces m) (emap m).
Definition set_verts (v : gmap N VX) (m : mesh) : mesh :=
  mkMesh v (nverts m) (hes m) (nhes m) (faces m) (nfaces m) (emap m).

(** [assert!(b)] *)
Definition assertb (b : bool) : option unit := if b then Some tt else None.

(** self.half_edges[h], self.faces[f], self.vertices[v] (reads) *)
Definition getH (m : mesh) (h : N) : option HE := hes m !! h.
Definition getF (m : mesh) (f : N) : option FC := faces m !! f.
Definition getV (m : mesh) (v : N) : option VX := verts m !! v.

(** in-place update of one element; panics when out of range *)
Definition updH (m : mesh) (h : N) (f : HE → HE) : option mesh :=
  x ← getH m h; Some (set_hes (<[h := f x]> (hes m)) m).
Definition updF (m : mesh) (i : N) (f : FC → FC) : option mesh :=
  x ← getF m i; Some (set_faces (<[i := f x]> (faces m)) m).
Definition updV (m : mesh) (i : N) (f : VX → VX) : option mesh :=
  x ← getV m i; Some (set_verts (<[i := f x]> (verts m)) m).

(** Vec::push on half_edges / faces / vertices *)
Definition pushH (m : mesh) (x : HE) : option mesh :=
  if nhes m <? umax
  then Some (mkMesh (verts m) (nverts m) (<[nhes m := x]> (hes m)) (nhes m + 1)
               (faces m) (nfaces m) (emap m))
  else None.
Definition pushF (m : mesh) (x : FC) : option mesh :=
  if nfaces m <? umax
  then Some (mkMesh (verts m) (nverts m) (hes m) (nhes m)
               (<[nfaces m := x]> (faces m)) (nfaces m + 1) (emap m))
  else None.
Definition pushV (m : mesh) (x : VX) : option mesh :=
  if nverts m <? umax
  then Some (mkMesh (<[nverts m := x]> (verts m)) (nverts m + 1) (hes m) (nhes m)
               (faces m) (nfaces m) (emap m))
  else None.

(** self.edge_map.insert / remove *)
Definition em_insert (m : mesh) (k : N * N) (h : N) : mesh := set_emap (<[k := h]> (emap m)) m.
Definition em_remove (m : mesh) (k : N * N) : mesh := set_emap (delete k (emap m)) m.

(** mesh/core.rs 574-582: add_vertex (spatial hash part modelled in SpatialHash.v) *)
Definition add_vertex (m : mesh) (p : P) : option (mesh * N) :=
  let idx := nverts m in
  m ← pushV m (mkVX p None false);
  Some (m, idx).

(** mesh/triangle.rs 255-262: rotate_around_head *)
Definition rotate_around_head (m : mesh) (k : N) : option N :=
  x ← getH m k;
  let tk := htwin x in
  _ ← assertb (negb (tk =? umax));
  y ← getH m tk;
  Some (hprev y).

(** mesh/triangle.rs 278-290: loop of find_next_border. [fuel] counts the
    iterations the code still allows: [steps > limit] holds after the iteration
    that leaves [fuel = 0]. *)
Fixpoint fnb_loop (fuel : nat) (m : mesh) (b start k : N) : option N :=
  match fuel with
  | O => Some umax
  | S fuel' =>
      x ← getH m k;
      let cand := htwin x in
      stop ← (if cand =? umax then Some false
              else c ← getH m cand;
                   Some (negb (hrem c) && is_none (hface c) && negb (cand =? b)));
      if (stop : bool) then Some cand
      else k' ← rotate_around_head m k;
           if (k' =? start) then Some umax
           else fnb_loop fuel' m b start k'
  end.

(** mesh/triangle.rs 266-291: find_next_border; limit = len + 64 *)
Definition find_next_border (m : mesh) (b : N) : option N :=
  xb ← getH m b;
  _ ← assertb (is_none (hface xb));
  let t := htwin xb in
  _ ← assertb (negb (t =? umax));
  xt ← getH m t;
  _ ← assertb (is_some (hface xt));
  let k := hprev xt in
  fnb_loop (N.to_nat (nhes m) + 65) m b k k.

(** mesh/triangle.rs 307-317: Phase 1 of rebuild_border_component_from. Returns
    the ring in order and the updated visited set ([Vec<bool>] of the length of
    half_edges: indexing it out of range panics). *)
Fixpoint collect_ring (fuel : nat) (m : mesh) (start cur : N) (vis : gset N)
  : option (list N * gset N) :=
  match fuel with
  | O => Some ([], vis)
  | S fuel' =>
      _ ← assertb (cur <? nhes m);
      if bool_decide (cur ∈ vis) then Some ([], vis)
      else
        let vis := {[cur]} ∪ vis in
        nb ← find_next_border m cur;
        _ ← assertb (negb (nb =? umax));
        if nb =? start then Some ([cur], vis)
        else r ← collect_ring fuel' m start nb vis;
             Some (cur :: r.1, r.2)
  end.

(** mesh/triangle.rs 319-328: Phase 2, write next/prev of the ring *)
Definition write_one (ring : list N) (m : mesh) (i : nat) : option mesh :=
  let n := length ring in
  b ← ring !! i;
  nb ← ring !! Nat.modulo (i + 1)%nat n;
  pb ← ring !! Nat.modulo (i + n - 1)%nat n;
  m ← updH m b (with_next nb);
  updH m b (with_prev pb).

Fixpoint write_ring (ring : list N) (is : list nat) (m : mesh) : option mesh :=
  match is with
  | [] => Some m
  | i :: is => m ← write_one ring m i; write_ring ring is m
  end.

(** mesh/triangle.rs 295-329: rebuild_border_component_from *)
Definition rebuild_border_component_from (m : mesh) (start : N) (vis : gset N)
  : option (mesh * gset N) :=
  if start =? umax then Some (m, vis) else
  x ← getH m start;
  if hrem x || is_some (hface x) then Some (m, vis) else
  r ← collect_ring (N.to_nat (nhes m) + 65) m start start vis;
  m ← write_ring r.1 (seq 0 (length r.1)) m;
  Some (m, r.2).

(** The loop "for &b in starts { if b is a live unvisited border { rebuild } }":
    mesh/triangle.rs 94-107 (weld_border_components_from), 474-485, 765-774 *)
Fixpoint weld (m : mesh) (starts : list N) (vis : gset N) : option (mesh * gset N) :=
  match starts with
  | [] => Some (m, vis)
  | b :: starts =>
      if (b =? umax) || negb (b <? nhes m) then weld m starts vis else
      x ← getH m b;
      if negb (hrem x) && is_none (hface x) && negb (bool_decide (b ∈ vis))
      then r ← rebuild_border_component_from m b vis; weld r.1 starts r.2
      else weld m starts vis
  end.

(** mesh/triangle.rs 94-107: weld_border_components_from *)
Definition weld_border_components_from (m : mesh) (starts : list N) : option mesh :=
  match starts with
  | [] => Some m
  | _ => r ← weld m starts ∅; Some r.1
  end.

(** ** add_triangle *)

(** mesh/triangle.rs 593-599: dir_is_free *)
Definition dir_is_free (m : mesh) (u v : N) : option bool :=
  match emap m !! (u, v) with
  | Some h => x ← getH m h; Some (negb (hrem x) && is_none (hface x))
  | None => Some true
  end.

(** [a && b && c] with Rust's short-circuit evaluation *)
Definition free3 (m : mesh) (e0 e1 e2 : N * N) : option bool :=
  a ← dir_is_free m e0.1 e0.2;
  if (a : bool) then
    b ← dir_is_free m e1.1 e1.2;
    if (b : bool) then dir_is_free m e2.1 e2.2 else Some false
  else Some false.

(** mesh/triangle.rs 603-614: unlink_border (with its debug_assert) *)
Definition unlink_border (m : mesh) (b : N) : option mesh :=
  x ← getH m b;
  _ ← assertb (is_none (hface x) && negb (hrem x));
  let p := hprev x in
  let n := hnext x in
  if negb (p =? b) && negb (n =? b)
  then m ← updH m p (with_next n); updH m n (with_prev p)
  else Some m.

(** mesh/triangle.rs 620-671: ensure_dir. Returns the mesh, the interior
    half-edge, whether a new border twin was created, and the old border
    neighbours (p, n) when a border was promoted. The second component of the
    Rust tuple (the twin) is never used by the caller and is dropped. *)
Definition ensure_dir (m : mesh) (f u v : N) : option (mesh * N * bool * option (N * N)) :=
  match emap m !! (u, v) with
  | Some he =>
      x ← getH m he;
      _ ← assertb (is_none (hface x));          (* panic!("Non-manifold mesh") *)
      let p := hprev x in
      let n := hnext x in
      m ← unlink_border m he;
      m ← updH m he (with_face (Some f));
      x ← getH m he;
      let t := htwin x in
      m ← (if t =? umax then Some m else updH m t (with_twin he));
      Some (m, he, false, Some (p, n))
  | None =>
      let he := nhes m in
      m ← pushH m (with_face (Some f) (he_new v));
      let m := em_insert m (u, v) he in
      match emap m !! (v, u) with
      | Some rev =>
          m ← updH m he (with_twin rev);
          m ← updH m rev (with_twin he);
          Some (m, he, false, None)
      | None =>
          let b := nhes m in
          m ← pushH m (with_prev b (with_next b (with_twin he (he_new u))));
          let m := em_insert m (v, u) b in
          m ← updH m he (with_twin b);
          Some (m, he, true, None)
      end
  end.

(** mesh/triangle.rs 726-732 *)
Definition link3 (m : mesh) (e0 e1 e2 : N) : option mesh :=
  m ← updH m e0 (with_next e1);
  m ← updH m e1 (with_prev e0);
  m ← updH m e1 (with_next e2);
  m ← updH m e2 (with_prev e1);
  m ← updH m e2 (with_next e0);
  updH m e0 (with_prev e2).

(** mesh/triangle.rs 707-716: the fail-fast assertion *)
Definition assert_unbound (m : mesh) (e : N * N) : option unit :=
  match emap m !! e with
  | Some h => x ← getH m h; assertb (is_none (hface x))
  | None => Some tt
  end.

Definition pn_list (o : option (N * N)) : list N :=
  match o with Some (p, n) => [p; n] | None => [] end.
Definition twin_if (c : bool) (m : mesh) (e : N) : option (list N) :=
  if c then x ← getH m e; Some [htwin x] else Some [].

(** [self.vertices[v].half_edge.get_or_insert(e)] *)
Definition anchor_if_none (e : N) (x : VX) : VX :=
  match vhe x with
  | Some _ => x
  | None => mkVX (vpos x) (Some e) (vrem x)
  end.

(** mesh/triangle.rs 783-795: debug postcondition on the starts *)
Definition no_self_loop (m : mesh) (b : N) : option unit :=
  if (b =? umax) || negb (b <? nhes m) then Some tt else
  x ← getH m b;
  if negb (hrem x) && is_none (hface x)
  then assertb (negb (hnext x =? b) && negb (hprev x =? b))
  else Some tt.
Fixpoint check_starts (m : mesh) (l : list N) : option unit :=
  match l with
  | [] => Some tt
  | b :: l => _ ← no_self_loop m b; check_starts m l
  end.

(** mesh/triangle.rs 706-797: the part of add_triangle after the orientation
    (a,b,c) has been chosen *)
Definition add_oriented (m : mesh) (a b c : N) : option (mesh * N) :=
  _ ← assert_unbound m (a, b);
  _ ← assert_unbound m (b, c);
  _ ← assert_unbound m (c, a);
  let f := nfaces m in
  m ← pushF m (mkFC 0 false);
  '(m, e0, n0, pn0) ← ensure_dir m f a b;
  '(m, e1, n1, pn1) ← ensure_dir m f b c;
  '(m, e2, n2, pn2) ← ensure_dir m f c a;
  m ← link3 m e0 e1 e2;
  s0 ← twin_if n0 m e0;
  s1 ← twin_if n1 m e1;
  s2 ← twin_if n2 m e2;
  let starts := s0 ++ s1 ++ s2 ++ pn_list pn0 ++ pn_list pn1 ++ pn_list pn2 in
  m ← weld_border_components_from m starts;
  m ← updF m f (λ x, mkFC e0 (frem x));
  m ← updV m a (anchor_if_none e0);
  m ← updV m b (anchor_if_none e1);
  m ← updV m c (anchor_if_none e2);
  _ ← check_starts m starts;
  Some (m, f).

(** mesh/triangle.rs 591-798: add_triangle. The eprintln! diagnostics of the
    blocked case are not modelled. *)
Definition add_triangle (m : mesh) (v0 v1 v2 : N) : option (mesh * N) :=
  ccw ← free3 m (v0, v1) (v1, v2) (v2, v0);
  cw ← free3 m (v0, v2) (v2, v1) (v1, v0);
  if (ccw : bool) then add_oriented m v0 v1 v2
  else if (cw : bool) then add_oriented m v0 v2 v1
  else Some (m, umax).

(** ** remove_triangle *)

(** mesh/triangle.rs 346-349: is_live *)
Definition is_live (m : mesh) (h : N) : bool :=
  match getH m h with Some x => negb (hrem x) | None => false end.

(** mesh/triangle.rs 353-357: key_pair *)
Definition key_pair (m : mesh) (h : N) : option (N * N) :=
  x ← getH m h;
  y ← getH m (htwin x);
  Some (hv y, hv x).

(** mesh/triangle.rs 360-377: remove_map_entry_if_owner (both branches of the
    Rust function do the same thing) *)
Definition remove_map_entry_if_owner (m : mesh) (h : N) : option mesh :=
  k ← key_pair m h;
  match emap m !! k with
  | Some owner => if owner =? h then Some (em_remove m k) else Some m
  | None => Some m
  end.

(** mesh/triangle.rs 381-397: splice_out_border *)
Definition splice_out_border (m : mesh) (b : N) : option mesh :=
  x ← getH m b;
  _ ← assertb (negb (hrem x));
  _ ← assertb (is_none (hface x));
  let bp := hprev x in
  let bn := hnext x in
  m ← updH m bp (with_next bn);
  m ← updH m bn (with_prev bp);
  m ← remove_map_entry_if_owner m b;
  updH m b (with_rem true).

(** mesh/triangle.rs 421-469: one iteration of Phase 1; returns the new borders *)
Definition remove_spoke (m : mesh) (he : N) : option (mesh * list (N * N)) :=
  if negb (is_live m he) then Some (m, []) else
  x ← getH m he;
  let twin := htwin x in
  _ ← assertb (twin <? nhes m);
  t ← getH m twin;
  opp_alive ← match hface t with
              | Some g => y ← getF m g; Some (negb (frem y))
              | None => Some false
              end;
  if (opp_alive : bool) then
    m ← updH m he (λ x, with_rem false (with_prev he (with_next he (with_face None x))));
    Some (m, [(he, twin)])
  else
    m ← (if is_live m twin && is_none (hface t) then splice_out_border m twin
         else if is_live m twin then
           m ← remove_map_entry_if_owner m twin; updH m twin (with_rem true)
         else Some m);
    m ← remove_map_entry_if_owner m he;
    m ← updH m he (with_rem true);
    Some (m, []).

(** mesh/triangle.rs 492-494: is_outgoing_from *)
Definition is_outgoing_from (m : mesh) (h v : N) : option bool :=
  if is_live m h then
    x ← getH m h; y ← getH m (hprev x); Some (hv y =? v)
  else Some false.

(** mesh/triangle.rs 496-514: normalize_to_outgoing *)
Definition normalize_to_outgoing (m : mesh) (h v : N) : option (option N) :=
  if negb (is_live m h) then Some None else
  o ← is_outgoing_from m h v;
  if (o : bool) then Some (Some h) else
  x ← getH m h;
  if hv x =? v then
    let t := htwin x in
    if (t <? nhes m) && is_live m t then
      o ← is_outgoing_from m t v;
      Some (if (o : bool) then Some t else None)
    else Some None
  else Some None.

(** mesh/triangle.rs 521-525 *)
Fixpoint quick_seeds (m : mesh) (v : N) (seeds : list N) : option (option N) :=
  match seeds with
  | [] => Some None
  | s :: seeds =>
      r ← normalize_to_outgoing m s v;
      match r with
      | Some h => Some (Some h)
      | None => quick_seeds m v seeds
      end
  end.

(** mesh/triangle.rs 531-545: bounded walk from one seed (24 steps) *)
Fixpoint local_walk (fuel : nat) (m : mesh) (v t : N) : option (option N) :=
  match fuel with
  | O => Some None
  | S fuel =>
      x ← getH m t;
      let nxt := hnext x in
      if negb (nxt <? nhes m) || negb (is_live m nxt) then Some None else
      y ← getH m nxt;
      let cand := htwin y in
      if negb (cand <? nhes m) || negb (is_live m cand) then Some None else
      r ← normalize_to_outgoing m cand v;
      match r with
      | Some h => Some (Some h)
      | None => local_walk fuel m v cand
      end
  end.

(** mesh/triangle.rs 527-546 *)
Fixpoint walk_seeds (m : mesh) (v : N) (seeds : list N) : option (option N) :=
  match seeds with
  | [] => Some None
  | s :: seeds =>
      if negb (is_live m s) then walk_seeds m v seeds else
      r ← local_walk 24 m v s;
      match r with
      | Some h => Some (Some h)
      | None => walk_seeds m v seeds
      end
  end.

(** mesh/triangle.rs 548-553: fallback scan over all half-edges *)
Fixpoint scan_outgoing (m : mesh) (v : N) (l : list N) : option (option N) :=
  match l with
  | [] => Some None
  | h :: l =>
      o ← is_outgoing_from m h v;
      if (o : bool) then Some (Some h) else scan_outgoing m v l
  end.

(** the index range 0..n as a list *)
Definition range (n : N) : list N := N.of_nat <$> seq 0 (N.to_nat n).

(** mesh/triangle.rs 515-554: find_any_outgoing *)
Definition find_any_outgoing (m : mesh) (v : N) (seeds : list N) : option (option N) :=
  r ← quick_seeds m v seeds;
  match r with
  | Some h => Some (Some h)
  | None =>
      r ← walk_seeds m v seeds;
      match r with
      | Some h => Some (Some h)
      | None => scan_outgoing m v (range (nhes m))
      end
  end.

(** mesh/triangle.rs 575-583: one iteration of Phase 3 *)
Definition fix_vertex (m : mesh) (seeds : list N) (v : N) : option mesh :=
  x ← getV m v;
  needs ← match vhe x with
          | Some h => o ← is_outgoing_from m h v; Some (negb o)
          | None => Some true
          end;
  if (needs : bool) then
    r ← find_any_outgoing m v seeds;
    updV m v (λ x, mkVX (vpos x) r (vrem x))
  else Some m.

(** mesh/triangle.rs 340-587: remove_triangle *)
Definition remove_triangle (m : mesh) (f : N) : option mesh :=
  fc ← getF m f;
  if frem fc then Some m else
  let he0 := fhe fc in
  x0 ← getH m he0;
  let he1 := hnext x0 in
  x1 ← getH m he1;
  let he2 := hnext x1 in
  x2 ← getH m he2;
  t0 ← getH m (htwin x0);
  t1 ← getH m (htwin x1);
  t2 ← getH m (htwin x2);
  m ← updF m f (λ x, mkFC (fhe x) true);
  '(m, l0) ← remove_spoke m he0;
  '(m, l1) ← remove_spoke m he1;
  '(m, l2) ← remove_spoke m he2;
  let nbs := l0 ++ l1 ++ l2 in
  r ← weld m (fst <$> nbs) ∅;
  let m := r.1 in
  y0 ← getH m he0;
  y1 ← getH m he1;
  y2 ← getH m he2;
  let tw t := if t <? nhes m then [t] else [] in
  let seeds := [he0; he1; he2] ++ tw (htwin y0) ++ tw (htwin y1) ++ tw (htwin y2)
               ++ concat ((λ p, p.1 :: tw p.2) <$> nbs) in
  m ← fix_vertex m seeds (hv t0);
  m ← fix_vertex m seeds (hv t1);
  m ← fix_vertex m seeds (hv t2);
  updF m f (λ x, mkFC he0 (frem x)).

(** mesh/topology.rs 478-488: face_vertices *)
Definition face_vertices (m : mesh) (f : N) : option (N * N * N) :=
  fc ← getF m f;
  x0 ← getH m (fhe fc);
  x1 ← getH m (hnext x0);
  p ← getH m (hprev x0);
  Some (hv p, hv x0, hv x1).

End mesh.
Arguments mesh P : clear implicits.
Arguments VX P : clear implicits.
