(** Executable model of the edge collapse of /repo/src/mesh/edge_collapse.rs.

    The geometry is left to two parameters: [mid], the placement Midpoint (lines
    86-101), and [thin], the area test of verify_collapse_prereqs (lines 240-246
    together with tri_area2_after_move_face, 264-289).  Hash sets are lists; the
    iteration order of the bucket map is the parameter [border1] for the first
    pass and [border2] for the second. *)
From Verif Require Export MeshQueryModel.
Local Open Scope N_scope.

(** edge_collapse.rs 45-54: CollapseReject *)
Inductive creject := NotAdjacent | BorderForbidden | LinkCondition | DuplicateEdges
  | TwoGon | DegenerateFace | NormalFlip | InternalError.

(** edge_collapse.rs 462-464: struct PairDir, with its key *)
Record bucket := mkB { bkey : N * N; bd0 : list N; bd1 : list N }.

(** mesh/basic_types.rs 127-143: struct PairRing, the fields read here *)
Record pring := mkPR {
  pr0 : vring; pr1 : vring; pi0 : nat; pi1 : nat; pra : option N; prb : option N }.

Section collapse.
Context {P : Type} (mid : P → P → P) (thin : P → P → P → bool).
Context (border1 border2 : list bucket → list bucket).
Implicit Types (m : mesh P) (h f u v : N).

(** topology.rs 1936-1983: ring_pair *)
Fixpoint pos_of (h : N) (l : list (N * N * option N)) (i : nat) : option nat :=
  match l with
  | [] => None
  | t :: l => if fst (fst t) =? h then Some i else pos_of h l (S i)
  end.

Definition ring_pair_full m (v0 v1 : N) : option (option pring) :=
  if v0 =? v1 then Some None else
  match emap m !! (v0, v1), emap m !! (v1, v0) with
  | Some h01, Some h10 =>
      r0 ← vertex_ring_ccw m v0;
      r1 ← vertex_ring_ccw m v1;
      match pos_of h01 (ring_spokes r0) 0, pos_of h10 (ring_spokes r1) 0 with
      | Some i0, Some i1 =>
          t0 ← ring_spokes r0 !! i0;
          t1 ← ring_spokes r1 !! i1;
          _ ← assertb (snd (fst t0) =? v1);
          _ ← assertb (snd (fst t1) =? v0);
          oa ← opposite m h01;
          ob ← opposite m h10;
          Some (Some (mkPR r0 r1 i0 i1 oa ob))
      | _, _ => Some None
      end
  | _, _ => Some None
  end.

(** edge_collapse.rs 105-124: rings_adjacency_ok *)
Definition rings_adjacency_ok m (pr : pring) (v0 v1 : N) : bool :=
  match emap m !! (v0, v1), emap m !! (v1, v0) with
  | Some h01, Some h10 =>
      match ring_spokes (pr0 pr) !! pi0 pr, ring_spokes (pr1 pr) !! pi1 pr with
      | Some t0, Some t1 =>
          (fst (fst t0) =? h01) && (fst (fst t1) =? h10) &&
          (snd (fst t0) =? v1) && (snd (fst t1) =? v0)
      | _, _ => false
      end
  | _, _ => false
  end.

(** edge_collapse.rs 127-146: neighbor_sets_excluding_endpoints *)
Definition nbrs_excluding (r : vring) (v0 v1 : N) : list N :=
  filter (λ x, x ≠ v1 ∧ x ≠ v0) ((λ t, snd (fst t)) <$> ring_spokes r).

Definition opp_list (pr : pring) : list N :=
  match pra pr with Some a => [a] | None => [] end ++ match prb pr with Some b => [b] | None => [] end.

(** edge_collapse.rs 149-151: opposites_count *)
Definition opposites_count (pr : pring) : nat := length (opp_list pr).

(** the intersection of the two neighbour sets *)
Definition common_of (pr : pring) (v0 v1 : N) : list N :=
  filter (λ x, x ∈ nbrs_excluding (pr1 pr) v0 v1) (nbrs_excluding (pr0 pr) v0 v1).

(** edge_collapse.rs 156-173: check_link_condition_triangle *)
Definition check_link_condition_triangle m (v0 v1 : N) : option bool :=
  r ← ring_pair_full m v0 v1;
  match r with
  | None => Some false
  | Some pr =>
      if negb (rings_adjacency_ok m pr v0 v1) then Some false else
      let common := common_of pr v0 v1 in
      match opposites_count pr with
      | 1%nat | 2%nat => Some (bool_decide (Forall (λ x, x ∈ opp_list pr) common) &&
                         bool_decide (Forall (λ x, x ∈ common) (opp_list pr)))
      | _ => Some false
      end
  end.

(** edge_collapse.rs 176-188: would_create_duplicate_edges *)
Definition would_create_duplicate_edges m (v0 v1 : N) : option bool :=
  r ← ring_pair_full m v0 v1;
  match r with
  | None => Some true
  | Some pr =>
      if negb (rings_adjacency_ok m pr v0 v1) then Some true else
      Some (match filter (λ x, x ∉ opp_list pr) (common_of pr v0 v1) with [] => false | _ => true end)
  end.

(** edge_collapse.rs 191-200: would_create_2gons *)
Definition would_create_2gons m (v0 v1 : N) : option bool :=
  r ← ring_pair_full m v0 v1;
  match r with
  | None => Some true
  | Some pr =>
      if negb (rings_adjacency_ok m pr v0 v1) then Some true else
      Some (match pra pr, prb pr with
            | Some a, Some b => a =? b
            | Some _, None | None, Some _ => false
            | None, None => true
            end)
  end.

(** edge_collapse.rs 251-262: surviving_faces_after_collapse *)
Fixpoint survivors_of m (u v : N) (fs : list N) : option (list N) :=
  match fs with
  | [] => Some []
  | f :: fs =>
      t ← face_vertices m f;
      let '(a, b, c) := t in
      l ← survivors_of m u v fs;
      Some (if ((a =? u) || (b =? u) || (c =? u)) && ((a =? v) || (b =? v) || (c =? v))
            then l else f :: l)
  end.
Definition surviving_faces m (u v : N) : option (list N) :=
  s0 ← incident_faces m u;
  s1 ← incident_faces m v;
  survivors_of m u v (s0 ++ s1).

(** edge_collapse.rs 240-247: is some survivor degenerate at [p]? *)
Definition moved_pos m (u v : N) (p : P) (i : N) : option P :=
  if (i =? u) || (i =? v) then Some p else x ← getV m i; Some (vpos x).
Fixpoint some_thin m (u v : N) (p : P) (fs : list N) : option bool :=
  match fs with
  | [] => Some false
  | f :: fs =>
      t ← face_vertices m f;
      let '(a, b, c) := t in
      pa ← moved_pos m u v p a;
      pb ← moved_pos m u v p b;
      pc ← moved_pos m u v p c;
      if thin pa pb pc then Some true else some_thin m u v p fs
  end.

(** edge_collapse.rs 203-249: verify_collapse_prereqs *)
Definition verify_collapse_prereqs (forbid_border : bool) m (v0 v1 : N) : option (P + creject) :=
  r ← ring_pair_full m v0 v1;
  match r with
  | None => Some (inr NotAdjacent)
  | Some pr =>
      if negb (rings_adjacency_ok m pr v0 v1) then Some (inr NotAdjacent) else
      if forbid_border && (opposites_count pr =? 1)%nat then Some (inr BorderForbidden) else
      link ← check_link_condition_triangle m v0 v1;
      if negb link then Some (inr LinkCondition) else
      dup ← would_create_duplicate_edges m v0 v1;
      if (dup : bool) then Some (inr DuplicateEdges) else
      two ← would_create_2gons m v0 v1;
      if (two : bool) then Some (inr TwoGon) else
      x0 ← getV m v0;
      x1 ← getV m v1;
      let p := mid (vpos x0) (vpos x1) in
      fs ← surviving_faces m v0 v1;
      bad ← some_thin m v0 v1 p fs;
      Some (if (bad : bool) then inr DegenerateFace else inl p)
  end.

(** edge_collapse.rs 344-347: he_from *)
Definition he_from m h : option N := x ← getH m h; y ← getH m (hprev x); Some (hv y).

(** edge_collapse.rs 356-393: collect_all_neighbors_fast; the set is never read,
    only its traversal can fail *)
Fixpoint nbr_walk (fuel : nat) m (start cur : N) : option unit :=
  match fuel with
  | O => None
  | S fuel =>
      x ← getH m cur;
      if htwin x =? umax then Some tt else
      y ← getH m (htwin x);
      if hnext y =? start then Some tt else nbr_walk fuel m start (hnext y)
  end.
Definition nbr_walk_at m v : option unit :=
  x ← getV m v;
  match vhe x with Some s => nbr_walk (fuel_of m) m s s | None => Some tt end.

(** edge_collapse.rs 669-690: collect_incident_half_edges *)
Fixpoint incident_walk (fuel : nat) m (start cur : N) : option (list N) :=
  match fuel with
  | O => None
  | S fuel =>
      x ← getH m cur;
      if htwin x =? umax then Some [cur] else
      y ← getH m (htwin x);
      if hnext y =? start then Some [cur; htwin x] else
      l ← incident_walk fuel m start (hnext y);
      Some (cur :: htwin x :: l)
  end.
Definition collect_incident m v : option (list N) :=
  x ← getV m v;
  match vhe x with Some s => incident_walk (fuel_of m) m s s | None => Some [] end.

(** edge_collapse.rs 643-647: clear_edge_map_incident *)
Definition clear_edge_map_incident m (u v : N) : mesh P :=
  set_emap (filter (λ kv, fst (fst kv) ≠ u ∧ fst (fst kv) ≠ v ∧ snd (fst kv) ≠ u ∧ snd (fst kv) ≠ v)
              (emap m)) m.

(** edge_collapse.rs 424-432: step 5 *)
Fixpoint retarget m (u v : N) (rs l : list N) : option (mesh P) :=
  match l with
  | [] => Some m
  | h :: l =>
      x ← getH m h;
      m ← (if hrem x then Some m else
           if bool_decide (h ∈ rs) then Some m else
           if hv x =? v then updH m h (with_hv u) else Some m);
      retarget m u v rs l
  end.

(** edge_collapse.rs 449-461: step 8 *)
Fixpoint drop_edges m (rs : list N) : option (mesh P) :=
  match rs with
  | [] => Some m
  | h :: rs =>
      x ← getH m h;
      let twin := htwin x in
      m ← (if twin =? umax then Some m else
           y ← getH m twin;
           if hrem y then Some m else updH m twin (with_twin umax));
      m ← updH m h (λ x, mkHE (hv x) None h h umax true);
      drop_edges m rs
  end.

(** edge_collapse.rs 475-491: the buckets; [badd] is entry(..).or_insert(..) and
    the push on one of the two lists *)
Fixpoint badd (k : N * N) (fwd : bool) (h : N) (bs : list bucket) : list bucket :=
  match bs with
  | [] => [if fwd then mkB k [h] [] else mkB k [] [h]]
  | b :: bs =>
      if bool_decide (bkey b = k)
      then (if fwd then mkB k (bd0 b ++ [h]) (bd1 b) else mkB k (bd0 b) (bd1 b ++ [h])) :: bs
      else b :: badd k fwd h bs
  end.
Fixpoint build_buckets m (rs l : list N) (bs : list bucket) : option (list bucket) :=
  match l with
  | [] => Some bs
  | h :: l =>
      x ← getH m h;
      if hrem x then build_buckets m rs l bs else
      if bool_decide (h ∈ rs) then build_buckets m rs l bs else
      src ← he_from m h;
      let dst := hv x in
      let a := N.min src dst in
      let b := N.max src dst in
      build_buckets m rs l (badd (a, b) (src =? a) h bs)
  end.

(** edge_collapse.rs 494-526 and 529-561: the two passes over the buckets *)
Fixpoint kill_all m (l : list N) : option (mesh P) :=
  match l with
  | [] => Some m
  | h :: l => m ← updH m h (with_rem true); kill_all m l
  end.
Definition do_bucket m (b : bucket) : option (mesh P) :=
  m ← match head (bd0 b), head (bd1 b) with
      | Some h0, Some h1 =>
          m ← updH m h0 (with_twin h1);
          m ← updH m h1 (with_twin h0);
          (* edge_map_insert_bidir, lines 349-354 *)
          x ← getH m h0;
          Some (em_insert (em_insert m (bkey b) h0) (snd (bkey b), fst (bkey b)) (htwin x))
      | Some h, None | None, Some h =>
          src ← he_from m h;
          x ← getH m h;
          Some (em_insert m (src, hv x) h)
      | None, None => Some m
      end;
  m ← kill_all m (tail (bd0 b));
  kill_all m (tail (bd1 b)).
Fixpoint do_buckets m (bs : list bucket) : option (mesh P) :=
  match bs with
  | [] => Some m
  | b :: bs => m ← do_bucket m b; do_buckets m bs
  end.

(** is the anchor of a vertex unusable? (lines 573-577 and 591-601) *)
Definition anchor_bad m (x : VX P) v : option bool :=
  match vhe x with
  | None => Some true
  | Some h =>
      if nhes m <=? h then Some true else
      y ← getH m h;
      if hrem y then Some true else
      src ← he_from m h;
      Some (negb (src =? v))
  end.

(** edge_collapse.rs 563-583 *)
Fixpoint fix_sources m (l : list N) (fixed : gset N) : option (mesh P) :=
  match l with
  | [] => Some m
  | h :: l =>
      x ← getH m h;
      if hrem x then fix_sources m l fixed else
      vid ← he_from m h;
      y ← getV m vid;
      if vrem y || bool_decide (vid ∈ fixed) then fix_sources m l fixed else
      bad ← anchor_bad m y vid;
      m ← (if (bad : bool) then updV m vid (λ y, mkVX (vpos y) (Some h) (vrem y)) else Some m);
      fix_sources m l ({[vid]} ∪ fixed)
  end.

(** edge_collapse.rs 606-613: the scan for a half-edge leaving [v] *)
Fixpoint scan_from m v (l : list N) : option (option N) :=
  match l with
  | [] => Some None
  | h :: l =>
      x ← getH m h;
      if hrem x then scan_from m v l else
      src ← he_from m h;
      if src =? v then Some (Some h) else scan_from m v l
  end.

(** edge_collapse.rs 585-615: step 11 *)
Fixpoint fix_targets m (l : list N) : option (mesh P) :=
  match l with
  | [] => Some m
  | h :: l =>
      x ← getH m h;
      let vid := hv x in
      y ← getV m vid;
      if vrem y then fix_targets m l else
      bad ← anchor_bad m y vid;
      m ← (if (bad : bool)
           then r ← scan_from m vid (range (nhes m));
                updV m vid (λ y, mkVX (vpos y) r (vrem y))
           else Some m);
      fix_targets m l
  end.

(** edge_collapse.rs 395-636: collapse_edge_commit; [inr] is Err *)
Definition collapse_edge_commit m (u v : N) (p : P) : option (mesh P * option creject) :=
  if u =? v then Some (m, Some InternalError) else
  match emap m !! (u, v) with
  | None => Some (m, Some InternalError)
  | Some he_uv =>
      x ← getH m he_uv;
      let he_vu := htwin x in
      if he_vu =? umax then Some (m, Some InternalError) else
      y ← getH m he_vu;
      if hrem y then Some (m, Some InternalError) else
      let he_va := hnext x in
      let he_au := hprev x in
      let he_ub := hnext y in
      let he_bv := hprev y in
      left ← match hface x with
             | Some f => z ← getF m f; Some (if frem z then None else Some f)
             | None => Some None
             end;
      right ← match hface y with
             | Some f => z ← getF m f; Some (if frem z then None else Some f)
             | None => Some None
             end;
      sl ← (if is_some (left : option N) then a ← getH m he_au; b ← getH m he_va; Some (hprev a, hnext b)
            else Some (umax, umax));
      sr ← (if is_some (right : option N) then a ← getH m he_bv; b ← getH m he_ub; Some (hprev a, hnext b)
            else Some (umax, umax));
      let rs := [he_uv; he_vu; he_va; he_au; he_ub; he_bv] in
      au ← collect_incident m u;
      av ← collect_incident m v;
      let all := au ++ av in
      _ ← nbr_walk_at m u;
      _ ← nbr_walk_at m v;
      let m := clear_edge_map_incident m u v in
      m ← retarget m u v rs av;
      m ← (if is_some left then m ← updH m (fst sl) (with_next (snd sl)); updH m (snd sl) (with_prev (fst sl)) else Some m);
      m ← (if is_some right then m ← updH m (fst sr) (with_next (snd sr)); updH m (snd sr) (with_prev (fst sr)) else Some m);
      m ← match left with Some f => updF m f (λ z, mkFC (fhe z) true) | None => Some m end;
      m ← match right with Some f => updF m f (λ z, mkFC (fhe z) true) | None => Some m end;
      m ← drop_edges m rs;
      m ← updV m u (λ z, mkVX p (vhe z) (vrem z));
      m ← updV m v (λ z, mkVX (vpos z) None true);
      bs ← build_buckets m rs all [];
      m ← do_buckets m (border1 bs);
      m ← do_buckets m (border2 bs);
      m ← fix_sources m all ∅;
      m ← fix_targets m all;
      Some (m, None)
  end.

(** edge_collapse.rs 649-667 with collapse_edge_begin_vertices 321-341 and the
    default options 65-79 (forbid_border is false) *)
Definition collapse_edge m (u v : N) : option (mesh P * option creject) :=
  r ← ring_pair_full m u v;
  match r with
  | None => Some (m, Some NotAdjacent)
  | Some _ =>
      g ← verify_collapse_prereqs false m u v;
      match g with
      | inr e => Some (m, Some e)
      | inl p =>
          c ← collapse_edge_commit m u v p;
          let '(m, e) := c in
          Some (m, match e with Some _ => Some NotAdjacent | None => None end)
      end
  end.
End collapse.
