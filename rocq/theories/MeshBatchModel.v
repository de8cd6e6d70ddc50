(** Executable model of the batch edits of /repo/src/mesh/triangle.rs:
    add_triangles_deferred, remove_triangles_deferred and
    fix_vertices_outgoing_for.  The set of fix_vertices_outgoing_for is visited
    in hash order: [order] is any function that lists the elements of its
    argument without repetition. *)
From Verif Require Export MeshModel.
Local Open Scope N_scope.

Section batch.
Context {P : Type}.
Implicit Types (m : mesh P) (f h u v : N).

(** triangle.rs 887-931: ensure_dir_no_weld; the second component of the Rust
    tuple (the twin) is never used by the caller and is dropped *)
Definition ensure_dir_no_weld m (f u v : N) : option (mesh P * N * bool * option (N * N)) :=
  match emap m !! (u, v) with
  | Some he =>
      x ← getH m he;
      let p := hprev x in
      let n := hnext x in
      m ← (if negb (p =? he) && negb (n =? he)
           then m ← updH m p (with_next n); updH m n (with_prev p)
           else Some m);
      m ← updH m he (with_face (Some f));
      Some (m, he, false, Some (p, n))
  | None =>
      let he := nhes m in
      m ← pushH m (with_face (Some f) (he_new v));
      let m := em_insert m (u, v) he in
      match emap m !! (v, u) with
      | Some rev =>
          m ← updH m he (with_twin rev);
          m ← updH m rev (with_twin he);
          Some (m, he, false, None)
      | None =>
          let b := nhes m in
          m ← pushH m (with_prev b (with_next b (with_twin he (he_new u))));
          let m := em_insert m (v, u) b in
          m ← updH m he (with_twin b);
          Some (m, he, true, None)
      end
  end.

(** triangle.rs 846-874: add_triangle_no_weld once the orientation (a,b,c) is
    chosen; returns the mesh, the face and what is pushed on new_borders (what
    is pushed on affected_vertices is a, b, c) *)
Definition no_weld_oriented m (a b c : N) : option (mesh P * N * list N) :=
  let f := nfaces m in
  m ← pushF m (mkFC 0 false);
  '(m, e0, n0, pn0) ← ensure_dir_no_weld m f a b;
  '(m, e1, n1, pn1) ← ensure_dir_no_weld m f b c;
  '(m, e2, n2, pn2) ← ensure_dir_no_weld m f c a;
  m ← link3 m e0 e1 e2;
  s0 ← twin_if n0 m e0;
  s1 ← twin_if n1 m e1;
  s2 ← twin_if n2 m e2;
  let starts := s0 ++ s1 ++ s2 ++ pn_list pn0 ++ pn_list pn1 ++ pn_list pn2 in
  m ← updF m f (λ x, mkFC e0 (frem x));
  Some (m, f, starts).

(** triangle.rs 826-845: add_triangle_no_weld; the third and fourth results are
    appended to new_borders and affected_vertices *)
Definition add_triangle_no_weld m (v0 v1 v2 : N) : option (mesh P * N * list N * list N) :=
  ccw ← free3 m (v0, v1) (v1, v2) (v2, v0);
  cw ← free3 m (v0, v2) (v2, v1) (v1, v0);
  if (ccw : bool) then
    '(m, f, st) ← no_weld_oriented m v0 v1 v2; Some (m, f, st, [v0; v1; v2])
  else if (cw : bool) then
    '(m, f, st) ← no_weld_oriented m v0 v2 v1; Some (m, f, st, [v0; v2; v1])
  else Some (m, umax, [], []).

(** triangle.rs 805-810 *)
Fixpoint add_loop m (ts : list (N * N * N)) : option (mesh P * list N * list N * list N) :=
  match ts with
  | [] => Some (m, [], [], [])
  | (v0, v1, v2) :: ts =>
      '(m, f, st, av) ← add_triangle_no_weld m v0 v1 v2;
      '(m, fs, sts, avs) ← add_loop m ts;
      Some (m, (if f =? umax then fs else f :: fs), st ++ sts, av ++ avs)
  end.

(** triangle.rs 133-145: find_any_outgoing *)
Fixpoint find_any_scan m (v : N) (l : list N) : option (option N) :=
  match l with
  | [] => Some None
  | h :: l =>
      if negb (is_live m h) then find_any_scan m v l else
      x ← getH m h;
      touch ← (if hv x =? v then Some true else y ← getH m (htwin x); Some (hv y =? v));
      if (touch : bool) then
        r ← normalize_to_outgoing m h v;
        match r with Some h' => Some (Some h') | None => find_any_scan m v l end
      else find_any_scan m v l
  end.

(** triangle.rs 152-160 *)
Definition fix_outgoing_one m (v : N) : option (mesh P) :=
  x ← getV m v;
  needs ← match vhe x with
          | Some h => o ← is_outgoing_from m h v; Some (negb o)
          | None => Some true
          end;
  if (needs : bool) then
    r ← find_any_scan m v (range (nhes m));
    updV m v (λ x, mkVX (vpos x) r (vrem x))
  else Some m.

Fixpoint fix_outgoing_all m (vs : list N) : option (mesh P) :=
  match vs with
  | [] => Some m
  | v :: vs => m ← fix_outgoing_one m v; fix_outgoing_all m vs
  end.

Context (order : list N → list N).

(** triangle.rs 110-160: fix_vertices_outgoing_for *)
Definition fix_vertices_outgoing_for m (vs : list N) : option (mesh P) :=
  fix_outgoing_all m (order vs).

(** triangle.rs 800-824: add_triangles_deferred *)
Definition add_triangles_deferred m (ts : list (N * N * N)) : option (mesh P * list N) :=
  '(m, fs, sts, avs) ← add_loop m ts;
  m ← match sts with [] => Some m | _ => weld_border_components_from m sts end;
  m ← match avs with [] => Some m | _ => fix_vertices_outgoing_for m avs end;
  Some (m, fs).

(** triangle.rs 79-90: remove_map_entry_if_owner *)
Definition remove_map_if_owner m (h : N) : option (mesh P) :=
  if nhes m <=? h then Some m else
  x ← getH m h;
  let t := htwin x in
  if nhes m <=? t then Some m else
  y ← getH m t;
  match emap m !! (hv y, hv x) with
  | Some owner => Some (if owner =? h then em_remove m (hv y, hv x) else m)
  | None => Some m
  end.

(** triangle.rs 196-233: one spoke of a removed face; returns what is pushed on
    starts *)
Definition defer_spoke m (he : N) : option (mesh P * list N) :=
  if negb (is_live m he) then Some (m, []) else
  x ← getH m he;
  let twin := htwin x in
  t ← getH m twin;
  opp_alive ← match hface t with
              | Some g => y ← getF m g; Some (negb (frem y))
              | None => Some false
              end;
  if (opp_alive : bool) then
    m ← updH m he (λ x, with_rem false (with_prev he (with_next he (with_face None x))));
    Some (m, [he])
  else
    '(m, st) ← (if is_live m twin then
           m ← remove_map_if_owner m twin;
           m ← updH m twin (with_rem true);
           t ← getH m twin;
           let bp := hprev t in
           let bn := hnext t in
           Some (m, (if bp <? nhes m then [bp] else []) ++ (if bn <? nhes m then [bn] else []))
         else Some (m, []));
    m ← remove_map_if_owner m he;
    m ← updH m he (with_rem true);
    Some (m, st).

(** triangle.rs 180-237: one face of the list; returns what is pushed on starts
    and on affected_vs *)
Definition defer_face m (f : N) : option (mesh P * list N * list N) :=
  if nfaces m <=? f then Some (m, [], []) else
  fc ← getF m f;
  if frem fc then Some (m, [], []) else
  let he0 := fhe fc in
  x0 ← getH m he0;
  let he1 := hnext x0 in
  x1 ← getH m he1;
  let he2 := hnext x1 in
  x2 ← getH m he2;
  t0 ← getH m (htwin x0);
  t1 ← getH m (htwin x1);
  t2 ← getH m (htwin x2);
  m ← updF m f (λ x, mkFC (fhe x) true);
  '(m, l0) ← defer_spoke m he0;
  '(m, l1) ← defer_spoke m he1;
  '(m, l2) ← defer_spoke m he2;
  m ← updF m f (λ x, mkFC he0 (frem x));
  Some (m, l0 ++ l1 ++ l2, [hv t0; hv t1; hv t2]).

Fixpoint defer_loop m (fs : list N) : option (mesh P * list N * list N) :=
  match fs with
  | [] => Some (m, [], [])
  | f :: fs =>
      '(m, st, av) ← defer_face m f;
      '(m, sts, avs) ← defer_loop m fs;
      Some (m, st ++ sts, av ++ avs)
  end.

(** triangle.rs 239-250: the check of the debug build *)
Fixpoint defer_check m (l : list N) : option unit :=
  match l with
  | [] => Some tt
  | h :: l =>
      x ← getH m h;
      _ ← (if hrem x then
             k ← key_pair m h;
             match emap m !! k with
             | Some owner => assertb (negb (owner =? h))
             | None => Some tt
             end
           else Some tt);
      defer_check m l
  end.

(** triangle.rs 164-251: remove_triangles_deferred; returns the mesh, starts and
    affected_vs; [debug] selects the build with debug_assertions *)
Definition remove_triangles_deferred (debug : bool) m (fs : list N) : option (mesh P * list N * list N) :=
  '(m, sts, avs) ← defer_loop m fs;
  _ ← (if debug then defer_check m (range (nhes m)) else Some tt);
  Some (m, sts, avs).

(** mesh_processing/boolean.rs 1609-1639: rewrite_faces_from_cdt_batch; a job is
    its face_id and verts_global, a triangulation is the list of its triangles;
    zip stops at the shorter list; an index outside verts_global panics *)
Fixpoint rewrite_triangles (vs : list N) (ts : list (nat * nat * nat)) : option (list (N * N * N)) :=
  match ts with
  | [] => Some []
  | (i, j, k) :: ts =>
      a ← vs !! i; b ← vs !! j; c ← vs !! k;
      r ← rewrite_triangles vs ts;
      Some ((a, b, c) :: r)
  end.
Fixpoint rewrite_jobs (jobs : list (N * list N)) (cdts : list (list (nat * nat * nat)))
    : option (list N * list (N * N * N)) :=
  match jobs, cdts with
  | (f, vs) :: jobs, ts :: cdts =>
      t ← rewrite_triangles vs ts;
      r ← rewrite_jobs jobs cdts;
      Some (f :: r.1, t ++ r.2)
  | _, _ => Some ([], [])
  end.
Definition rewrite_faces_from_cdt_batch (debug : bool) m
    (jobs : list (N * list N)) (cdts : list (list (nat * nat * nat))) : option (mesh P) :=
  r ← rewrite_jobs jobs cdts;
  '(m, _, _) ← remove_triangles_deferred debug m r.1;
  '(m, _) ← add_triangles_deferred m r.2;
  Some m.
End batch.
