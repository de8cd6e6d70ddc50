(** Executable model of the building of triangulation jobs for meshes of the plane
    (/repo/src/mesh_processing/batching.rs 92-108, 142-313 and 315-331) with the scalar
    CgarRational. [None] is a panic. The helpers shared with the jobs in space are those of
    BoolPslgModel. *)
From Coq Require Import QArith.
From Verif Require Export BoolPslgModel.
Local Open Scope N_scope.

Section face.
Implicit Types (m : mesh p2) (f v : N).

(** batching.rs 92-108: push_vertex_uv_2 *)
Definition push_vertex_2 m (st : local) v : option local :=
  match index_of v (l_verts st) with
  | Some _ => Some st
  | None => p ← pos m v; Some (mkLoc (l_verts st ++ [v]) (l_uv st ++ [p]))
  end.
(** batching.rs 216-228: one end of a pair *)
Definition add_vertex_2 m (bv : list N) (st : local) v : option local :=
  if negb (v =? umax) && negb (bool_decide (v ∈ bv)) then push_vertex_2 m st v else Some st.
(** batching.rs 214-234: the resolved pairs *)
Fixpoint resolve_2 m (bv : list N) (st : local) (prs : list (N * N)) : option (local * list (N * N)) :=
  match prs with
  | [] => Some (st, [])
  | (va, vb) :: prs =>
      st ← add_vertex_2 m bv st va;
      st ← add_vertex_2 m bv st vb;
      r ← resolve_2 m bv st prs;
      Some (r.1, if negb (va =? umax) && negb (vb =? umax) && negb (va =? vb) then (va, vb) :: r.2 else r.2)
  end.
(** batching.rs 197-308: the job of one face that is not removed; chain_on_edge of 315-331
    is the one of BoolPslgModel *)
Definition face_job_2 m f (prs : list (N * N)) : option fjob :=
  '(ia, ib, ic) ← face_vertices m f;
  st ← push_vertex_2 m (mkLoc [] []) ia;
  st ← push_vertex_2 m st ib;
  st ← push_vertex_2 m st ic;
  r ← resolve_2 m [ia; ib; ic] st prs;
  let st := r.1 in
  let pts := l_uv st in
  s0 ← add_split_or_chain pts 0 1; s1 ← add_split_or_chain pts 1 2; s2 ← add_split_or_chain pts 2 0;
  c0 ← chain_on_edge pts 0 1; c1 ← chain_on_edge pts 1 2; c2 ← chain_on_edge pts 2 0;
  let forced := list_to_set ((λ e, und e.1 e.2) <$> (windows c0 ++ windows c1 ++ windows c2)) in
  ss ← mapM (chain_of st) r.2;
  let segs := dedupe ∅ (s0 ++ s1 ++ s2 ++ concat ss) in
  Some (mkJob f (l_verts st) pts (filter (λ s, Is_true (keep pts forced s)) segs)).

(** batching.rs 158-194: the pairs of vertices for each face; [umax] marks a single vertex *)
Definition add_end_2 (face v : N) (hn : hints) (by_face : gmap N (list (N * N))) : gmap N (list (N * N)) :=
  if v =? umax then by_face else add_end face v hn by_face.
Fixpoint pairs_by_face_2 (l : list (gseg p2)) (by_face : gmap N (list (N * N))) : option (gmap N (list (N * N))) :=
  match l with
  | [] => Some by_face
  | s :: l =>
      if g_inv s then pairs_by_face_2 l by_face else
      a ← g_va s;
      b ← g_vb s;
      if (a =? umax) && (b =? umax) then pairs_by_face_2 l by_face else
      pairs_by_face_2 l (add_end_2 (g_face s) b (g_b s) (add_end_2 (g_face s) a (g_a s) (add_pair (g_face s) (a, b) by_face)))
  end.

(** batching.rs 142-313: build_face_pslgs_2; the hash map is walked in some [order] *)
Variable order : ∀ A : Type, list A → list A.
Definition job_of_2 m (e : N * list (N * N)) : option (list fjob) :=
  x ← getF m e.1;
  if frem x then Some [] else j ← face_job_2 m e.1 e.2; Some [j].
Definition build_face_pslgs_2 m (l : list (gseg p2)) : option (list fjob) :=
  t ← pairs_by_face_2 l ∅;
  js ← mapM (job_of_2 m) (order _ (map_to_list t));
  Some (concat js).
End face.

(** ** Allocation of vertices in the plane *)
(** boolean.rs 66-83 with N = 2; the third number is always 0 and left out *)
Definition point_key_2 (p : p2) : Z * Z :=
  let s := F64Model.fdiv F64Model.fone merge_tol in
  let q (x : Q) := round_i64 (F64Model.fmul (F64Model.Q_to_f64 x) s) in
  (q p.1, q p.2).
(** core.rs 517-572, see [rat_hit] of BoolAllocModel *)
Definition rat_hit_2 (q p : p2) : bool := Z.eqb (rat_cell [q.1; q.2]) (rat_cell [p.1; p.2]) && rat_near [q.1; q.2] [p.1; p.2].
(** boolean.rs 1382-1605 for meshes of the plane *)
Definition allocate_2 (m : mesh p2) (l : list (gseg p2)) : option (mesh p2 * list (gseg p2)) :=
  allocate_vertices point_key_2 rat_hit_2 u_low u_high bucket_u m l.
