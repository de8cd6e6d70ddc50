(** Executable model of the building of triangulation jobs
    (/repo/src/mesh_processing/batching.rs 110-145 and 337-781) with the scalar
    CgarRational. [None] is a panic. *)
From Coq Require Import QArith.
From Verif Require Export BoolAllocModel.
From Verif Require GeomModel F64Model DelaunayFloat.
Local Open Scope N_scope.

Notation uv := (Q * Q)%type.
Notation f64 := F64Model.f64.

(** batching.rs 40-45: FaceJobUV *)
Record fjob := mkJob { j_face : N; j_verts : list N; j_uv : list uv; j_segs : list (nat * nat) }.

(** ** Tests in the plane of a face *)
(** cgar_rational.rs 123-125: ball_center_f64 *)
Definition ctr (p : uv) : f64 * f64 := (F64Model.Q_to_f64 p.1, F64Model.Q_to_f64 p.2).
Definition fcross (a b p : uv) : f64 :=
  let '(ax, ay) := ctr a in let '(bx, by_) := ctr b in let '(px, py) := ctr p in
  F64Model.fsub (F64Model.fmul (F64Model.fsub bx ax) (F64Model.fsub py ay)) (F64Model.fmul (F64Model.fsub by_ ay) (F64Model.fsub px ax)).
Definition feps (a b : uv) : f64 :=
  let '(ax, ay) := ctr a in let '(bx, by_) := ctr b in
  F64Model.fmul F64Model.EPS (DelaunayFloat.fmax (F64Model.fadd (F64Model.fabs (F64Model.fsub bx ax)) (F64Model.fabs (F64Model.fsub by_ ay))) F64Model.fone).
(** batching.rs 587-616: on_segment_uv_fast *)
Definition on_segment_uv_fast (a b p : uv) : bool :=
  let '(ax, ay) := ctr a in let '(bx, by_) := ctr b in let '(px, py) := ctr p in
  let eps := feps a b in
  if F64Model.fgt (F64Model.fabs (fcross a b p)) eps then false else
  let '(minx, maxx) := if F64Model.fle ax bx then (ax, bx) else (bx, ax) in
  let '(miny, maxy) := if F64Model.fle ay by_ then (ay, by_) else (by_, ay) in
  F64Model.fge px (F64Model.fsub minx eps) && F64Model.fle px (F64Model.fadd maxx eps) &&
  F64Model.fge py (F64Model.fsub miny eps) && F64Model.fle py (F64Model.fadd maxy eps).
(** batching.rs 618-631: param_t_uv *)
Definition param_t_uv (a b p : uv) : f64 :=
  let '(ax, ay) := ctr a in let '(bx, by_) := ctr b in let '(px, py) := ctr p in
  F64Model.fadd (F64Model.fmul (F64Model.fsub px ax) (F64Model.fsub bx ax)) (F64Model.fmul (F64Model.fsub py ay) (F64Model.fsub by_ ay)).
(** batching.rs 649-653: the guard against a degenerate segment *)
Definition same_uv (a b : uv) : bool :=
  let '(ax, ay) := ctr a in let '(bx, by_) := ctr b in
  F64Model.flt (F64Model.fabs (F64Model.fsub ax bx)) F64Model.EPS && F64Model.flt (F64Model.fabs (F64Model.fsub ay by_)) F64Model.EPS.
(** batching.rs 708-734: on_edge_with_t *)
Definition on_edge_with_t (a b p : uv) : bool * f64 :=
  let '(ax, ay) := ctr a in let '(bx, by_) := ctr b in let '(px, py) := ctr p in
  if F64Model.fgt (F64Model.fabs (fcross a b p)) (feps a b) then (false, F64Model.fzero) else
  let ux := F64Model.fsub bx ax in let uy := F64Model.fsub by_ ay in
  let vx := F64Model.fsub px ax in let vy := F64Model.fsub py ay in
  let dot := F64Model.fadd (F64Model.fmul ux vx) (F64Model.fmul uy vy) in
  let len2 := F64Model.fadd (F64Model.fmul ux ux) (F64Model.fmul uy uy) in
  if F64Model.fle len2 F64Model.fzero then (false, F64Model.fzero) else
  let t := F64Model.fdiv dot len2 in
  (F64Model.fge t (F64Model.fneg F64Model.EPS) && F64Model.fle t (F64Model.fadd F64Model.fone F64Model.EPS), t).

(** a stable sort, as [sort_by] is; two keys that do not compare count as equal *)
Section sort.
Context {A : Type} (key : A → f64).
Fixpoint put (x : A) (l : list A) : list A :=
  match l with
  | [] => [x]
  | y :: l => if F64Model.flt (key y) (key x) then y :: put x l else x :: y :: l
  end.
Definition by_key (l : list A) : list A := foldr put [] l.
End sort.

(** batching.rs 633-682: add_split_or_chain_uv. The segments it appends. *)
Fixpoint emit (prev : nat) (ms : list nat) (lb : nat) : list (nat * nat) :=
  match ms with
  | [] => if Nat.eqb prev lb then [] else [(prev, lb)]
  | k :: ms => (if Nat.eqb prev k then [] else [(prev, k)]) ++ emit k ms lb
  end.
Definition at_uv (pts : list uv) (k : nat) : uv := default (0%Q, 0%Q) (pts !! k).
Definition mids (pts : list uv) (la lb : nat) (a b : uv) : list nat :=
  filter (λ k, k ≠ la ∧ k ≠ lb ∧ Is_true (on_segment_uv_fast a b (at_uv pts k))) (seq 0 (length pts)).
Definition add_split_or_chain (pts : list uv) (la lb : nat) : option (list (nat * nat)) :=
  if Nat.eqb la lb then Some [] else
  a ← pts !! la;
  b ← pts !! lb;
  if same_uv a b then Some [] else
  Some (emit la (by_key (λ k, param_t_uv a b (at_uv pts k)) (mids pts la lb a b)) lb).

(** batching.rs 383-402: chain_on_edge. A parameter that passes the test is a number, so
    the comparison does not panic. *)
Definition chain_on_edge (pts : list uv) (i j : nat) : option (list nat) :=
  a ← pts !! i;
  b ← pts !! j;
  let hits := filter (λ k, Is_true (on_edge_with_t a b (at_uv pts k)).1) (seq 0 (length pts)) in
  Some (by_key (λ k, (on_edge_with_t a b (at_uv pts k)).2) hits).
(** batching.rs 684-706: seg_on_any_outer_edge *)
Definition on_outer (pts : list uv) (a b : nat) (e : nat * nat) : bool :=
  (on_edge_with_t (at_uv pts e.1) (at_uv pts e.2) (at_uv pts a)).1 && (on_edge_with_t (at_uv pts e.1) (at_uv pts e.2) (at_uv pts b)).1.
Definition seg_on_any_outer_edge (pts : list uv) (a b : nat) : bool :=
  existsb (on_outer pts a b) [(0, 1); (1, 2); (2, 0)]%nat.

(** batching.rs 500-503, 526-528: an undirected key *)
Definition und (a b : nat) : nat * nat := if Nat.ltb a b then (a, b) else (b, a).
Fixpoint windows (l : list nat) : list (nat * nat) :=
  match l with
  | a :: ((b :: _) as l') => (a, b) :: windows l'
  | _ => []
  end.
(** batching.rs 519-536: drop loops and repeated segments *)
Fixpoint dedupe (seen : gset (nat * nat)) (l : list (nat * nat)) : list (nat * nat) :=
  match l with
  | [] => []
  | (a, b) :: l =>
      if Nat.eqb a b then dedupe seen l else
      if bool_decide (und a b ∈ seen) then dedupe seen l else (a, b) :: dedupe ({[und a b]} ∪ seen) l
  end.
(** batching.rs 538-567: the segments that are kept *)
Definition keep (pts : list uv) (forced : gset (nat * nat)) (s : nat * nat) : bool :=
  let '(a, b) := s in
  if Nat.eqb a b then false else
  if bool_decide (und a b ∈ forced) then true else
  if Nat.ltb a 3 || Nat.ltb b 3 then seg_on_any_outer_edge pts a b else true.

(** ** One face *)
Section face.
Implicit Types (m : mesh p3) (f v : N).

(** the vertices and points of a job. g2l is the place in verts_global: both get every
    entry together. *)
Record local := mkLoc { l_verts : list N; l_uv : list uv }.
Fixpoint index_of (v : N) (l : list N) : option nat :=
  match l with
  | [] => None
  | w :: l => if w =? v then Some 0%nat else option_map S (index_of v l)
  end.
(** geometry/util.rs 69-106 *)
Definition bary m v (t : tri) : option uv :=
  p ← pos m v;
  r ← GeomModel.barycentric_coords (coords p) (coords t.1.1) (coords t.1.2) (coords t.2);
  Some (r.1.1, r.1.2).
(** batching.rs 110-145: push_vertex_uv_3 *)
Definition push_vertex m (t : tri) (st : local) v : option local :=
  match index_of v (l_verts st) with
  | Some _ => Some st
  | None => p ← bary m v t; Some (mkLoc (l_verts st ++ [v]) (l_uv st ++ [p]))
  end.
(** batching.rs 736-781: choose_vertex_on_face *)
Fixpoint first_touching m f (cands : list N) : option (option N) :=
  match cands with
  | [] => Some None
  | g :: cands =>
      if g <? nverts m then
        r ← vertex_touches_face m g f;
        if (r : bool) then Some (Some g) else first_touching m f cands
      else first_touching m f cands
  end.
Fixpoint nearest m (t : tri) (at_ : uv) (best : option (N * Q)) (cands : list N) : option (option (N * Q)) :=
  match cands with
  | [] => Some best
  | g :: cands =>
      if nverts m <=? g then nearest m t at_ best cands else
      p ← bary m g t;
      let du := (p.1 - at_.1)%Q in
      let dv := (p.2 - at_.2)%Q in
      let d2 := (du * du + dv * dv)%Q in
      nearest m t at_ (match best with Some (_, bd) => if GeomModel.qlt d2 bd then Some (g, d2) else best | None => Some (g, d2) end) cands
  end.
Definition choose_vertex_on_face m f (t : tri) (cands : list N) (at_ : uv) : option (option N) :=
  r ← first_touching m f cands;
  match r with
  | Some g => Some (Some g)
  | None => b ← nearest m t at_ None cands; Some (option_map fst b)
  end.
(** batching.rs 449-488: one end of a pair *)
Definition resolve_end m f (t : tri) (bv : list N) (st : local) v w : option (local * N) :=
  if v =? umax then Some (st, umax) else
  p ← bary m v t;
  r ← choose_vertex_on_face m f t [v; w] p;
  let g := default v r in
  if bool_decide (g ∈ bv) then Some (st, g) else st ← push_vertex m t st g; Some (st, g).
(** batching.rs 440-491: the resolved pairs *)
Fixpoint resolve m f (t : tri) (bv : list N) (st : local) (prs : list (N * N)) : option (local * list (N * N)) :=
  match prs with
  | [] => Some (st, [])
  | (va, vb) :: prs =>
      a ← resolve_end m f t bv st va vb;
      b ← resolve_end m f t bv a.1 vb va;
      r ← resolve m f t bv b.1 prs;
      Some (r.1, (a.2, b.2) :: r.2)
  end.
(** batching.rs 507-516: the segments of the resolved pairs *)
Definition chain_of (st : local) (pr : N * N) : option (list (nat * nat)) :=
  if (pr.1 =? umax) || (pr.2 =? umax) then Some [] else
  match index_of pr.1 (l_verts st), index_of pr.2 (l_verts st) with
  | Some la, Some lb => add_split_or_chain (l_uv st) la lb
  | _, _ => Some []
  end.
(** batching.rs 404-577: the job of one face that is not removed *)
Definition face_job m f (prs : list (N * N)) : option fjob :=
  '(ia, ib, ic) ← face_vertices m f;
  t ← face_tri m (ia, ib, ic);
  st ← push_vertex m t (mkLoc [] []) ia;
  st ← push_vertex m t st ib;
  st ← push_vertex m t st ic;
  r ← resolve m f t [ia; ib; ic] st prs;
  let st := r.1 in
  let pts := l_uv st in
  s0 ← add_split_or_chain pts 0 1; s1 ← add_split_or_chain pts 1 2; s2 ← add_split_or_chain pts 2 0;
  c0 ← chain_on_edge pts 0 1; c1 ← chain_on_edge pts 1 2; c2 ← chain_on_edge pts 2 0;
  let forced := list_to_set ((λ e, und e.1 e.2) <$> (windows c0 ++ windows c1 ++ windows c2)) in
  ss ← mapM (chain_of st) r.2;
  let segs := dedupe ∅ (s0 ++ s1 ++ s2 ++ concat ss) in
  Some (mkJob f (l_verts st) pts (filter (λ s, Is_true (keep pts forced s)) segs)).

(** batching.rs 350-385: the pairs of vertices for each face; [umax] marks a single vertex *)
Definition add_pair f (pr : N * N) (by_face : gmap N (list (N * N))) : gmap N (list (N * N)) :=
  <[f := default [] (by_face !! f) ++ [pr]]> by_face.
Definition add_end (face v : N) (hn : hints) (by_face : gmap N (list (N * N))) : gmap N (list (N * N)) :=
  match h_faces hn with
  | Some (f0, f1) => foldl (λ t f, if (f =? umax) || (f =? face) then t else add_pair f (v, umax) t) by_face [f0; f1]
  | None => by_face
  end.
Fixpoint pairs_by_face (l : list (gseg p3)) (by_face : gmap N (list (N * N))) : option (gmap N (list (N * N))) :=
  match l with
  | [] => Some by_face
  | s :: l =>
      if g_inv s then pairs_by_face l by_face else
      a ← g_va s;
      b ← g_vb s;
      if (a =? umax) || (b =? umax) || (a =? b) then pairs_by_face l by_face else
      pairs_by_face l (add_end (g_face s) b (g_b s) (add_end (g_face s) a (g_a s) (add_pair (g_face s) (a, b) by_face)))
  end.

(** batching.rs 337-585: build_face_pslgs_3; the hash map is walked in some [order] *)
Variable order : ∀ A : Type, list A → list A.
Definition job_of m (e : N * list (N * N)) : option (list fjob) :=
  x ← getF m e.1;
  if frem x then Some [] else j ← face_job m e.1 e.2; Some [j].
Definition build_face_pslgs_3 m (l : list (gseg p3)) : option (list fjob) :=
  t ← pairs_by_face l ∅;
  js ← mapM (job_of m) (order _ (map_to_list t));
  Some (concat js).
End face.
