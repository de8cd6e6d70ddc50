(** Vocabulary for the allocation of vertices for intersection segments: where ends are,
    how a mesh may grow, which vertex an end may get. *)
From Coq Require Import QArith Qabs.
From Verif Require Export BoolAllocModel MeshSpec.
From Verif Require GeomSpec.
Local Open Scope N_scope.

Section spec.
Context {P K : Type}.
Variable key : P → K.
Variable hit : P → P → bool.
Implicit Types (m : mesh P) (h : hints) (p q : P) (s t : gseg P) (l : list (gseg P)) (i v : N).

(** the three kinds of hints made by the search for segments *)
Definition at_vertex h i : Prop := h = mkHints (Some (i, umax)) None None None None.
Definition on_edge m h : Prop :=
  ∃ i j e u f g, h = mkHints (Some (i, j)) (Some e) (Some u) (Some (f, g)) None ∧ runs m e i j ∧ live_face m f.
Definition inside h (f : N) : Prop := ∃ w, h = mkHints None None None (Some (f, umax)) (Some w).
Definition hints_ok m h : Prop :=
  (∃ i, at_vertex h i ∧ i < nverts m) ∨ on_edge m h ∨ (∃ f, inside h f ∧ live_face m f).

(** [h] and [p] are the hints and the point of an end of a segment in use *)
Definition end_of l h p : Prop :=
  ∃ s, s ∈ l ∧ g_inv s = false ∧ ((h = g_a s ∧ p = g_pa s) ∨ (h = g_b s ∧ p = g_pb s)).
Definition ends_ok m l : Prop := ∀ h p, end_of l h p → hints_ok m h.

(** vertex [v] answers a search for [p] *)
Definition answers m v p : Prop := ∃ x, verts m !! v = Some x ∧ hit (vpos x) p = true.

(** [m'] is [m] with further vertices; each is at an end where no earlier vertex
    answered, and belongs to no face *)
Record grown m l m' : Prop := {
  gr_hes : hes m' = hes m ∧ nhes m' = nhes m;
  gr_faces : faces m' = faces m ∧ nfaces m' = nfaces m;
  gr_emap : emap m' = emap m;
  gr_verts : nverts m ≤ nverts m' ∧ ∀ v, v < nverts m → verts m' !! v = verts m !! v;
  gr_new : ∀ v, nverts m ≤ v → v < nverts m' → ∃ h p, end_of l h p ∧ (∀ i, ¬ at_vertex h i) ∧
    verts m' !! v = Some (mkVX p None false) ∧ ∀ w, w < v → ¬ answers m' w p }.

(** [v] may be given to the end with hints [h] at [p]:
    - on a vertex: the vertex named by an end on a vertex with the same key;
    - inside a face: a vertex that answers for an end inside the same face with the same key;
    - on an edge: the same as for an end on a vertex, if there is one with the same key;
      otherwise a vertex that answers for [p]. *)
Definition vertex_with_key l (k : K) i : Prop := ∃ h p, end_of l h p ∧ at_vertex h i ∧ key p = k.
Definition gets m' l h p v : Prop :=
  ((∃ i, at_vertex h i) → vertex_with_key l (key p) v) ∧
  (∀ f, inside h f → ∃ h' p', end_of l h' p' ∧ inside h' f ∧ key p' = key p ∧ answers m' v p') ∧
  (h_he h ≠ None → vertex_with_key l (key p) v ∨ (∀ i, ¬ vertex_with_key l (key p) i) ∧ answers m' v p).

(** the faces recorded with an end afterwards *)
Definition faces_after (face : N) h : option (N * N) :=
  match h_faces h with Some fs => Some fs | None => Some (face, umax) end.
(** the end of [s] with hints [h] at [p] is allotted: its vertex is [v], its hints are [h'] *)
Definition end_allotted m' l (face : N) h p h' v : Prop :=
  gets m' l h p v ∧ h' = mkHints (Some (v, umax)) None None (faces_after face h) None.

(** segment [s] becomes [t] *)
Definition allotted m' l s t : Prop :=
  g_pa t = g_pa s ∧ g_pb t = g_pb s ∧ g_face t = g_face s ∧ g_cop t = g_cop s ∧ g_inv t = g_inv s ∧
  if g_inv s then g_a t = g_a s ∧ g_b t = g_b s
  else ∃ v w, g_va t = Some v ∧ g_vb t = Some w ∧
    end_allotted m' l (g_face s) (g_a s) (g_pa s) (g_a t) v ∧
    end_allotted m' l (g_face s) (g_b s) (g_pb s) (g_b t) w.

(** the vertex given to an end *)
Definition given l l' h p v : Prop :=
  ∃ n s t, l !! n = Some s ∧ l' !! n = Some t ∧ g_inv s = false ∧
    ((h = g_a s ∧ p = g_pa s ∧ g_va t = Some v) ∨ (h = g_b s ∧ p = g_pb s ∧ g_vb t = Some v)).

(** ** When nothing is merged by mistake. [eqv] is equality of points. *)
Variable eqv : P → P → Prop.
(** vertex [v] stands at [p] *)
Definition stands m v p : Prop := ∃ x, verts m !! v = Some x ∧ eqv (vpos x) p.
(** different points of ends have different keys *)
Definition keys_tell l : Prop := ∀ h p h' q, end_of l h p → end_of l h' q → key p = key q → eqv p q.
(** among the vertices of the mesh and the ends, only equal points answer for each other *)
Definition point_of m l p : Prop := (∃ v x, verts m !! v = Some x ∧ vpos x = p) ∨ ∃ h, end_of l h p.
Definition hits_tell m l : Prop := ∀ q p, point_of m l q → point_of m l p → hit q p = true ↔ eqv q p.
(** an end on a vertex is at its position *)
Definition vertices_right m l : Prop := ∀ h p i, end_of l h p → at_vertex h i → stands m i p.
(** no two vertices at the same place *)
Definition no_double m : Prop := ∀ v w x y, verts m !! v = Some x → verts m !! w = Some y → eqv (vpos x) (vpos y) → v = w.
End spec.

(** ** The scalar CgarRational *)
Notation eq3 := GeomSpec.eq3.
Definition allocate (m : mesh p3) (l : list (gseg p3)) : option (mesh p3 * list (gseg p3)) :=
  allocate_vertices point_key rat_hit u_low u_high bucket_u m l.
(** no coordinate differs by more than [d] *)
Definition within (d : Q) (p q : p3) : Prop :=
  let '(x, y, z) := p in let '(x', y', z') := q in
  (Qabs (x - x') <= d ∧ Qabs (y - y') <= d ∧ Qabs (z - z') <= d)%Q.
Definition around_origin (p : p3) : Prop :=
  let '(x, y, z) := p in (Qabs x <= 1000 ∧ Qabs y <= 1000 ∧ Qabs z <= 1000)%Q.
(** 1.001 millionths *)
Definition cell : Q := 1001 # 1000000000.
(** the vertices and the ends are around the origin; two of them at different places
    differ by more than 1.001 millionths in some coordinate *)
Definition separated (m : mesh p3) (l : list (gseg p3)) : Prop :=
  ∀ p q, point_of m l p → point_of m l q → around_origin p ∧ (within cell p q → eq3 p q).
(** the segments found by the search, some of them no longer in use *)
Definition seg_of (c : cutseg) (inv : bool) : gseg p3 :=
  mkG (ct_a c) (ct_b c) (ct_pa c) (ct_pb c) (ct_face c) (ct_cop c) inv None None.
