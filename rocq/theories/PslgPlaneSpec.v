(** Vocabulary for the triangulation jobs of the faces of a plane mesh. Chains, lines and
    tolerances are those of BoolPslgSpec. *)
From Coq Require Import QArith Qabs.
From Verif Require Export BoolPslgSpec PslgPlaneModel.
Local Open Scope N_scope.

Section spec.
Implicit Types (m : mesh p2) (l : list (gseg p2)) (s : gseg p2) (f v w a b : N).

(** vertex v is at most 1.001 millionths away from the point, in each coordinate *)
Definition stands_by m v (p : p2) : Prop :=
  ∃ x, verts m !! v = Some x ∧ (Qabs ((vpos x).1 - p.1) <= 1001 # 1000000000)%Q ∧ (Qabs ((vpos x).2 - p.2) <= 1001 # 1000000000)%Q.
(** the segment is in use and its ends have these vertices, which may be the same *)
Definition uses s a b : Prop := g_inv s = false ∧ g_va s = Some a ∧ g_vb s = Some b.
(** a segment in use ends in v, and lies on the face or has hints for that end which name it *)
Definition holds l f v : Prop :=
  ∃ s a b, s ∈ l ∧ uses s a b ∧ (v = a ∧ (g_face s = f ∨ beside (g_a s) f) ∨ v = b ∧ (g_face s = f ∨ beside (g_b s) f)).
Definition reached l f : Prop := ∃ v, holds l f v.
(** a segment on the face joins two different vertices *)
Definition joined l f a b : Prop := a ≠ b ∧ ∃ s, s ∈ l ∧ uses s a b ∧ g_face s = f.
Definition linked l (j : fjob) (i k : nat) : Prop :=
  ∃ a b, j_verts j !! i = Some a ∧ j_verts j !! k = Some b ∧ joined l (j_face j) a b.
(** the segments in use have vertices and name faces of the mesh *)
Definition segs_in_2 m l : Prop := ∀ s, s ∈ l → g_inv s = false →
  ∃ a b, uses s a b ∧ a < nverts m ∧ b < nverts m ∧ g_face s < nfaces m ∧
    ∀ f, beside (g_a s) f ∨ beside (g_b s) f → f < nfaces m.
(** all points of the job are in the unit square *)
Definition in_square (j : fjob) : Prop := ∀ x, x ∈ j_uv j → (0 <= x.1 <= 1)%Q ∧ (0 <= x.2 <= 1)%Q.
(** the sides of the triangle of the job are at least a tenth long *)
Definition wide (j : fjob) : Prop :=
  ∀ i k x y, outer i k → j_uv j !! i = Some x → j_uv j !! k = Some y → (1 # 100 <= along x y y)%Q.
(** a point of the job is on a side, or not even loosely so *)
Definition clear_sides (j : fjob) : Prop :=
  ∀ i k x y z, outer i k → j_uv j !! i = Some x → j_uv j !! k = Some y → z ∈ j_uv j → on_uv loose x y z → on_uv 0 x y z.
End spec.

(** the shape of a job *)
Record job_shape_2 (m : mesh p2) (l : list (gseg p2)) (j : fjob) : Prop := {
  j2_face : live_face m (j_face j) ∧ reached l (j_face j);
  (* it starts with the corners, in their order *)
  j2_corners : ∃ a b c rest, oriented_face m (j_face j) a b c ∧ j_verts j = a :: b :: c :: rest;
  j2_nodup : NoDup (j_verts j);
  j2_verts : ∀ v, v ∈ j_verts j ↔ corner m (j_face j) v ∨ holds l (j_face j) v;
  (* its points are the positions of its vertices *)
  j2_uv : length (j_uv j) = length (j_verts j);
  j2_pos : ∀ i v x, j_verts j !! i = Some v → j_uv j !! i = Some x → position m v x;
  (* no loops, no segment twice *)
  j2_segs : ∀ i k, (i, k) ∈ j_segs j → (i ≠ k ∧ i < length (j_verts j) ∧ k < length (j_verts j))%nat;
  j2_once : ∀ n n' i k, j_segs j !! n = Some (i, k) → j_segs j !! n' = Some (i, k) ∨ j_segs j !! n' = Some (k, i) → n = n'
}.
