(** Vocabulary for the triangulation jobs of the faces: which vertices and faces the
    segments name, and points and chains in the plane of a face. *)
From Coq Require Import QArith Qabs Sorting.Sorted.
From Verif Require Export MeshQuerySpec BoolPslgModel RaySpec.
Local Open Scope N_scope.

Section spec.
Implicit Types (m : mesh p3) (l : list (gseg p3)) (s : gseg p3) (f v w a b : N) (x y z : uv).

(** the segment is in use and joins two vertices *)
Definition joins s a b : Prop := g_inv s = false ∧ g_va s = Some a ∧ g_vb s = Some b ∧ a ≠ b.
(** the hints of an end name the face *)
Definition beside (h : hints) f : Prop := f ≠ umax ∧ ∃ g, h_faces h = Some (f, g) ∨ h_faces h = Some (g, f).
(** a segment runs across the face from a to b *)
Definition across l f a b : Prop := ∃ s, s ∈ l ∧ joins s a b ∧ g_face s = f.
(** a segment of another face ends in v, beside f *)
Definition alone l f v : Prop := ∃ s a b, s ∈ l ∧ joins s a b ∧ g_face s ≠ f ∧ (v = a ∧ beside (g_a s) f ∨ v = b ∧ beside (g_b s) f).
Definition named l f v : Prop := (∃ w, across l f v w ∨ across l f w v) ∨ alone l f v.
Definition touched l f : Prop := ∃ v, named l f v.

(** the segments in use have vertices, each with a single fan of faces, and name faces *)
Definition segs_in m l : Prop := ∀ s, s ∈ l → g_inv s = false →
  ∃ a b, g_va s = Some a ∧ g_vb s = Some b ∧ a < nverts m ∧ b < nverts m ∧ one_fan m a ∧ one_fan m b ∧
    (a ≠ b → g_face s < nfaces m ∧ ∀ f, beside (g_a s) f ∨ beside (g_b s) f → f < nfaces m).
(** no live face that they name is flat *)
Definition faces_thick m l : Prop := ∀ f (p q r : p3), touched l f → corners_at m f p q r → thick p q r.
(** the vertices lie on the faces for which they are named *)
Definition placed m l : Prop := ∀ f v (p q r t : p3), named l f v → corners_at m f p q r → position m v t → in_tri p q r t.

(** ** Points in the plane of a face: weights of the first two corners *)
(** the perpendicular from t meets the plane in the point with these weights *)
Definition foot (p q r t : p3) (x : uv) : Prop :=
  let o := comb3 x.1 x.2 (1 - x.1 - x.2)%Q p q r in
  (GeomModel.dot (GeomModel.psub (coords t) (coords o)) (GeomModel.psub (coords q) (coords p)) == 0)%Q ∧
  (GeomModel.dot (GeomModel.psub (coords t) (coords o)) (GeomModel.psub (coords r) (coords p)) == 0)%Q.
Definition in_unit (x : uv) : Prop := (0 <= x.1)%Q ∧ (0 <= x.2)%Q ∧ (x.1 + x.2 <= 1)%Q.
Definition turn x y z : Q := ((y.1 - x.1) * (z.2 - x.2) - (y.2 - x.2) * (z.1 - x.1))%Q.
Definition along x y z : Q := ((z.1 - x.1) * (y.1 - x.1) + (z.2 - x.2) * (y.2 - x.2))%Q.
Definition between (d : Q) (p q r : Q) : Prop := ((p - d <= r)%Q ∧ (r <= q + d)%Q) ∨ ((q - d <= r)%Q ∧ (r <= p + d)%Q).
(** z is on the segment from x to y, up to d in the double area and in the box *)
Definition on_uv (d : Q) x y z : Prop := (Qabs (turn x y z) <= d)%Q ∧ between d x.1 y.1 z.1 ∧ between d x.2 y.2 z.2.
(** x and y differ by at most d in each coordinate *)
Definition close_uv (d : Q) x y : Prop := (Qabs (x.1 - y.1) <= d)%Q ∧ (Qabs (x.2 - y.2) <= d)%Q.
Definition loose : Q := 1 # 1000000000.

(** ** Jobs *)
Definition pair_in (S : list (nat * nat)) (i k : nat) : Prop := (i, k) ∈ S ∨ (k, i) ∈ S.
(** the segments of the job join the points of the list one after the other *)
Fixpoint strung (S : list (nat * nat)) (ks : list nat) : Prop :=
  match ks with
  | i :: ((k :: _) as ks') => pair_in S i k ∧ strung S ks'
  | _ => True
  end.
(** a chain of segments of the job from i to k, through all other points on the line
    between them and nothing but points close to it, in their order on it *)
Definition chain (j : fjob) (i k : nat) : Prop :=
  ∃ x y ms, j_uv j !! i = Some x ∧ j_uv j !! k = Some y ∧ strung (j_segs j) (i :: ms ++ [k]) ∧ NoDup (i :: ms ++ [k]) ∧
    (∀ n z, j_uv j !! n = Some z → n ≠ i → n ≠ k → on_uv 0 x y z → n ∈ ms) ∧
    (∀ n, n ∈ ms → ∃ z, j_uv j !! n = Some z ∧ on_uv loose x y z) ∧
    StronglySorted (λ n n', ∀ z z', j_uv j !! n = Some z → j_uv j !! n' = Some z' → (along x y z <= along x y z' + loose)%Q) ms.
(** both points are close to the line between i and k *)
Definition near_line (j : fjob) (i k : nat) (e : nat * nat) : Prop :=
  ∃ x y z z', j_uv j !! i = Some x ∧ j_uv j !! k = Some y ∧ j_uv j !! e.1 = Some z ∧ j_uv j !! e.2 = Some z' ∧
    on_uv loose x y z ∧ on_uv loose x y z'.
(** two corners of the face *)
Definition outer (i k : nat) : Prop := (i, k) ∈ [(0, 1); (1, 2); (2, 0)]%nat.
(** a segment runs from the one to the other of these points of the job *)
Definition asked l (j : fjob) (i k : nat) : Prop :=
  ∃ a b, j_verts j !! i = Some a ∧ j_verts j !! k = Some b ∧ across l (j_face j) a b.
End spec.

(** the shape of a job *)
Record job_shape (m : mesh p3) (l : list (gseg p3)) (j : fjob) : Prop := {
  js_face : live_face m (j_face j) ∧ touched l (j_face j);
  (* it starts with the corners, in their order *)
  js_corners : ∃ a b c rest, oriented_face m (j_face j) a b c ∧ j_verts j = a :: b :: c :: rest;
  js_nodup : NoDup (j_verts j);
  (* its vertices; an end is missing if its segment has the other end in a corner *)
  js_verts : ∀ v, v ∈ j_verts j ↔ corner m (j_face j) v ∨ alone l (j_face j) v ∨
     ∃ w, (across l (j_face j) v w ∨ across l (j_face j) w v) ∧ ¬ corner m (j_face j) w;
  js_uv : length (j_uv j) = length (j_verts j);
  js_foot : ∀ i v x p q r t, j_verts j !! i = Some v → position m v t → j_uv j !! i = Some x →
     corners_at m (j_face j) p q r → foot p q r t x;
  (* no loops, no segment twice *)
  js_segs : ∀ i k, (i, k) ∈ j_segs j → (i ≠ k ∧ i < length (j_verts j) ∧ k < length (j_verts j))%nat;
  js_once : ∀ n n' i k, j_segs j !! n = Some (i, k) → j_segs j !! n' = Some (i, k) ∨ j_segs j !! n' = Some (k, i) → n = n'
}.
