(** Specification of the place of a point on a mesh, in any dimension. *)
From Verif Require Export PointLocModel GeomSpec MeshSpec.
Local Open Scope Q_scope.

(** the inner product of p - q and b - a *)
Fixpoint inner (p q a b : point) : Q :=
  match p, q, a, b with
  | x :: p, y :: q, s :: a, t :: b => (x - y) * (t - s) + inner p q a b
  | _, _, _, _ => 0
  end.
(** x a + y b + z c is the foot of the perpendicular from [p] to the plane of the triangle;
    it is [p] itself if [p] lies in that plane *)
Definition foot (p a b c : point) (x y z : Q) : Prop :=
  x + y + z == 1 ∧ inner p (comb x y z a b c) a b == 0 ∧ inner p (comb x y z a b c) a c == 0.
(** the triangle is a segment or a point *)
Definition flat (a b c : point) : Prop := peq a b ∨ on_line a b c.

Section spec.
Implicit Types (m : mesh point) (p a b c : point).

(** all positions have [n] coordinates *)
Definition in_dim (n : nat) m : Prop := ∀ v x, verts m !! v = Some x → length (vpos x) = n.
(** the corners of [f], in order, are the vertices [i], [j], [k] at [a], [b], [c] *)
Definition corners_at m (f i j k : N) a b c : Prop :=
  cycle_face m f i j k ∧
  vpos <$> verts m !! i = Some a ∧ vpos <$> verts m !! j = Some b ∧ vpos <$> verts m !! k = Some c.
(** [h] is the side of [f] from [i] to [j] *)
Definition is_side m (f h i j : N) : Prop :=
  runs m h i j ∧ ∃ x, hes m !! h = Some x ∧ hface x = Some f.

(** the face [f] is not flat, and the foot of [p] on its plane lies on it *)
Definition touches m p (f : N) : Prop :=
  ∃ i j k a b c x y z, corners_at m f i j k a b c ∧ ¬ flat a b c ∧ foot p a b c x y z ∧ 0 <= x ∧ 0 <= y ∧ 0 <= z.
(** the answer names the place of the foot of [p] on a face *)
Definition located m p (r : face_place) : Prop :=
  match r with
  | PInside f (x, y, z) => ∃ i j k a b c, oriented_face m f i j k ∧ corners_at m f i j k a b c ∧ ¬ flat a b c ∧
      foot p a b c x y z ∧ 0 < x ∧ 0 < y ∧ 0 < z
  | POnEdge f h u => ∃ i j k a b c, is_side m f h i j ∧ corners_at m f i j k a b c ∧ ¬ flat a b c ∧
      foot p a b c (1 - u) u 0 ∧ 0 < u ∧ u < 1
  | POnVertex f v => ∃ j k a b c, corners_at m f v j k a b c ∧ ¬ flat a b c ∧ foot p a b c 1 0 0
  end.
Definition face_of (r : face_place) : N :=
  match r with PInside f _ => f | POnEdge f _ _ => f | POnVertex f _ => f end.

(** live faces with a common side, and chains of them *)
Definition beside m (f g : N) : Prop := ∃ u v, (∃ w, cycle_face m f u v w) ∧ (∃ w, cycle_face m g v u w).
Definition linked m : N → N → Prop := rtc (beside m).
(** no live face is flat *)
Definition no_flat_face m : Prop := ∀ f i j k a b c, corners_at m f i j k a b c → ¬ flat a b c.
(** the recorded triangles exist and are not flat *)
Definition split_ok m (split : gmap N (list (N * (N * N * N)))) : Prop :=
  ∀ f l g i j k, split !! f = Some l → (g, (i, j, k)) ∈ l → (g < nfaces m)%N ∧
    ∃ a b c, vpos <$> verts m !! i = Some a ∧ vpos <$> verts m !! j = Some b ∧ vpos <$> verts m !! k = Some c ∧ ¬ flat a b c.
End spec.
