(** Vocabulary for the geometric queries on half-edges and faces. *)
From Verif Require Export SideGeomModel FindHalfSpec MeshQuerySpec.
Local Open Scope Q_scope.

Section spec.
Implicit Types (m : mesh point) (p a b c : point) (h f v : N).

(** the sides of the face [f] in use, in order *)
Definition sides_of m f (e0 e1 e2 : N) : Prop :=
  ∃ i j k, oriented_face m f i j k ∧ is_side m f e0 i j ∧ is_side m f e1 j k ∧ is_side m f e2 k i.
(** [p] is on the half-edge [h], at the parameter [t] *)
Definition on_at m p h (t : Q) : Prop := 0 <= t ∧ t <= 1 ∧ ∃ a b, from_to m h a b ∧ peq p (lerp a b t).

(** [p] is the point of the triangle [a] [b] [c] with the weights [x], [y], [z] *)
Definition weights (p a b c : point) (x y z : Q) : Prop := x + y + z == 1 ∧ peq p (comb x y z a b c).

(** the place of [u] if the vertex [v] is moved to [p] *)
Definition moved_to m v p u a : Prop := (u = v ∧ a = p) ∨ (u ≠ v ∧ vpos <$> verts m !! u = Some a).
End spec.

(** the vertex lies on the border *)
Definition on_border {P} (m : mesh P) (v : N) : Prop :=
  ∃ h w x, runs m h v w ∧ live_he m h x ∧ hface x = None.

(** four times the squared area of the triangle, |ab|^2 |ac|^2 - (ab . ac)^2 *)
Definition area_sq_4 (a b c : point) : Q := dist2 a b * dist2 a c - inner b a a c * inner b a a c.
