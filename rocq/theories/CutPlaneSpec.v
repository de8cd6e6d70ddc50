(** Vocabulary for the intersection segments of two meshes of the plane. *)
From Coq Require Import QArith.
From Verif Require Export MeshSpec CutPlaneModel.
From Verif Require RaySpec.
Local Open Scope N_scope.

Notation eq2 := GeomSpec.eq2.
Notation at2 := GeomSpec.at2.
Notation on_seg2 := GeomSpec.on_seg2.
Notation position := RaySpec.position.

Section spec.
Implicit Types (m : mesh p2) (f g e i j k : N) (a b x : p2) (s : gseg p2) (t u : Q).

(** face [f] has the side from [i] to [j], which runs from [a] to [b] along half-edge [e] *)
Definition side_at m f e i j a b : Prop :=
  ∃ k, cycle_face m f i j k ∧ runs m e i j ∧ position m i a ∧ position m j b.
(** [g] is the face beyond the side from [i] to [j]; usize::MAX on the border *)
Definition beyond m i j g : Prop := (∃ k, cycle_face m g j i k) ∨ (¬ side_used m j i ∧ g = umax).
Definition no_removed m : Prop := ∀ f, f < nfaces m → live_face m f.
(** no side is a single point *)
Definition long_sides m : Prop := ∀ f e i j a b, side_at m f e i j a b → ¬ eq2 a b.
(** more than a millionth of the side away from its ends *)
Definition inner t : Prop := (1 # 1000000 < t ∧ t < 1 - (1 # 1000000))%Q.
Definition between t u0 u1 : Prop := (u0 <= t ∧ t <= u1)%Q ∨ (u1 <= t ∧ t <= u0)%Q.

(** the segment lies on a side of a face of [m], with parameters [u0] and [u1] of its ends,
    and its hints name the face, the side, the half-edge and the face beyond *)
Definition lies_on m f e s u0 u1 : Prop :=
  ∃ i j a b g, side_at m f e i j a b ∧ beyond m i j g ∧ g_face s = f ∧
    g_a s = mkHints (Some (i, j)) (Some e) (Some u0) (Some (f, g)) None ∧
    g_b s = mkHints (Some (i, j)) (Some e) (Some u1) (Some (f, g)) None ∧
    eq2 (g_pa s) (at2 a b u0) ∧ eq2 (g_pb s) (at2 a b u1) ∧ (0 <= u0 ∧ u0 <= 1 ∧ 0 <= u1 ∧ u1 <= 1)%Q.
(** a segment of [m] made by a side of [m']: both ends are on that side too; it is marked
    as coplanar if the ends differ, and otherwise is inside the side of [m] *)
Definition cut_by m m' s : Prop :=
  g_inv s = false ∧ g_va s = None ∧ g_vb s = None ∧
  ∃ f e u0 u1 f' e' i' j' a' b', lies_on m f e s u0 u1 ∧
    side_at m' f' e' i' j' a' b' ∧ on_seg2 a' b' (g_pa s) ∧ on_seg2 a' b' (g_pb s) ∧
    (if g_cop s then ¬ eq2 (g_pa s) (g_pb s) else eq2 (g_pa s) (g_pb s) ∧ inner u0).
(** the list has a segment on the half-edge with the point at [t], or with a point whose
    parameter falls in the same bucket *)
Definition reported (bucket : Q → Z) m (l : list (gseg p2)) f e t : Prop :=
  ∃ s u0 u1 t', s ∈ l ∧ lies_on m f e s u0 u1 ∧ between t' u0 u1 ∧ ((t' == t)%Q ∨ bucket t' = bucket t).
End spec.
