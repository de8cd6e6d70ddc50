(** Vocabulary for the face adjacency graph. *)
From Verif Require Export AdjGraphModel BoolClassSpec.
Local Open Scope N_scope.

Section spec.
Context {P : Type}.
Implicit Types (m : mesh P) (f g u v : N) (segs : list (iseg P)).

(** [o] is the face on the other side of the side from [u] to [v], if there is one *)
Definition other_side m u v (o : option N) : Prop := ∀ g, o = Some g ↔ ∃ w, cycle_face m g v u w.

(** every segment is a point or an edge between two faces *)
Definition between_faces m segs : Prop :=
  ∀ s, s ∈ segs → sg_va s = sg_vb s ∨
    ∃ u v, sg_va s = Some u ∧ sg_vb s = Some v ∧ side_used m u v ∧ side_used m v u.
End spec.
