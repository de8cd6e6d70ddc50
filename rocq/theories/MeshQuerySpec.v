(** Specification vocabulary for the queries: fans of faces around a vertex. *)
From Verif Require Export MeshSpec.
Local Open Scope N_scope.

Section spec.
Context {P : Type}.
Implicit Types (m : mesh P) (h f u v : N).

(** [h'] is the half-edge that leaves the tail of [h] on the other side of the
    face of [h] *)
Definition next_spoke m h h' : Prop :=
  ∃ x y, live_he m h x ∧ hface x ≠ None ∧ live_he m (hprev x) y ∧ h' = htwin y.

(** the half-edges leaving a vertex that are connected through faces around it *)
Definition same_fan m : N → N → Prop := rtsc (next_spoke m).

(** the faces around [v] form a single fan or closed disk *)
Definition one_fan m v : Prop :=
  ∀ h h' w w', runs m h v w → runs m h' v w' → same_fan m h h'.

(** [v] is a corner of the live face [f] *)
Definition corner m f v : Prop := ∃ a b, cycle_face m f v a b.

(** [f] and [g] share an edge (which they see in opposite directions) *)
Definition share_edge m f g : Prop :=
  ∃ u v w w', cycle_face m f u v w ∧ cycle_face m g v u w'.
End spec.
