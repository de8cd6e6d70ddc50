(** Vocabulary for the classification of faces: which faces a walk over the surface
    reaches without crossing a cut. *)
From Verif Require Export BoolClassModel MeshQuerySpec.
Local Open Scope N_scope.

Section spec.
Context {P : Type}.
Implicit Types (m : mesh P) (f g u v : N) (segs : list (iseg P)).

(** the edge between [u] and [v] is one of the segments *)
Definition cut segs u v : Prop :=
  ∃ s, s ∈ segs ∧ ((sg_va s = Some u ∧ sg_vb s = Some v) ∨ (sg_va s = Some v ∧ sg_vb s = Some u)).

(** a cut runs between the faces [f] and [g] *)
Definition apart m segs f g : Prop :=
  ∃ u v w w', cut segs u v ∧ cycle_face m f u v w ∧ cycle_face m g v u w'.

(** one step of a walk that crosses no cut *)
Definition step m segs f g : Prop := share_edge m f g ∧ ¬ apart m segs f g.

(** a face beside a cut *)
Definition beside m segs f : Prop := ∃ u v w, cut segs u v ∧ cycle_face m f u v w.

(** segments whose ends are known and which are edges between two faces, or points *)
Definition known_ends segs : Prop := ∀ s, s ∈ segs → is_Some (sg_va s) ∧ is_Some (sg_vb s).
Definition inner_edges m segs : Prop :=
  ∀ s u v, s ∈ segs → sg_va s = Some u → sg_vb s = Some v → u = v ∨ (side_used m u v ∧ side_used m v u).

(** a location that counts as inside; [incl]: the surface counts *)
Definition counted (incl : bool) (w : option RayModel.where_result) : Prop :=
  w = Some RayModel.Inside ∨ (incl = true ∧ w = Some RayModel.OnSurface).

(** the three vertices are the corners of face [f] *)
Definition has_corners m f (t : N * N * N) : Prop := corner m f t.1.1 ∧ corner m f t.1.2 ∧ corner m f t.2.

(** vertices in use with a single fan of faces *)
Definition simple_vertex m v : Prop := one_fan m v ∧ ∃ h w, runs m h v w.
End spec.
