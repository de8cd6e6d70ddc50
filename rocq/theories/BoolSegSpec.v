(** Vocabulary for the bookkeeping of intersection segments. *)
From Verif Require Export BoolSegModel BoolClassSpec.
Local Open Scope N_scope.

Section spec.
Context {P : Type}.
Implicit Types (s : iseg P) (segs : list (iseg P)) (m : mesh P).

(** [same] is an equivalence decided by [eqb]; equal points have equal hashes *)
Record LawfulHash (hash : P → N) (eqb : P → P → bool) (same : P → P → Prop) : Prop := {
  lh_eqb : ∀ p q, eqb p q = true ↔ same p q;
  lh_refl : ∀ p, same p p;
  lh_sym : ∀ p q, same p q → same q p;
  lh_trans : ∀ p q r, same p q → same q r → same p r;
  lh_hash : ∀ p q, same p q → hash p = hash q
}.

(** the same ends, in either order *)
Definition same_ends (same : P → P → Prop) s s' : Prop :=
  (same (sg_pa s) (sg_pa s') ∧ same (sg_pb s) (sg_pb s')) ∨ (same (sg_pa s) (sg_pb s') ∧ same (sg_pb s) (sg_pa s')).

(** segment [i] is the one that stands for all segments with its ends: the first
    coplanar one, or the first one if none is coplanar *)
Definition stands (same : P → P → Prop) segs (i : nat) : Prop :=
  ∃ s, segs !! i = Some s ∧
    if sg_cop s then ∀ j s', segs !! j = Some s' → same_ends same s s' → sg_cop s' = true → (i ≤ j)%nat
    else ∀ j s', segs !! j = Some s' → same_ends same s s' → sg_cop s' = false ∧ (i ≤ j)%nat.

(** some segment of the group [G] joins the two vertices *)
Definition joined_by (G : iseg P → Prop) u v : Prop :=
  ∃ s, G s ∧ ((sg_va s = Some u ∧ sg_vb s = Some v) ∨ (sg_va s = Some v ∧ sg_vb s = Some u)).

(** a triangle of segments of the group that is not flat *)
Definition triangle_of (flat : P → P → P → bool) m G (t : N * N * N) : Prop :=
  let '(a, b, c) := t in
  a < b ∧ b < c ∧ joined_by G a b ∧ joined_by G b c ∧ joined_by G a c ∧
  ∃ pa pb pc, vpos <$> verts m !! a = Some pa ∧ vpos <$> verts m !! b = Some pb ∧ vpos <$> verts m !! c = Some pc ∧ flat pa pb pc = false.

(** the ends are vertices of the mesh *)
Definition ends_in m segs : Prop :=
  ∀ s, s ∈ segs → ∃ u v, sg_va s = Some u ∧ sg_vb s = Some v ∧ is_Some (verts m !! u) ∧ is_Some (verts m !! v).

(** the coplanar segments along an edge of a face in this plane *)
Definition on_plane {K} (plane : N → option K) m segs (k : K) s : Prop :=
  s ∈ segs ∧ sg_cop s = true ∧
  ∃ u v f w, sg_va s = Some u ∧ sg_vb s = Some v ∧ (cycle_face m f u v w ∨ cycle_face m f v u w) ∧ plane f = Some k.
End spec.
