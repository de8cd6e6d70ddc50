(** Vocabulary for the clean-up functions and the result of a Boolean operation. *)
From Coq Require Export Sorting.Sorted.
From Verif Require Export MeshSpec.
Local Open Scope N_scope.

(** the three directed sides of a triangle, and of all triangles of a list *)
Definition sides {A} (t : A * A * A) : list (A * A) := let '(a, b, c) := t in [(a, b); (b, c); (c, a)].
Definition all_sides {A} (ts : list (A * A * A)) : list (A * A) := concat (sides <$> ts).
(** a triangle with the opposite orientation *)
Definition rev3 {A} (t : A * A * A) : A * A * A := let '(a, b, c) := t in (c, b, a).

Section spec.
Context {P K : Type}.
Variable key : P → option K.
Variable eqb : P → P → bool.
Variable order : ∀ A : Type, list A → list A.
Variable same : P → P → Prop.
Implicit Types (m : mesh P) (f v : N).

(** [same] is an equivalence decided by [eqb]; equal positions have equal keys; hash
    tables are listed in some order *)
Record Lawful : Prop := {
  lw_eqb : ∀ p q, eqb p q = true ↔ same p q;
  lw_refl : ∀ p, same p p;
  lw_sym : ∀ p q, same p q → same q p;
  lw_trans : ∀ p q r, same p q → same q r → same p r;
  lw_key : ∀ p, is_Some (key p);
  lw_same : ∀ p q, same p q → key p = key q;
  lw_order : ∀ A (l : list A), order A l ≡ₚ l
}.

(** the live face [f] has the corner positions [s] *)
Definition tri_at m f (s : P * P * P) : Prop := ∃ u v w, oriented_face m f u v w ∧
  vpos <$> verts m !! u = Some s.1.1 ∧ vpos <$> verts m !! v = Some s.1.2 ∧ vpos <$> verts m !! w = Some s.2.

Definition same3 (s s' : P * P * P) : Prop := same s.1.1 s'.1.1 ∧ same s.1.2 s'.1.2 ∧ same s.2 s'.2.

(** no directed side occurs twice, none has two equal ends *)
Record no_clash (S : list (P * P * P)) : Prop := {
  nc_diff : ∀ i j e e', all_sides S !! i = Some e → all_sides S !! j = Some e' → same e.1 e'.1 → same e.2 e'.2 → i = j;
  nc_deg : ∀ e, e ∈ all_sides S → ¬ same e.1 e.2
}.

(** the triangles of [m] whose entry in the classification is [want], in order *)
Definition picked m (cls : list bool) (want : bool) (S : list (P * P * P)) : Prop :=
  ∃ fs, StronglySorted N.lt fs ∧ (∀ f, f ∈ fs ↔ live_face m f ∧ cls !! N.to_nat f = Some want) ∧
    Forall2 (tri_at m) fs S.
End spec.
