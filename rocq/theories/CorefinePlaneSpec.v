(** Vocabulary for whole Boolean operations in the plane. *)
From Coq Require Import QArith Qabs.
From Verif Require Export CorefinePlaneModel CutPlaneSpec.
From Verif Require BoolSpec ClaimsBool ClaimsRay2.
Local Open Scope N_scope.

Notation result_triangles := ClaimsBool.result_triangles.
Notation flat_corners := ClaimsRay2.flat_corners.
Notation counted_side := ClaimsRay2.counted_side.
Notation covered := ClaimsRay2.covered.

(** the functions that the model takes from outside do what the code asks of them *)
Record fair_2 (E : env2) : Prop := {
  fair2_bucket : ∀ u v, (u == v)%Q → e2_bucket E u = e2_bucket E v;
  fair2_select : ∀ n l, Permutation (e2_select E n l) l;
  fair2_order : ∀ A (l : list A), e2_order E A l ≡ₚ l
}.

Section spec.
Implicit Types (m a b : mesh p2) (f : N) (p q r x : p2).
(** [p] is a corner of a live face *)
Definition corner_point_2 m p : Prop := ∃ f x y z, flat_corners m f x y z ∧ (p = x ∨ p = y ∨ p = z).
(** no two vertices have equal positions *)
Definition no_double_2 m : Prop := ∀ u v p q, position m u p → position m v q → eq2 p q → u = v.
(** an operand with coordinates up to a million *)
Definition modest_2 m : Prop := WellFormed m ∧ 0 < nfaces m ∧ no_removed m ∧ no_double_2 m ∧ twins_in_range m ∧
  ∀ p, corner_point_2 m p → (Qabs p.1 <= 1000000 ∧ Qabs p.2 <= 1000000)%Q.
(** the two meshes together are not too large to be stored *)
Definition fits_2 a b : Prop := nverts a + nverts b ≤ umax ∧ 6 * (nfaces a + nfaces b) ≤ umax.
(** no side of one mesh has a point in common with a side of the other *)
Definition sides_apart a b : Prop := ∀ f e i j p q f' e' i' j' p' q' x,
  side_at a f e i j p q → side_at b f' e' i' j' p' q' → on_seg2 p q x → ¬ on_seg2 p' q' x.

(** [x] is the centroid, up to a billionth in each coordinate *)
Definition near_centroid p q r x : Prop :=
  (Qabs (x.1 - (p.1 + q.1 + r.1) / 3) <= 1 # 1000000000)%Q ∧ (Qabs (x.2 - (p.2 + q.2 + r.2) / 3) <= 1 # 1000000000)%Q.
(** [x] passes for a point inside [m] (C90): an odd number of border sides is counted *)
Definition passes_2 m x : Prop := ∃ es, NoDup es ∧ (∀ t, t ∈ es ↔ counted_side m x t) ∧ Nat.odd (length es) = true.
(** [cls] says for each face of [a] whether its centroid passes for a point inside [b] *)
Definition told_2 a b (cls : list bool) : Prop :=
  N.of_nat (length cls) = nfaces a ∧
  ∀ f p q r, flat_corners a f p q r → ∃ x v, near_centroid p q r x ∧ cls !! N.to_nat f = Some v ∧ (v = true ↔ passes_2 b x).

(** the live faces of [m] are exactly the listed triangles, in this order *)
Definition consists_of_2 m (S : list (p2 * p2 * p2)) : Prop :=
  nfaces m = N.of_nat (length S) ∧ ∀ i t, S !! i = Some t → ∃ s, flat_corners m (N.of_nat i) s.1.1 s.1.2 s.2 ∧ BoolSpec.same3 eq2 t s.
(** all triangles of [m], in order *)
Definition triangles_of_2 m (S : list (p2 * p2 * p2)) : Prop :=
  nfaces m = N.of_nat (length S) ∧ ∀ i t, S !! i = Some t → flat_corners m (N.of_nat i) t.1.1 t.1.2 t.2.

(** one mesh is below the other, with a gap of a millionth *)
Definition under a b : Prop := ∀ p q, corner_point_2 a p → corner_point_2 b q → (p.2 + (1 # 1000000) <= q.2)%Q.
End spec.
