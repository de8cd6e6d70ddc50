(** Vocabulary for whole Boolean operations. *)
From Coq Require Import QArith.
From Verif Require Export BoolCutSpec CorefineModel.
From Verif Require BoolSpec ClaimsBool.
Local Open Scope N_scope.

Notation result_triangles := ClaimsBool.result_triangles.
Notation same3 := (BoolSpec.same3 eq3).

(** the functions that the model takes from outside do what the code asks of them *)
Record fair (E : env) : Prop := {
  fair_gt : TriTriSpec.tells_zero (e_gt E);
  fair_select : ∀ n l, Permutation (e_select E n l) l;
  fair_order : ∀ A (l : list A), e_order E A l ≡ₚ l
}.

Section spec.
Implicit Types (m a b : mesh p3) (f : N) (p q r x : p3).
(** [p] is a corner of a live face *)
Definition corner_point m p : Prop := ∃ f x y z, corners_at m f x y z ∧ (p = x ∨ p = y ∨ p = z).
(** no two vertices have equal positions *)
Definition no_double m : Prop := ∀ u v p q, position m u p → position m v q → eq3 p q → u = v.
(** an operand with coordinates up to a million *)
Definition modest m : Prop := operand m ∧ no_double m ∧ twins_in_range m ∧ reach m 1000000 (0, 0, 0)%Q.
(** the two meshes together are not too large to be stored *)
Definition fits a b : Prop := nverts a + nverts b ≤ umax ∧ 6 * (nfaces a + nfaces b) ≤ umax.
Definition apart a b : Prop := ∀ x, ¬ (on_surface a x ∧ on_surface b x).

Definition centroid p q r : p3 := comb3 (1 # 3) (1 # 3) (1 # 3) p q r.
(** [x] passes for a point inside [m] (C88); points of the surface count as [incl] says *)
Definition passes (incl : bool) m x : Prop :=
  (on_thick m x ∧ incl = true) ∨
  (¬ on_thick m x ∧ ∃ ds, List.NoDup ds ∧ (4 ≤ length ds)%nat ∧ ∀ d, In d ds → In d axes ∧ crosses m x d).
(** [cls] says for each face of [a] whether its centroid, up to a billionth, passes for a
    point inside [b] *)
Definition told (incl : bool) a b (cls : list bool) : Prop :=
  N.of_nat (length cls) = nfaces a ∧
  ∀ f p q r, corners_at a f p q r → ∃ x v, close (1 # 1000000000) (centroid p q r) x ∧
    cls !! N.to_nat f = Some v ∧ (v = true ↔ passes incl b x).

(** the live faces of [m] are exactly the listed triangles, in this order *)
Definition consists_of m (S : list (p3 * p3 * p3)) : Prop :=
  nfaces m = N.of_nat (length S) ∧ ∀ i t, S !! i = Some t → ∃ s, corners_at m (N.of_nat i) s.1.1 s.1.2 s.2 ∧ same3 t s.
(** all triangles of [m], in order *)
Definition triangles_of m (S : list (p3 * p3 * p3)) : Prop :=
  nfaces m = N.of_nat (length S) ∧ ∀ i t, S !! i = Some t → corners_at m (N.of_nat i) t.1.1 t.1.2 t.2.

(** some plane has all corners of [a] on one side and all corners of [b] on the other, with
    a gap of a millionth *)
Definition gap a b : Prop := ∃ n, close 1 (0, 0, 0)%Q n ∧
  ∀ p q, corner_point a p → corner_point b q → (height n p + (1 # 1000000) <= height n q)%Q.
End spec.
