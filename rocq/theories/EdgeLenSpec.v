(** Vocabulary for the lengths of the edges of a mesh. *)
From Verif Require Export EdgeLenModel MeshSpec.
From Coq Require Import QArith.
From Flocq Require Import IEEE754.BinarySingleNaN IEEE754.Bits.
Local Open Scope N_scope.

Section spec.
Implicit Types (m : mesh point).
Definition vertex_used m (v : N) : Prop := ∃ x, verts m !! v = Some x ∧ vrem x = false.
(** some half-edge in use runs from [a] to [b] and both are in use *)
Definition edge_used m (a b : N) : Prop := registered m a b ∧ vertex_used m a ∧ vertex_used m b.
(** [l] lists each edge in use once, in one of its two directions *)
Definition each_edge_once m (l : list (N * N)) : Prop :=
  NoDup l ∧ (∀ a b, (a, b) ∈ l → edge_used m a b) ∧
  ∀ a b, edge_used m a b → ((a, b) ∈ l ↔ (b, a) ∉ l).
(** the double of the exact squared length of an edge *)
Definition sq_len m (e : N * N) (s : f64) : Prop :=
  ∃ p q, vpos <$> verts m !! e.1 = Some p ∧ vpos <$> verts m !! e.2 = Some q ∧
    s = F64Model.Q_to_f64 (dot (psub q p) (psub q p)).
(** [s] is the length of the edge *)
Definition is_len m (e : N * N) (s : Q) : Prop :=
  ∃ p q, vpos <$> verts m !! e.1 = Some p ∧ vpos <$> verts m !! e.2 = Some q ∧
    (0 <= s)%Q ∧ (s * s == dot (psub q p) (psub q p))%Q.
End spec.
(** the root of the mean of squares in doubles: the sum from the left, starting at 0, the
    quotient by the number of terms and the root, each rounded to nearest; 1 if there are
    none *)
Definition rms_of (ls : list f64) (r : f64) : Prop :=
  (ls = [] ∧ ∃ q, F64Model.f64_to_Q r = Some q ∧ (q == 1)%Q) ∨
  (ls ≠ [] ∧ ∃ s n z, F64Model.f64_to_Q z = Some 0%Q ∧ s = foldl (b64_plus mode_NE) z ls ∧
     n = F64Model.i64_to_f64 (Z.of_nat (length ls)) ∧ r = b64_sqrt mode_NE (b64_div mode_NE s n)).
Definition mean (l : list Q) : Q := (foldr Qplus 0 l / inject_Z (Z.of_nat (length l)))%Q.
