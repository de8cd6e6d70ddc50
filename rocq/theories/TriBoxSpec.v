(** Points in boxes and in triangles, by coordinates. *)
From Coq Require Import QArith.
From stdpp Require Import prelude.
Local Open Scope Q_scope.

(** [p] is in the closed box from [lo] to [hi] *)
Definition in_box (lo hi p : list Q) : Prop :=
  length lo = length p ∧ length hi = length p ∧
  ∀ i x l h, p !! i = Some x → lo !! i = Some l → hi !! i = Some h → l <= x ∧ x <= h.
(** [p] is in the closed triangle *)
Definition in_triangle (a b c p : list Q) : Prop :=
  length a = length p ∧ length b = length p ∧ length c = length p ∧
  ∃ u v w, 0 <= u ∧ 0 <= v ∧ 0 <= w ∧ u + v + w == 1 ∧
    ∀ i x y z t, a !! i = Some x → b !! i = Some y → c !! i = Some z → p !! i = Some t → t == u * x + v * y + w * z.
