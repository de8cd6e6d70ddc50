(** Vocabulary for the vertex hash claims. *)
From Coq Require Export QArith Qabs List Utf8_core.
Open Scope Q_scope.

(** the same point *)
Definition same_position (p q : list Q) : Prop := Forall2 Qeq p q.
(** every coordinate within the merge threshold 10^-6 *)
Definition within_threshold (p q : list Q) : Prop := Forall2 (λ a b, Qabs (a - b) <= 1 # 1000000) p q.
(** the same, up to one unit in the last place of the double nearest to 10^-6: the
    comparison is made on differences truncated to double precision *)
Definition nearly_within_threshold (p q : list Q) : Prop :=
  Forall2 (λ a b, Qabs (a - b) < (1 # 1000000) * (1 + (1 # 2 ^ 52))) p q.
