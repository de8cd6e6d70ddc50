(** Basic facts about the exact predicates. *)
From Verif Require Export GeomSpec.

Lemma is_zero_t x : is_zero x = true ↔ x == 0.
Proof. apply Qeq_bool_iff. Qed.
Lemma is_zero_f x : is_zero x = false ↔ ~ x == 0.
Proof. rewrite <- is_zero_t. destruct (is_zero x); intuition congruence. Qed.
Lemma qle_t x y : qle x y = true ↔ x <= y.
Proof. apply Qle_bool_iff. Qed.
Lemma qle_f x y : qle x y = false ↔ y < x.
Proof.
  split; intros H.
  - apply Qnot_le_lt. rewrite <- qle_t. congruence.
  - destruct (qle x y) eqn:E; [|reflexivity]. apply qle_t in E. lra.
Qed.
Lemma qlt_t x y : qlt x y = true ↔ x < y.
Proof. unfold qlt. rewrite negb_true_iff. apply qle_f. Qed.
Lemma qlt_f x y : qlt x y = false ↔ y <= x.
Proof. unfold qlt. rewrite negb_false_iff. apply qle_t. Qed.
Lemma is_positive_t x : is_positive x = true ↔ 0 < x.
Proof. apply qlt_t. Qed.
Lemma is_positive_f x : is_positive x = false ↔ x <= 0.
Proof. apply qlt_f. Qed.
Lemma is_negative_t x : is_negative x = true ↔ x < 0.
Proof. apply qlt_t. Qed.
Lemma is_negative_f x : is_negative x = false ↔ 0 <= x.
Proof. apply qlt_f. Qed.
Lemma qabs_pos x : 0 < Qabs x ↔ ~ x == 0.
Proof.
  split.
  - intros H E. rewrite E in H. cbn in H. lra.
  - intros H. apply Qnot_le_lt. intros H1. apply H.
    revert H1. apply Qabs_case; intros; lra.
Qed.
Lemma absnz_t x : is_positive (Qabs x) = true ↔ ~ x == 0.
Proof. rewrite is_positive_t. apply qabs_pos. Qed.
Lemma absnz_f x : is_positive (Qabs x) = false ↔ x == 0.
Proof.
  rewrite is_positive_f. split; [|intros ->; cbn; lra]. apply Qabs_case; intros; lra.
Qed.
Lemma abs0 x : Qabs x == 0 ↔ x == 0.
Proof. split; [apply Qabs_case; intros; lra|]. intros ->. reflexivity. Qed.
Lemma qeqb_t x y : Qeq_bool x y = true ↔ x == y.
Proof. apply Qeq_bool_iff. Qed.
Lemma qeqb_f x y : Qeq_bool x y = false ↔ ~ x == y.
Proof. rewrite <- qeqb_t. destruct (Qeq_bool x y); intuition congruence. Qed.

(** turn boolean tests in the context into facts *)
Ltac qb1 := match goal with
  | H : is_positive (Qabs _) = true |- _ => apply absnz_t in H
  | H : is_positive (Qabs _) = false |- _ => apply absnz_f in H
  | H : is_zero (Qabs _) = true |- _ => rewrite is_zero_t, abs0 in H
  | H : is_zero (Qabs _) = false |- _ => rewrite is_zero_f, abs0 in H
  | H : is_zero _ = true |- _ => apply is_zero_t in H
  | H : is_zero _ = false |- _ => apply is_zero_f in H
  | H : is_positive _ = true |- _ => apply is_positive_t in H
  | H : is_positive _ = false |- _ => apply is_positive_f in H
  | H : is_negative _ = true |- _ => apply is_negative_t in H
  | H : is_negative _ = false |- _ => apply is_negative_f in H
  | H : qlt _ _ = true |- _ => apply qlt_t in H
  | H : qlt _ _ = false |- _ => apply qlt_f in H
  | H : qle _ _ = true |- _ => apply qle_t in H
  | H : qle _ _ = false |- _ => apply qle_f in H
  | H : Qeq_bool _ _ = true |- _ => apply qeqb_t in H
  | H : Qeq_bool _ _ = false |- _ => apply qeqb_f in H
  | H : negb _ = true |- _ => apply negb_true_iff in H
  | H : negb _ = false |- _ => apply negb_false_iff in H
  | H : _ && _ = true |- _ => apply andb_true_iff in H as [? ?]
  | H : _ || _ = false |- _ => apply orb_false_iff in H as [? ?]
  | H : _ && _ = false |- _ => apply andb_false_iff in H
  | H : _ || _ = true |- _ => apply orb_true_iff in H
  | H : Some _ = Some _ |- _ => injection H as H
  | H : (_, _) = (_, _) |- _ => injection H; clear H; intros
  | H : Some _ = None |- _ => discriminate H
  | H : None = Some _ |- _ => discriminate H
  | H : true = false |- _ => discriminate H
  | H : false = true |- _ => discriminate H
  end.
Ltac qb := repeat qb1.

Global Arguments Qplus : simpl never.
Global Arguments Qminus : simpl never.
Global Arguments Qmult : simpl never.
Global Arguments Qdiv : simpl never.
Global Arguments Qopp : simpl never.
Global Arguments Qinv : simpl never.
Global Arguments Qabs : simpl never.
Global Arguments Qeq_bool : simpl never.
Global Arguments Qle_bool : simpl never.
Global Arguments is_zero : simpl never.
Global Arguments is_positive : simpl never.
Global Arguments is_negative : simpl never.
Global Arguments qlt : simpl never.
Global Arguments qle : simpl never.
