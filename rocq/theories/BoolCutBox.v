(** The boxes of faces are the exact boxes of the corners rounded to doubles. *)
From Coq Require Import Reals Qreals Lra Utf8_core.
From Verif Require Import AabbRat F64Rat F64Arith RayBox.
From Verif Require F64Next RayModel RaySpec BoolCutSpec.
Open Scope R_scope.

(** the double to which a rational is rounded, as a rational *)
Definition dv (x : Q) : Q := match f64_to_Q (Q_to_f64 x) with Some y => y | None => 0%Q end.
Lemma dv_ok x : BoolCutSpec.rounded x (dv x).
Proof.
  unfold BoolCutSpec.rounded, dv. destruct (to_Q_fin _ (proj1 (Q_to_f64_spec x))) as (y & -> & _). reflexivity.
Qed.
Lemma dv_val x : Q2R (dv x) = val (Q_to_f64 x).
Proof. unfold dv. destruct (to_Q_fin _ (proj1 (Q_to_f64_spec x))) as (y & -> & V). exact V. Qed.
Lemma dv_mono x y : (x <= y)%Q → (dv x <= dv y)%Q.
Proof.
  intros H. apply Rle_Qle. rewrite !dv_val. pose proof (proj1 (Q_to_f64_spec x)) as Fx. pose proof (proj1 (Q_to_f64_spec y)) as Fy.
  apply Qle_bool_iff, Q_to_f64_key in H. destruct (Z.eq_dec (skey (Q_to_f64 x)) (skey (Q_to_f64 y))) as [E|E].
  - rewrite (F64Next.val_eq_key _ _ Fx Fy E). lra.
  - assert (L : (skey (Q_to_f64 x) < skey (Q_to_f64 y))%Z) by lia. pose proof (F64Next.val_lt_key _ _ Fx Fy L). lra.
Qed.

Lemma fmin_one a b : fin a → fin b → val (f64_min a b) = val a ∨ val (f64_min a b) = val b.
Proof.
  intros A B. unfold f64_min. rewrite (F64Next.not_nan a A), (F64Next.not_nan b B). destruct (flt b a); auto.
Qed.
Lemma fmax_one a b : fin a → fin b → val (f64_max a b) = val a ∨ val (f64_max a b) = val b.
Proof.
  intros A B. unfold f64_max. rewrite (F64Next.not_nan a A), (F64Next.not_nan b B). destruct (flt a b); auto.
Qed.
Lemma fast_axis_tight x y z :
  ∃ lo hi, RayModel.fast_axis x y z = Some (lo, hi) ∧ (lo <= dv x ∧ lo <= dv y ∧ lo <= dv z ∧ dv x <= hi ∧ dv y <= hi ∧ dv z <= hi)%Q ∧
    (lo == dv x ∨ lo == dv y ∨ lo == dv z)%Q ∧ (hi == dv x ∨ hi == dv y ∨ hi == dv z)%Q.
Proof.
  pose proof (proj1 (Q_to_f64_spec x)) as Fx. pose proof (proj1 (Q_to_f64_spec y)) as Fy. pose proof (proj1 (Q_to_f64_spec z)) as Fz.
  pose proof (dv_val x) as Vx. pose proof (dv_val y) as Vy. pose proof (dv_val z) as Vz. unfold RayModel.fast_axis. cbv zeta.
  destruct (fmin_ok _ _ Fx Fy) as (F1 & L1 & L2). destruct (fmin_ok _ _ F1 Fz) as (F2 & L3 & L4).
  destruct (fmax_ok _ _ Fx Fy) as (G1 & M1 & M2). destruct (fmax_ok _ _ G1 Fz) as (G2 & M3 & M4).
  destruct (to_Q_fin _ F2) as (lo & -> & Vlo). destruct (to_Q_fin _ G2) as (hi & -> & Vhi). exists lo, hi. split; [reflexivity|].
  split; [|split].
  - repeat split; apply Rle_Qle; lra.
  - destruct (fmin_one _ _ F1 Fz) as [V|V]; [destruct (fmin_one _ _ Fx Fy) as [W|W]|]; [left|right; left|right; right]; apply eqR_Qeq; lra.
  - destruct (fmax_one _ _ G1 Fz) as [V|V]; [destruct (fmax_one _ _ Fx Fy) as [W|W]|]; [left|right; left|right; right]; apply eqR_Qeq; lra.
Qed.
