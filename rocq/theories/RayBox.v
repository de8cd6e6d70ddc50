(** The boxes of compute_triangle_aabb_fast contain triangles whose coordinates are
    doubles. *)
From Coq Require Import Reals Qreals Lra Utf8_core.
From Verif Require Import AabbRat F64Rat F64Arith.
From Verif Require F64Next RayModel RaySpec.
Open Scope R_scope.

Lemma double_exact q : RaySpec.is_double q → fin (Q_to_f64 q) ∧ val (Q_to_f64 q) = Q2R q.
Proof.
  intros (x & q' & Hx & E). destruct (to_Q_val x q' Hx) as [F V]. assert (Q2R q = val x) as Eq by (rewrite <- V; symmetry; apply Qeq_eqR, E).
  pose proof (Q_to_f64_spec q) as [Fq _]. split; [exact Fq|]. destruct (fabs_fin x F) as [Fa Va].
  pose proof (to_f64_le q) as H1. pose proof (to_f64_ge (fabs x) q Fa) as H2. rewrite Va, <- Eq in H2.
  assert (Rabs (Q2R q) <= Rabs (val (Q_to_f64 q))) as H3. { apply H2. split; [apply Rabs_pos|apply Rle_refl]. }
  destruct (Q_to_f64_sign q) as [S1 S2]. destruct (Rle_or_lt 0 (Q2R q)) as [L|L].
  - specialize (S1 L). rewrite !Rabs_pos_eq in H1, H3 by assumption. lra.
  - specialize (S2 (Rlt_le _ _ L)). rewrite !Rabs_left1 in H1, H3 by lra. lra.
Qed.
Lemma fmin_ok a b : fin a → fin b → fin (f64_min a b) ∧ val (f64_min a b) <= val a ∧ val (f64_min a b) <= val b.
Proof.
  intros A B. unfold f64_min. rewrite (F64Next.not_nan a A), (F64Next.not_nan b B). destruct (flt b a) eqn:E.
  - apply flt_t in E; [|assumption..]. repeat split; try assumption; lra.
  - apply flt_f in E; [|assumption..]. repeat split; try assumption; lra.
Qed.
Lemma fmax_ok a b : fin a → fin b → fin (f64_max a b) ∧ val a <= val (f64_max a b) ∧ val b <= val (f64_max a b).
Proof.
  intros A B. unfold f64_max. rewrite (F64Next.not_nan a A), (F64Next.not_nan b B). destruct (flt a b) eqn:E.
  - apply flt_t in E; [|assumption..]. repeat split; try assumption; lra.
  - apply flt_f in E; [|assumption..]. repeat split; try assumption; lra.
Qed.
Lemma fast_axis_ok x y z : RaySpec.is_double x → RaySpec.is_double y → RaySpec.is_double z →
  ∃ lo hi, RayModel.fast_axis x y z = Some (lo, hi) ∧ (lo <= x ∧ lo <= y ∧ lo <= z ∧ x <= hi ∧ y <= hi ∧ z <= hi)%Q.
Proof.
  intros Dx Dy Dz. apply double_exact in Dx as [Fx Vx], Dy as [Fy Vy], Dz as [Fz Vz]. unfold RayModel.fast_axis. cbv zeta.
  destruct (fmin_ok _ _ Fx Fy) as (F1 & L1 & L2). destruct (fmin_ok _ _ F1 Fz) as (F2 & L3 & L4).
  destruct (fmax_ok _ _ Fx Fy) as (G1 & M1 & M2). destruct (fmax_ok _ _ G1 Fz) as (G2 & M3 & M4).
  destruct (to_Q_fin _ F2) as (lo & -> & Vlo). destruct (to_Q_fin _ G2) as (hi & -> & Vhi). exists lo, hi. split; [reflexivity|].
  repeat split; apply Rle_Qle; lra.
Qed.
