(** face_centroid_fast is computed in doubles: how far its answer is from the centroid. *)
From Coq Require Import QArith Qabs Reals Lra Qreals Lia.
From Flocq Require Import Core Binary Bits.
From Verif Require Import F64Model F64Base F64Arith F64Rat AllocKey.
From Verif Require CorefineModel ClaimsHash.
Local Notation fin := F64Base.fin.
Local Open Scope R_scope.

Lemma rnd_small e r : (-1000 <= e)%Z → Rabs r < bpow radix2 e → Rabs (rnd r - r) <= bpow radix2 (e - 54).
Proof.
  intros He Hr. destruct (Req_dec r 0) as [->|Hn].
  { rewrite rnd_0, Rminus_0_r, Rabs_R0. apply bpow_ge_0. }
  pose proof (error_le_half_ulp radix2 fexp64 (λ x, negb (Z.even x)) r) as H.
  change (round radix2 fexp64 (Znearest (λ x, negb (Z.even x))) r) with (rnd r) in H. eapply Rle_trans; [exact H|].
  rewrite ulp_neq_0 by exact Hn. replace (bpow radix2 (e - 54)) with (/ 2 * bpow radix2 (e - 53)).
  2: { replace (e - 54)%Z with (-1 + (e - 53))%Z by lia. rewrite bpow_plus. reflexivity. }
  apply Rmult_le_compat_l; [Lra.lra|]. apply bpow_le. unfold cexp.
  assert (mag radix2 r <= e)%Z as Hm by (apply mag_le_bpow; assumption). unfold SpecFloat.fexp, SpecFloat.emin. lia.
Qed.
Lemma trunc_small e r : (-1000 <= e)%Z → Rabs r < bpow radix2 e → Rabs (trunc64 r - r) <= bpow radix2 (e - 53).
Proof.
  intros He Hr. destruct (Req_dec r 0) as [->|Hn].
  { unfold trunc64. rewrite round_0 by typeclasses eauto. rewrite Rminus_0_r, Rabs_R0. apply bpow_ge_0. }
  pose proof (error_lt_ulp radix2 fexp64 Ztrunc r Hn) as H. apply Rlt_le in H. eapply Rle_trans; [exact H|].
  rewrite ulp_neq_0 by exact Hn. apply bpow_le. unfold cexp.
  assert (mag radix2 r <= e)%Z as Hm by (apply mag_le_bpow; assumption). unfold SpecFloat.fexp, SpecFloat.emin. lia.
Qed.
Lemma not_big r e : (e < 1023)%Z → Rabs r < bpow radix2 e → Rabs (rnd r - r) <= bpow radix2 e → ¬ bpow radix2 1024 <= Rabs (rnd r).
Proof.
  intros He Hr Hd Hb. pose proof (bpow_le radix2 (1 + e) 1024 ltac:(lia)) as H. rewrite bpow_plus in H. change (bpow radix2 1) with 2 in H.
  pose proof (Rabs_triang (rnd r - r) r) as T. replace (rnd r - r + r) with (rnd r) in T by ring. Lra.lra.
Qed.
Notation d33 := (bpow radix2 (-33)).
Lemma to_f64_far q : Rabs (Q2R q) <= 1000000 → Rabs (val (Q_to_f64 q) - Q2R q) <= d33 + d33.
Proof.
  intros B. pose proof (tq_close q) as H1. pose proof (tq_le q) as H2.
  assert (Rabs (tq q) < bpow radix2 20) as H0 by (change (bpow radix2 20) with 1048576; Lra.lra).
  pose proof (trunc_small 20 (tq q) ltac:(lia) H0) as H3. change (20 - 53)%Z with (-33)%Z in H3.
  assert (bpow radix2 (-1074) <= d33) as Hb by (apply bpow_le; lia).
  destruct (Q_to_f64_spec q) as [_ [->|[_ H]]].
  - apply Rabs_le_inv in H1, H3. apply Rabs_le. Lra.lra.
  - exfalso. pose proof (trunc_le_abs (tq q)) as H4. assert (bpow radix2 20 < bpow radix2 1024) as Hl by (apply bpow_lt; lia). Lra.lra.
Qed.
Lemma fadd_far x y : fin x → fin y → Rabs (val x + val y) < bpow radix2 22 → fin (fadd x y) ∧ Rabs (val (fadd x y) - (val x + val y)) <= bpow radix2 (-32).
Proof.
  intros Fx Fy B. pose proof (rnd_small 22 _ ltac:(lia) B) as E. change (22 - 54)%Z with (-32)%Z in E.
  destruct (fadd_spec x y Fx Fy) as [[F V]|(sg & _ & _ & Hb)].
  - split; [exact F|]. rewrite V. exact E.
  - exfalso. apply (not_big _ 22 ltac:(lia) B); [|exact Hb]. eapply Rle_trans; [exact E|]. apply bpow_le; lia.
Qed.
Lemma fdiv_far x y : fin x → fin y → val y ≠ 0 → Rabs (val x / val y) < bpow radix2 21 → fin (fdiv x y) ∧ Rabs (val (fdiv x y) - val x / val y) <= d33.
Proof.
  intros Fx Fy Hy B. pose proof (rnd_small 21 _ ltac:(lia) B) as E. change (21 - 54)%Z with (-33)%Z in E.
  pose proof (Bdiv_correct 53 1024 eq_refl eq_refl binop_nan_pl64 mode_NE x y Hy) as H0.
  change (round radix2 fexp64 (round_mode mode_NE) (val x / val y)) with (rnd (val x / val y)) in H0.
  destruct (Rlt_bool_spec (Rabs (rnd (val x / val y))) (bpow radix2 1024)) as [_|Hb].
  2: { exfalso. apply (not_big _ 21 ltac:(lia) B); [|exact Hb]. eapply Rle_trans; [exact E|]. apply bpow_le; lia. }
  destruct H0 as (H1 & H2 & _). split.
  - unfold F64Base.fin, fis_finite, fdiv, b64_div. rewrite H2. exact Fx.
  - unfold fdiv, b64_div. rewrite H1. exact E.
Qed.
Lemma three_val : fin (Q_to_f64 3) ∧ val (Q_to_f64 3) = 3.
Proof.
  split; [apply Q_to_f64_spec|]. destruct (f64_to_Q (Q_to_f64 3)) as [q|] eqn:E; [|vm_compute in E; discriminate E]. destruct (to_Q_val _ _ E) as [_ V]. rewrite <- V. clear V.
  vm_compute in E. injection E as <-. unfold Q2R. cbn [Qnum Qden]. Lra.lra.
Qed.

Local Opaque Q_to_f64 fadd fdiv.
Lemma centre_axis_ok (x y z : Q) : (Qabs x <= 1000000)%Q → (Qabs y <= 1000000)%Q → (Qabs z <= 1000000)%Q →
  ∃ c, CorefineModel.centre_axis x y z = Some c ∧ (Qabs (c - (x + y + z) / 3) <= 1 # 1000000000)%Q.
Proof.
  intros Hx%Qle_Rle Hy%Qle_Rle Hz%Qle_Rle. rewrite ClaimsHash.Q2R_abs in Hx, Hy, Hz.
  assert (Q2R 1000000 = 1000000) as E6 by (unfold Q2R; cbn; Lra.lra). rewrite E6 in Hx, Hy, Hz.
  pose proof (to_f64_far x Hx) as Tx. pose proof (to_f64_far y Hy) as Ty. pose proof (to_f64_far z Hz) as Tz.
  pose proof (proj1 (Q_to_f64_spec x)) as Fx. pose proof (proj1 (Q_to_f64_spec y)) as Fy. pose proof (proj1 (Q_to_f64_spec z)) as Fz.
  assert (d33 = / 8589934592) as D33 by reflexivity. assert (bpow radix2 (-32) = / 4294967296) as D32 by reflexivity.
  assert (bpow radix2 22 = 4194304) as D22 by reflexivity. assert (bpow radix2 21 = 2097152) as D21 by reflexivity.
  pose proof (fadd_far _ _ Fx Fy) as A1. pose proof (fdiv_far (fadd (fadd (Q_to_f64 x) (Q_to_f64 y)) (Q_to_f64 z)) (Q_to_f64 3)) as A3. destruct three_val as [F3 V3].
  unfold CorefineModel.centre_axis.
  pose proof (fadd_far (fadd (Q_to_f64 x) (Q_to_f64 y)) (Q_to_f64 z)) as A2. rewrite V3 in A3.
  rewrite D33, D32, D22, D21 in *. clear D33 D32 D22 D21.
  apply Rabs_le_inv in Tx, Ty, Tz, Hx, Hy, Hz.
  destruct A1 as [Fs Vs]. { apply Rabs_def1; Lra.lra. } specialize (A2 Fs Fz). apply Rabs_le_inv in Vs.
  destruct A2 as [Ft Vt]. { apply Rabs_def1; Lra.lra. } specialize (A3 Ft F3 ltac:(Lra.lra)). apply Rabs_le_inv in Vt.
  destruct A3 as [Fd Vd]. { apply Rabs_def1; Lra.lra. } apply Rabs_le_inv in Vd.
  destruct (to_Q_fin _ Fd) as (c & Ec & Vc). exists c. split; [exact Ec|].
  apply Rle_Qle. rewrite ClaimsHash.Q2R_abs, Q2R_minus, Q2R_div, !Q2R_plus by discriminate. rewrite Vc.
  replace (Q2R (1 # 1000000000)) with (/ 1000000000) by (unfold Q2R; cbn; Lra.lra). replace (Q2R 3) with 3 by (unfold Q2R; cbn; Lra.lra).
  apply Rabs_le. Lra.lra.
Qed.
