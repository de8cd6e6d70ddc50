(** rug::Rational::to_f64 as modelled by Q_to_f64: the largest double not above the
    value in magnitude. *)
From Coq Require Import Reals Qreals Lra.
From Flocq Require Import Core.
From Verif Require Export F64Proofs.
Open Scope Z_scope.

Lemma quot_Qeq (a b : Q) c : (a == b)%Q → Z.quot (Qnum a * c) (Zpos (Qden a)) = Z.quot (Qnum b * c) (Zpos (Qden b)).
Proof.
  intros H. unfold Qeq in H.
  rewrite <- (Z.quot_mul_cancel_r (Qnum a * c) (Zpos (Qden a)) (Zpos (Qden b))) by lia.
  rewrite <- (Z.quot_mul_cancel_r (Qnum b * c) (Zpos (Qden b)) (Zpos (Qden a))) by lia.
  f_equal; [|ring]. rewrite <- Z.mul_assoc, (Z.mul_comm c), Z.mul_assoc, H. ring.
Qed.
Lemma quot_abs n d : 0 < d → Z.abs (Z.quot n d) = Z.quot (Z.abs n) d.
Proof. intros Hd. rewrite <- (Z.abs_eq d) at 2 by lia. symmetry. apply Z.quot_abs. lia. Qed.
Lemma ipow k : 0 <= k → IZR (2 ^ k) = bpow radix2 k.
Proof. intros H. apply (IZR_Zpower radix2). exact H. Qed.
(** truncating to a smaller exponent first does not change the rounded value *)
Lemma trunc_twice A e : -1074 <= e → e = -1074 ∨ (Z.quot A (2 ^ (1074 + e)) ≠ 0 ∧ (bpow radix2 (e + 59) <= Rabs (IZR A * bpow radix2 (-1074)))%R) →
  trunc64 (IZR (Z.quot A (2 ^ (1074 + e))) * bpow radix2 e) = trunc64 (IZR A * bpow radix2 (-1074)).
Proof.
  intros He [->|[N M]]. { change (2 ^ (1074 + -1074)) with 1. rewrite Z.quot_1_r. reflexivity. }
  set (x := (IZR A * bpow radix2 (-1074))%R) in *. set (B := Z.quot A (2 ^ (1074 + e))) in *. set (y := (IZR B * bpow radix2 e)%R).
  assert (P : ∀ c, -1074 <= c → (x * bpow radix2 (- c) = IZR A / IZR (2 ^ (1074 + c)))%R).
  { intros c Hc. unfold x. rewrite Rmult_assoc, <- bpow_plus. unfold Rdiv. f_equal. rewrite ipow by lia. rewrite <- bpow_opp. f_equal. lia. }
  assert (Y : y = round radix2 (FIX_exp e) Ztrunc x).
  { unfold y, round, F2R, scaled_mantissa, cexp, FIX_exp. cbn [Fnum Fexp]. rewrite P by exact He. rewrite Ztrunc_div; [reflexivity|]. apply Z.pow_nonzero; lia. }
  assert (NY : y ≠ 0%R). { unfold y. intros E. apply Rmult_integral in E as [E|E]; [apply N, eq_IZR, E|]. pose proof (bpow_gt_0 radix2 e). lra. }
  assert (G : mag radix2 y = mag radix2 x :> Z). { rewrite Y in NY |- *. apply mag_round_ZR; [typeclasses eauto|exact NY]. }
  assert (Hm : e + 60 <= mag radix2 x). { apply mag_ge_bpow. replace (e + 60 - 1) with (e + 59) by ring. exact M. }
  unfold trunc64, round, F2R, scaled_mantissa, cexp. cbn [Fnum Fexp]. rewrite G.
  set (c := SpecFloat.fexp 53 1024 (mag radix2 x)).
  assert (Hc : e <= c). { unfold c, SpecFloat.fexp, SpecFloat.emin. lia. }
  f_equal. f_equal. rewrite P by lia. rewrite Ztrunc_div by (apply Z.pow_nonzero; lia).
  assert (Q : (y * bpow radix2 (- c) = IZR B / IZR (2 ^ (c - e)))%R).
  { unfold y. rewrite Rmult_assoc, <- bpow_plus. unfold Rdiv. f_equal. rewrite ipow by lia. rewrite <- bpow_opp. f_equal. lia. }
  rewrite Q, Ztrunc_div by (apply Z.pow_nonzero; lia). unfold B. rewrite Z.quot_quot by (apply Z.pow_nonzero; lia). f_equal.
  rewrite <- Z.pow_add_r by lia. f_equal. lia.
Qed.
(** the quotient truncated to all the bits a double can have *)
Lemma Q_to_f64_wide q : Q_to_f64 q = binary_normalize 53 1024 eq_refl eq_refl mode_ZR (Z.quot (Qnum q * 2 ^ 1074) (Zpos (Qden q))) (-1074) false.
Proof.
  unfold Q_to_f64. destruct (Z.eq_dec (Qnum q) 0) as [E0|E0].
  { rewrite E0, !Z.mul_0_l, Z.quot_0_l by lia. reflexivity. }
  set (d := Zpos (Qden q)). set (n := Qnum q). set (L := Z.log2 (Z.abs n) - Z.log2 d).
  set (e := Z.min 0 (Z.max (-1074) (L - 60))). assert (He : -1074 <= e <= 0) by (unfold e; lia).
  set (A := Z.quot (n * 2 ^ 1074) d).
  assert (EB : Z.quot (n * 2 ^ (- e)) d = Z.quot A (2 ^ (1074 + e))).
  { unfold A. assert (2 ^ (1074 + e) ≠ 0) by (apply Z.pow_nonzero; lia). rewrite Z.quot_quot by (unfold d; lia).
    replace (2 ^ 1074) with (2 ^ (- e) * 2 ^ (1074 + e)) by (rewrite <- Z.pow_add_r by lia; f_equal; lia).
    rewrite Z.mul_assoc. rewrite Z.quot_mul_cancel_r by (unfold d; lia). reflexivity. }
  rewrite EB. set (B := Z.quot A (2 ^ (1074 + e))).
  assert (C : e = -1074 ∨ (B ≠ 0 ∧ (bpow radix2 (e + 59) <= Rabs (IZR A * bpow radix2 (-1074)))%R)).
  { destruct (Z.eq_dec e (-1074)) as [E|E]; [left; exact E|right]. assert (Hl : e <= L - 60) by (unfold e in *; lia).
    assert (D0 : 0 < d) by (unfold d; lia). pose proof (Z.log2_spec d D0) as [_ D1].
    assert (N0 : 0 < Z.abs n) by (unfold n; lia).
    pose proof (Z.log2_spec _ N0) as [N1 _].
    assert (P1 : 2 ^ 59 * d <= Z.abs n * 2 ^ (- e)).
    { apply Z.le_trans with (2 ^ 59 * 2 ^ Z.succ (Z.log2 d)); [apply Z.mul_le_mono_nonneg_l; lia|]. rewrite <- Z.pow_add_r by (pose proof (Z.log2_nonneg d); lia).
      apply Z.le_trans with (2 ^ (Z.log2 (Z.abs n) + - e)).
      - apply Z.pow_le_mono_r; [lia|]. unfold L in Hl. lia.
      - rewrite Z.pow_add_r by (pose proof (Z.log2_nonneg (Z.abs n)); lia). apply Z.mul_le_mono_nonneg_r; [apply Z.pow_nonneg; lia|lia]. }
    assert (P2 : 2 ^ 59 <= Z.abs B).
    { unfold B. rewrite <- EB. rewrite quot_abs by exact D0. rewrite Z.abs_mul, (Z.abs_eq (2 ^ _)) by (apply Z.pow_nonneg; lia).
      rewrite Z.quot_div_nonneg by (try apply Z.mul_nonneg_nonneg; try apply Z.pow_nonneg; lia). apply Z.div_le_lower_bound; [exact D0|]. rewrite Z.mul_comm. exact P1. }
    split; [intros Z; rewrite Z in P2; cbn in P2; lia|].
    assert (P3 : 2 ^ 59 * 2 ^ (1074 + e) <= Z.abs A).
    { unfold B in P2. rewrite quot_abs in P2 by (apply Z.pow_pos_nonneg; lia). rewrite Z.quot_div_nonneg in P2 by (try apply Z.pow_pos_nonneg; lia).
      pose proof (Z.mul_div_le (Z.abs A) (2 ^ (1074 + e)) ltac:(apply Z.pow_pos_nonneg; lia)) as X. assert (0 < 2 ^ (1074 + e)) by (apply Z.pow_pos_nonneg; lia). nia. }
    rewrite Rabs_mult, (Rabs_right (bpow _ _)) by (apply Rle_ge, bpow_ge_0). rewrite <- abs_IZR.
    apply Rle_trans with (bpow radix2 (59 + (1074 + e)) * bpow radix2 (-1074))%R; [rewrite <- bpow_plus; apply bpow_le; lia|].
    apply Rmult_le_compat_r; [apply bpow_ge_0|]. rewrite <- ipow by lia. apply IZR_le. rewrite Z.pow_add_r by lia. exact P3. }
  pose proof (trunc_twice A e ltac:(lia) C) as T. fold B in T.
  destruct C as [->|[NB _]]. { unfold B. change (2 ^ (1074 + -1074)) with 1. rewrite Z.quot_1_r. reflexivity. }
  pose proof (binary_normalize_correct 53 1024 eq_refl eq_refl mode_ZR B e false) as H1. pose proof (binary_normalize_correct 53 1024 eq_refl eq_refl mode_ZR A (-1074) false) as H2.
  cbn zeta in H1, H2.
  change (F2R (Float radix2 B e)) with (IZR B * bpow radix2 e)%R in H1. change (F2R (Float radix2 A (-1074))) with (IZR A * bpow radix2 (-1074))%R in H2.
  change (round radix2 (SpecFloat.fexp 53 1024) (round_mode mode_ZR) (IZR B * bpow radix2 e)) with (trunc64 (IZR B * bpow radix2 e)) in H1.
  change (round radix2 (SpecFloat.fexp 53 1024) (round_mode mode_ZR) (IZR A * bpow radix2 (-1074))) with (trunc64 (IZR A * bpow radix2 (-1074))) in H2.
  rewrite T in H1.
  assert (S : Rcompare (IZR B * bpow radix2 e) 0 = Rcompare (IZR A * bpow radix2 (-1074)) 0).
  { assert (R : ∀ i k, Rcompare (IZR i * bpow radix2 k) 0 = (i ?= 0)%Z).
    { intros i k. rewrite <- (Rmult_0_l (bpow radix2 k)). rewrite Rcompare_mult_r by apply bpow_gt_0. apply Rcompare_IZR. }
    rewrite !R. unfold B in NB |- *. assert (K : 0 < 2 ^ (1074 + e)) by (apply Z.pow_pos_nonneg; lia).
    destruct (Z.lt_trichotomy A 0) as [G|[->|G]].
    - assert (A ?= 0 = Lt) as -> by exact G. apply Z.compare_lt_iff. assert (Z.quot A (2 ^ (1074 + e)) <= 0); [|lia].
      rewrite <- (Z.opp_involutive A), Z.quot_opp_l by lia. apply Z.opp_nonpos_nonneg, Z.quot_pos; lia.
    - exfalso. apply NB. apply Z.quot_0_l. lia.
    - rewrite (proj2 (Z.compare_gt_iff A 0)) by exact G. apply Z.compare_gt_iff. pose proof (Z.quot_pos A (2 ^ (1074 + e)) ltac:(lia) K). lia. }
  assert (S' : Rlt_bool (IZR B * bpow radix2 e) 0 = Rlt_bool (IZR A * bpow radix2 (-1074)) 0) by (unfold Rlt_bool; rewrite S; reflexivity).
  destruct (Rlt_bool (Rabs (trunc64 (IZR A * bpow radix2 (-1074)))) (bpow radix2 1024)).
  - destruct H1 as (V1 & F1 & G1), H2 as (V2 & F2 & G2). apply B2R_Bsign_inj; [exact F1|exact F2| |].
    + rewrite V1, V2. reflexivity.
    + rewrite G1, G2, S. reflexivity.
  - apply B2FF_inj. rewrite S' in H1. etransitivity; [exact H1|symmetry; exact H2].
Qed.
Lemma Q_to_f64_Qeq a b : (a == b)%Q → Q_to_f64 a = Q_to_f64 b.
Proof. intros H. rewrite !Q_to_f64_wide. rewrite (quot_Qeq a b _ H). reflexivity. Qed.

Lemma abs_Q2R q : Rabs (Q2R q) = (IZR (Z.abs (Qnum q)) / IZR (Zpos (Qden q)))%R.
Proof.
  unfold Q2R. rewrite Rabs_mult, abs_IZR. rewrite (Rabs_right (/ _)); [reflexivity|].
  apply Rle_ge, Rlt_le, Rinv_0_lt_compat. apply IZR_lt. lia.
Qed.
(** the truncated quotient, scaled back *)
Definition tq (q : Q) : R := (IZR (Z.quot (Qnum q * 2 ^ 1074) (Zpos (Qden q))) * bpow radix2 (-1074))%R.
Lemma pow1074 : (IZR (2 ^ 1074) = bpow radix2 1074)%R.
Proof. rewrite <- (IZR_Zpower radix2 1074) by lia. reflexivity. Qed.
Lemma tq_abs q : Rabs (tq q) = (IZR (Z.quot (Z.abs (Qnum q) * 2 ^ 1074) (Zpos (Qden q))) * bpow radix2 (-1074))%R.
Proof.
  unfold tq. rewrite Rabs_mult, (Rabs_right (bpow _ _)) by (apply Rle_ge, bpow_ge_0). rewrite <- abs_IZR, quot_abs by lia.
  rewrite Z.abs_mul. rewrite (Z.abs_eq (2 ^ 1074)) by (apply Z.pow_nonneg; lia). reflexivity.
Qed.
Lemma nn q : 0 <= Z.abs (Qnum q) * 2 ^ 1074.
Proof. apply Z.mul_nonneg_nonneg; [apply Z.abs_nonneg|apply Z.pow_nonneg; lia]. Qed.
Lemma tq_le q : (Rabs (tq q) <= Rabs (Q2R q))%R.
Proof.
  rewrite tq_abs, abs_Q2R. set (n := Z.abs (Qnum q)). set (d := Zpos (Qden q)).
  assert (Hd : (0 < IZR d)%R) by (apply IZR_lt; unfold d; lia).
  assert (H : Z.quot (n * 2 ^ 1074) d * d <= n * 2 ^ 1074).
  { rewrite Z.quot_div_nonneg by first [apply nn|unfold d; lia]. rewrite Z.mul_comm. apply Z.mul_div_le. unfold d. lia. }
  apply IZR_le in H. rewrite !mult_IZR, pow1074 in H.
  apply Rmult_le_reg_r with (bpow radix2 1074); [apply bpow_gt_0|]. rewrite Rmult_assoc, <- bpow_plus. change (bpow radix2 (-1074 + 1074)) with 1%R. rewrite Rmult_1_r.
  apply Rmult_le_reg_r with (IZR d); [exact Hd|]. unfold Rdiv. rewrite (Rmult_assoc (IZR n)), (Rmult_comm (/ IZR d)). rewrite Rmult_assoc, (Rmult_assoc (bpow radix2 1074)), Rinv_l by lra.
  rewrite Rmult_1_r. exact H.
Qed.
(** every double is a multiple of 2^-1074 *)
Lemma val_multiple x : fin x → ∃ k, val x = (IZR k * bpow radix2 (-1074))%R.
Proof.
  intros Hx. destruct x as [s|s|s pl Hpl|s m e H]; try discriminate Hx.
  - exists 0. rewrite val_zero, Rmult_0_l. reflexivity.
  - rewrite val_finite. pose proof (proj1 (bounded_iff m e) H) as B.
    assert (He : -1074 <= e) by (clear -B; lia).
    exists ((if s then Zneg m else Zpos m) * 2 ^ (e + 1074)). rewrite mult_IZR, Rmult_assoc. f_equal.
    replace (2 ^ (e + 1074)) with (Zpower radix2 (e + 1074)) by reflexivity. rewrite IZR_Zpower by lia. rewrite <- bpow_plus. f_equal. lia.
Qed.
Lemma tq_ge x q : fin x → (0 <= val x <= Rabs (Q2R q))%R → (val x <= Rabs (tq q))%R.
Proof.
  intros Hx [H0 H1]. destruct (val_multiple x Hx) as (k & Ek). rewrite tq_abs, Ek in *. rewrite abs_Q2R in H1.
  apply Rmult_le_compat_r; [apply bpow_ge_0|]. apply IZR_le.
  set (n := Z.abs (Qnum q)) in *. set (d := Zpos (Qden q)) in *.
  assert (Hd : (0 < IZR d)%R) by (apply IZR_lt; unfold d; lia).
  rewrite Z.quot_div_nonneg by first [apply nn|unfold d; lia].
  apply Z.div_le_lower_bound; [unfold d; lia|]. apply le_IZR. rewrite !mult_IZR, pow1074.
  apply Rmult_le_compat_r with (r := (IZR d * bpow radix2 1074)%R) in H1; [|apply Rmult_le_pos; [lra|apply bpow_ge_0]].
  replace (IZR k * bpow radix2 (-1074) * (IZR d * bpow radix2 1074))%R with (IZR d * IZR k * (bpow radix2 (-1074) * bpow radix2 1074))%R in H1 by ring.
  rewrite <- bpow_plus in H1. change (bpow radix2 (-1074 + 1074)) with 1%R in H1. rewrite Rmult_1_r in H1.
  replace (IZR n / IZR d * (IZR d * bpow radix2 1074))%R with (IZR n * bpow radix2 1074)%R in H1 by (field; lra). exact H1.
Qed.
Lemma fin_le_max x : fin x → (Rabs (val x) <= bpow radix2 1024 - bpow radix2 971)%R.
Proof. intros Hx. apply (abs_B2R_le_emax_minus_prec 53 1024 eq_refl x). Qed.
Lemma trunc_abs r : trunc64 (Rabs r) = Rabs (trunc64 r).
Proof. unfold trunc64. rewrite round_ZR_abs; [reflexivity|typeclasses eauto]. Qed.
Lemma trunc_le_abs r : (Rabs (trunc64 r) <= Rabs r)%R.
Proof.
  rewrite <- trunc_abs. unfold trunc64. rewrite round_ZR_DN by apply Rabs_pos. apply round_DN_pt. typeclasses eauto.
Qed.
Lemma Q_to_f64_spec q : fin (Q_to_f64 q) ∧
  (val (Q_to_f64 q) = trunc64 (tq q) ∨
   (Rabs (val (Q_to_f64 q)) = bpow radix2 1024 - bpow radix2 971 ∧ bpow radix2 1024 <= Rabs (trunc64 (tq q)))%R).
Proof.
  rewrite Q_to_f64_wide. set (i := Z.quot _ _).
  pose proof (binary_normalize_correct 53 1024 eq_refl eq_refl mode_ZR i (-1074) false) as H. cbn zeta in H.
  change (F2R (Float radix2 i (-1074))) with (tq q) in H.
  change (round radix2 (FLT_exp (3 - 1024 - 53) 53) (round_mode mode_ZR) (tq q)) with (trunc64 (tq q)) in H.
  set (x := binary_normalize 53 1024 eq_refl eq_refl mode_ZR i (-1074) false) in *. clearbody x.
  destruct (Rlt_bool _ _) eqn:E.
  - destruct H as (H1 & H2 & _). split; [exact H2|]. left. exact H1.
  - apply rlt_false in E. destruct x as [s|s|s pl Hpl|s m e B]; try discriminate H. cbn in H. injection H as -> -> ->. split; [reflexivity|]. right. split; [|exact E].
    rewrite val_finite, Rabs_mult, (Rabs_right (bpow _ _)) by (apply Rle_ge, bpow_ge_0). rewrite <- abs_IZR.
    replace (Z.abs (if Rlt_bool (tq q) 0 then Z.neg 9007199254740991 else Z.pos 9007199254740991)) with (2 ^ 53 - 1) by (destruct (Rlt_bool (tq q) 0); reflexivity).
    rewrite minus_IZR. change (IZR (2 ^ 53)) with (bpow radix2 53). change (bpow radix2 1024) with (bpow radix2 (53 + 971)). rewrite bpow_plus. cbn [Z.sub]. ring.
Qed.
(** the result is not larger than the value in magnitude, and no double lies between *)
Lemma to_f64_le q : (Rabs (val (Q_to_f64 q)) <= Rabs (Q2R q))%R.
Proof.
  destruct (Q_to_f64_spec q) as [_ [->|[-> H]]].
  - eapply Rle_trans; [apply trunc_le_abs|apply tq_le].
  - pose proof (trunc_le_abs (tq q)). pose proof (tq_le q). pose proof (bpow_gt_0 radix2 971). lra.
Qed.
Lemma to_f64_ge x q : fin x → (0 <= val x <= Rabs (Q2R q))%R → (val x <= Rabs (val (Q_to_f64 q)))%R.
Proof.
  intros Hx H. pose proof (tq_ge x q Hx H) as G. destruct (Q_to_f64_spec q) as [_ [->|[-> _]]].
  - rewrite <- trunc_abs, <- (trunc_val x). apply trunc_le, G.
  - pose proof (fin_le_max x Hx) as M. rewrite Rabs_right in M by lra. exact M.
Qed.
Lemma to_f64_mono q q' : (Rabs (Q2R q) <= Rabs (Q2R q'))%R → (Rabs (val (Q_to_f64 q)) <= Rabs (val (Q_to_f64 q')))%R.
Proof.
  intros H. destruct (fabs_fin (Q_to_f64 q) (proj1 (Q_to_f64_spec q))) as [F V]. rewrite <- V. apply to_f64_ge; [exact F|]. rewrite V. split; [apply Rabs_pos|].
  eapply Rle_trans; [apply to_f64_le|exact H].
Qed.
