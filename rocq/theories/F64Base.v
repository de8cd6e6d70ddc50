(** Basic facts about the f64 model: bit patterns, values and comparisons. *)
From Coq Require Import Reals Lra Qreals.
From Flocq Require Import Core.
From Verif Require Export F64Model.
Open Scope Z_scope.
Notation "'val' x" := (B2R 53 1024 x) (at level 10).

(** ** Mantissas and exponents *)
Lemma bounded_iff m e : SpecFloat.bounded 53 1024 m e = true ↔
  (Zpos m < 2 ^ 53 ∧ (e = -1074 ∨ (2 ^ 52 <= Zpos m ∧ -1074 < e)) ∧ e <= 971).
Proof.
  unfold SpecFloat.bounded, SpecFloat.canonical_mantissa. rewrite andb_true_iff, Z.leb_le.
  assert (Hz : Zeq_bool (SpecFloat.fexp 53 1024 (Zpos (digits2_pos m) + e)) e = true ↔
    SpecFloat.fexp 53 1024 (Zpos (digits2_pos m) + e) = e).
  { pose proof (Zeq_bool_if (SpecFloat.fexp 53 1024 (Zpos (digits2_pos m) + e)) e). destruct (Zeq_bool _ _); split; congruence. }
  rewrite Hz. unfold SpecFloat.fexp, SpecFloat.emin.
  rewrite Digits.Zpos_digits2_pos.
  pose proof (Digits.Zdigits_correct radix2 (Zpos m)) as Hd. rewrite Z.abs_eq in Hd by lia.
  assert (Hp : 0 < Digits.Zdigits radix2 (Zpos m)) by (apply Digits.Zdigits_gt_0; lia).
  set (d := Digits.Zdigits radix2 (Zpos m)) in *. simpl (radix_val radix2) in Hd.
  change (1024 - 53) with 971. split.
  - intros [H1 H2]. split; [|split].
    + apply Z.lt_le_trans with (2 ^ d); [lia|]. apply Z.pow_le_mono_r; lia.
    + destruct (Z.eq_dec e (-1074)); [left; assumption|right]. assert (d = 53) by lia. rewrite H in Hd. change (53 - 1) with 52 in Hd. split; [tauto|lia].
    + lia.
  - intros (H1 & H2 & H3).
    assert (d <= 53). { destruct (Z.le_gt_cases d 53); [assumption|]. assert (2 ^ 53 <= 2 ^ (d - 1)) by (apply Z.pow_le_mono_r; lia). lia. }
    split; [|lia]. destruct H2 as [->|[H2 H4]]; [lia|].
    assert (53 <= d). { destruct (Z.le_gt_cases 53 d); [assumption|]. assert (2 ^ d <= 2 ^ 52) by (apply Z.pow_le_mono_r; lia). lia. }
    lia.
Qed.

(** The bit pattern of a finite double is linear in mantissa and exponent. *)
Definition sbit (s : bool) : Z := if s then 2 ^ 63 else 0.
Lemma bits_finite s m e H : f64_to_bits (B754_finite 53 1024 s m e H) = sbit s + (e + 1074) * 2 ^ 52 + Zpos m.
Proof.
  unfold f64_to_bits, bits_of_b64, bits_of_binary_float, join_bits.
  pose proof (proj1 (bounded_iff m e) H) as (H1 & H2 & H3).
  destruct (Zle_bool_spec 0 (Zpos m - 2 ^ 52)) as [Hm|Hm]; rewrite Z.shiftl_mul_pow2 by lia; unfold sbit; destruct s;
    change (2 ^ 63) with (2 ^ 11 * 2 ^ 52); change (3 - 2 ^ (11 - 1) - (52 + 1)) with (-1074);
    try (assert (e = -1074) by lia; subst e); change (SpecFloat.emin (52 + 1) (2 ^ (11 - 1))) with (-1074); lia.
Qed.
Lemma bits_zero s : f64_to_bits (B754_zero 53 1024 s) = sbit s.
Proof. destruct s; reflexivity. Qed.
Lemma bits_inf s : f64_to_bits (B754_infinity 53 1024 s) = sbit s + 2047 * 2 ^ 52.
Proof. destruct s; reflexivity. Qed.
Lemma from_to_bits x : f64_from_bits (f64_to_bits x) = x.
Proof. apply (binary_float_of_bits_of_binary_float 52 11). Qed.
Lemma from_bits_eq b x : f64_to_bits x = b → f64_from_bits b = x.
Proof. intros <-. apply from_to_bits. Qed.
Lemma to_bits_inj x y : f64_to_bits x = f64_to_bits y → x = y.
Proof. intros H. rewrite <- (from_to_bits x), <- (from_to_bits y), H. reflexivity. Qed.
Lemma to_bits_range x : 0 <= f64_to_bits x < 2 ^ 64.
Proof. apply (bits_of_binary_float_range 52 11); lia. Qed.

(** ** Values and comparisons *)
Definition fin (x : f64) : Prop := fis_finite x = true.
Lemma compare_fin x y : fin x → fin y → b64_compare x y = Some (Rcompare (val x) (val y)).
Proof. apply Bcompare_correct. Qed.
Lemma flt_t x y : fin x → fin y → flt x y = true ↔ (val x < val y)%R.
Proof. intros Hx Hy. unfold flt. rewrite compare_fin by assumption. destruct (Rcompare_spec (val x) (val y)); split; try discriminate; try reflexivity; lra. Qed.
Lemma fle_t x y : fin x → fin y → fle x y = true ↔ (val x <= val y)%R.
Proof. intros Hx Hy. unfold fle. rewrite compare_fin by assumption. destruct (Rcompare_spec (val x) (val y)); split; try discriminate; try reflexivity; lra. Qed.
Lemma feq_t x y : fin x → fin y → feq x y = true ↔ (val x = val y)%R.
Proof. intros Hx Hy. unfold feq. rewrite compare_fin by assumption. destruct (Rcompare_spec (val x) (val y)); split; try discriminate; try reflexivity; lra. Qed.
Lemma flt_f x y : fin x → fin y → flt x y = false ↔ (val y <= val x)%R.
Proof. intros Hx Hy. unfold flt. rewrite compare_fin by assumption. destruct (Rcompare_spec (val x) (val y)); split; try discriminate; try reflexivity; lra. Qed.
Lemma fle_f x y : fin x → fin y → fle x y = false ↔ (val y < val x)%R.
Proof. intros Hx Hy. unfold fle. rewrite compare_fin by assumption. destruct (Rcompare_spec (val x) (val y)); split; try discriminate; try reflexivity; lra. Qed.

Lemma val_zero s : val (B754_zero 53 1024 s) = 0%R. Proof. reflexivity. Qed.
Lemma val_finite s m e H : val (B754_finite 53 1024 s m e H) = (IZR (if s then Zneg m else Zpos m) * bpow radix2 e)%R.
Proof. destruct s; reflexivity. Qed.
Lemma fin_fzero : fin fzero. Proof. reflexivity. Qed.
Lemma val_fzero : val fzero = 0%R. Proof. reflexivity. Qed.
Lemma fin_EPS : fin EPS. Proof. reflexivity. Qed.
Lemma fneg_fin x : fin x → fin (fneg x) ∧ val (fneg x) = (- val x)%R.
Proof.
  intros H. split.
  - unfold fin, fis_finite, fneg, b64_opp. rewrite is_finite_Bopp. assumption.
  - apply B2R_Bopp.
Qed.
Lemma fabs_fin x : fin x → fin (fabs x) ∧ val (fabs x) = Rabs (val x).
Proof.
  intros H. split.
  - unfold fin, fis_finite, fabs, b64_abs. rewrite is_finite_Babs. assumption.
  - apply B2R_Babs.
Qed.
