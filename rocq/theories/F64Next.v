(** f64_next_up and f64_next_down. *)
From Coq Require Import Reals Lra Qreals.
From Flocq Require Import Core.
From Verif Require Export F64Base.
Open Scope Z_scope.

(** Magnitude part of the bit pattern, and the pattern as a signed integer. *)
Definition mag_bits (x : f64) : Z := f64_to_bits x - sbit (fsign x).
Definition skey (x : f64) : Z := if fsign x then - mag_bits x else mag_bits x.

Lemma mag_range x : 0 <= mag_bits x < 2 ^ 63.
Proof.
  unfold mag_bits, fsign. destruct x as [s|s|s pl Hpl|s m e H]; cbn [Bsign].
  - rewrite bits_zero. destruct s; cbn; lia.
  - rewrite bits_inf. destruct s; cbn; lia.
  - unfold f64_to_bits, bits_of_b64, bits_of_binary_float, join_bits. rewrite Z.shiftl_mul_pow2 by lia.
    pose proof Hpl as Hpl'. unfold nan_pl in Hpl'. apply Z.ltb_lt in Hpl'.
    assert (Zpos pl < 2 ^ 52).
    { rewrite Digits.Zpos_digits2_pos in Hpl'. apply (Digits.Zpower_gt_Zdigits radix2 52 (Zpos pl)). lia. }
    unfold sbit. destruct s; lia.
  - rewrite bits_finite. pose proof (proj1 (bounded_iff m e) H) as (H1 & H2 & H3). unfold sbit. destruct s; lia.
Qed.
Lemma fin_mag x : fin x ↔ mag_bits x < 2047 * 2 ^ 52.
Proof.
  unfold fin, fis_finite, mag_bits, fsign. destruct x as [s|s|s pl Hpl|s m e H]; cbn [Bsign is_finite].
  - rewrite bits_zero. destruct s; cbn; split; (reflexivity || lia).
  - rewrite bits_inf. destruct s; cbn; split; (discriminate || lia).
  - unfold f64_to_bits, bits_of_b64, bits_of_binary_float, join_bits. rewrite Z.shiftl_mul_pow2 by lia.
    unfold sbit. destruct s; split; (discriminate || lia).
  - rewrite bits_finite. pose proof (proj1 (bounded_iff m e) H) as (H1 & H2 & H3). unfold sbit. destruct s; split; (reflexivity || lia).
Qed.
Lemma inf_mag x : mag_bits x = 2047 * 2 ^ 52 → x = B754_infinity 53 1024 (fsign x).
Proof.
  intros H. apply to_bits_inj. rewrite bits_inf. unfold mag_bits in H. lia.
Qed.
Lemma sign_bits x : fsign x = (2 ^ 63 <=? f64_to_bits x).
Proof.
  pose proof (mag_range x) as H. unfold mag_bits in H. unfold sbit in H.
  destruct (fsign x); symmetry; [apply Z.leb_le|apply Z.leb_gt]; lia.
Qed.
Lemma bits_mag x : f64_to_bits x = sbit (fsign x) + mag_bits x.
Proof. unfold mag_bits. lia. Qed.
Lemma to_from_bits b : 0 <= b < 2 ^ 64 → f64_to_bits (f64_from_bits b) = b.
Proof. apply (bits_of_binary_float_of_bits 52 11). Qed.
Lemma from_bits_parts s k : 0 <= k < 2 ^ 63 →
  fsign (f64_from_bits (sbit s + k)) = s ∧ mag_bits (f64_from_bits (sbit s + k)) = k.
Proof.
  intros Hk. assert (Hb : f64_to_bits (f64_from_bits (sbit s + k)) = sbit s + k).
  { apply to_from_bits. unfold sbit. destruct s; lia. }
  assert (Hs : fsign (f64_from_bits (sbit s + k)) = s).
  { rewrite sign_bits, Hb. unfold sbit. destruct s; [apply Z.leb_le|apply Z.leb_gt]; lia. }
  split; [assumption|]. unfold mag_bits. rewrite Hs, Hb. lia.
Qed.

(** ** The order of values is the order of the signed keys *)
Lemma mag_order m e m' e' : SpecFloat.bounded 53 1024 m e = true → SpecFloat.bounded 53 1024 m' e' = true →
  (e + 1074) * 2 ^ 52 + Zpos m < (e' + 1074) * 2 ^ 52 + Zpos m' →
  (IZR (Zpos m) * bpow radix2 e < IZR (Zpos m') * bpow radix2 e')%R.
Proof.
  rewrite !bounded_iff. intros (A1 & A2 & A3) (B1 & B2 & B3) H.
  assert (He : e <= e') by lia.
  replace e' with (e + (e' - e)) by lia. rewrite bpow_plus.
  rewrite <- (IZR_Zpower radix2 (e' - e)) by lia. simpl (radix_val radix2).
  replace (IZR (Zpos m') * (bpow radix2 e * IZR (2 ^ (e' - e))))%R
    with (IZR (Zpos m' * 2 ^ (e' - e)) * bpow radix2 e)%R by (rewrite mult_IZR; ring).
  apply Rmult_lt_compat_r; [apply bpow_gt_0|]. apply IZR_lt.
  destruct (Z.eq_dec e e') as [->|Hne].
  - rewrite Z.sub_diag. lia.
  - assert (2 ^ 1 <= 2 ^ (e' - e)) by (apply Z.pow_le_mono_r; lia).
    assert (2 ^ 52 <= Zpos m') by lia.
    assert (2 ^ 52 * 2 ^ 1 <= Zpos m' * 2 ^ (e' - e)) by (apply Z.mul_le_mono_nonneg; lia). lia.
Qed.
Lemma mag_cases x : fin x → (mag_bits x = 0 ∧ x = B754_zero 53 1024 (fsign x)) ∨
  ∃ m e (H : SpecFloat.bounded 53 1024 m e = true), x = B754_finite 53 1024 (fsign x) m e H ∧
    mag_bits x = (e + 1074) * 2 ^ 52 + Zpos m.
Proof.
  intros Hx. unfold mag_bits. destruct x as [s|s|s pl Hpl|s m e H]; try discriminate Hx.
  - left. rewrite bits_zero. cbn. split; [lia|reflexivity].
  - right. exists m, e, H. rewrite bits_finite. cbn [fsign Bsign]. split; [reflexivity|]. unfold fsign. cbn [Bsign]. lia.
Qed.
Lemma key_pos m e (H : SpecFloat.bounded 53 1024 m e = true) : 0 < (e + 1074) * 2 ^ 52 + Zpos m.
Proof. pose proof (proj1 (bounded_iff m e) H) as (H1 & H2 & H3). lia. Qed.
Definition abs_val (x : f64) : R := Rabs (val x).
Lemma val_sign x : fin x → (val x = if fsign x then - abs_val x else abs_val x)%R.
Proof.
  unfold abs_val. intros Hx. destruct x as [s|s|s pl Hpl|s m e H]; try discriminate Hx; unfold fsign; cbn [Bsign].
  - cbn [B2R]. rewrite Rabs_R0. destruct s; lra.
  - rewrite val_finite. assert (0 < bpow radix2 e)%R by apply bpow_gt_0.
    assert (0 < IZR (Zpos m) * bpow radix2 e)%R by (apply Rmult_lt_0_compat; [apply IZR_lt; lia|assumption]).
    destruct s; change (Zneg m) with (- Zpos m); rewrite ?opp_IZR.
    + rewrite Rabs_left; lra.
    + rewrite Rabs_pos_eq; lra.
Qed.
Lemma abs_val_finite s m e H : abs_val (B754_finite 53 1024 s m e H) = (IZR (Zpos m) * bpow radix2 e)%R.
Proof.
  unfold abs_val. rewrite val_finite, Rabs_mult, (Rabs_pos_eq (bpow _ _)) by (apply Rlt_le, bpow_gt_0).
  rewrite <- abs_IZR. destruct s; reflexivity.
Qed.
Lemma abs_lt x y : fin x → fin y → mag_bits x < mag_bits y → (abs_val x < abs_val y)%R.
Proof.
  intros Hx Hy. destruct (mag_cases x Hx) as [[Ex Zx]|(m & e & H & Zx & Ex)], (mag_cases y Hy) as [[Ey Zy]|(m' & e' & H' & Zy & Ey)];
    rewrite Ex, Ey, Zx, Zy, ?abs_val_finite.
  - lia.
  - intros _. unfold abs_val. cbn [B2R]. rewrite Rabs_R0. apply Rmult_lt_0_compat; [apply IZR_lt; lia|apply bpow_gt_0].
  - pose proof (key_pos m e H). lia.
  - apply mag_order; assumption.
Qed.
Lemma abs_eq x y : fin x → fin y → mag_bits x = mag_bits y → abs_val x = abs_val y.
Proof.
  intros Hx Hy E. assert (G : fabs x = fabs y).
  { apply to_bits_inj.
    assert (F : ∀ z, fin z → f64_to_bits (fabs z) = mag_bits z).
    { intros z Hz. destruct (mag_cases z Hz) as [[Ez ->]|(m & e & H & -> & Ez)].
      - unfold mag_bits, fsign. cbn [Bsign]. rewrite !bits_zero. unfold fabs, b64_abs. cbn [Babs]. rewrite bits_zero. destruct (Bsign _ _ _); cbn; lia.
      - unfold mag_bits, fsign. cbn [Bsign]. unfold fabs, b64_abs. cbn [Babs]. rewrite !bits_finite. cbn [sbit]. lia. }
    rewrite !F by assumption. assumption. }
  unfold abs_val. rewrite <- (proj2 (fabs_fin x Hx)), <- (proj2 (fabs_fin y Hy)), G. reflexivity.
Qed.
Lemma abs_val_nonneg x : (0 <= abs_val x)%R. Proof. apply Rabs_pos. Qed.
Lemma abs_val_pos x : fin x → 0 < mag_bits x → (0 < abs_val x)%R.
Proof.
  intros Hx H. pose proof (abs_lt fzero x fin_fzero Hx) as G. unfold abs_val in G at 1. rewrite val_fzero, Rabs_R0 in G.
  apply G. exact H.
Qed.
Lemma abs_val_0 x : fin x → mag_bits x = 0 → abs_val x = 0%R.
Proof. intros Hx H. rewrite (abs_eq x fzero Hx fin_fzero H). unfold abs_val. rewrite val_fzero. apply Rabs_R0. Qed.

Lemma val_lt_key x y : fin x → fin y → skey x < skey y → (val x < val y)%R.
Proof.
  intros Hx Hy H. rewrite (val_sign x Hx), (val_sign y Hy). unfold skey in H.
  pose proof (mag_range x). pose proof (mag_range y). pose proof (abs_val_nonneg x). pose proof (abs_val_nonneg y).
  destruct (fsign x), (fsign y).
  - assert (abs_val y < abs_val x)%R by (apply abs_lt; lia || assumption). lra.
  - destruct (Z.eq_dec (mag_bits x) 0) as [E|E].
    + assert (0 < abs_val y)%R by (apply abs_val_pos; lia || assumption). lra.
    + assert (0 < abs_val x)%R by (apply abs_val_pos; lia || assumption). lra.
  - lia.
  - apply abs_lt; lia || assumption.
Qed.
Lemma val_eq_key x y : fin x → fin y → skey x = skey y → (val x = val y)%R.
Proof.
  intros Hx Hy H. rewrite (val_sign x Hx), (val_sign y Hy). unfold skey in H.
  pose proof (mag_range x). pose proof (mag_range y).
  destruct (fsign x), (fsign y).
  - rewrite (abs_eq x y) by (lia || assumption). reflexivity.
  - rewrite (abs_val_0 x), (abs_val_0 y) by (lia || assumption). lra.
  - rewrite (abs_val_0 x), (abs_val_0 y) by (lia || assumption). lra.
  - rewrite (abs_eq x y) by (lia || assumption). reflexivity.
Qed.
Lemma val_lt_iff x y : fin x → fin y → (val x < val y)%R ↔ skey x < skey y.
Proof.
  intros Hx Hy. split; [|apply val_lt_key; assumption]. intros H.
  destruct (Z.lt_trichotomy (skey x) (skey y)) as [|[E|E]]; [assumption| |].
  - pose proof (val_eq_key x y Hx Hy E). lra.
  - pose proof (val_lt_key y x Hy Hx E). lra.
Qed.
Lemma val_eq_iff x y : fin x → fin y → (val x = val y)%R ↔ skey x = skey y.
Proof.
  intros Hx Hy. split; [|apply val_eq_key; assumption]. intros H.
  destruct (Z.lt_trichotomy (skey x) (skey y)) as [E|[|E]]; [|assumption|].
  - pose proof (val_lt_key x y Hx Hy E). lra.
  - pose proof (val_lt_key y x Hy Hx E). lra.
Qed.
Lemma skey_zero : skey fzero = 0. Proof. reflexivity. Qed.

(** ** next_up *)
Lemma not_nan x : fin x → fis_nan x = false.
Proof. unfold fin, fis_finite, fis_nan. destruct x; cbn; congruence. Qed.
Lemma feq_inf x s : fin x → feq x (B754_infinity 53 1024 s) = false.
Proof. unfold fin, fis_finite. destruct x as [t|t|t pl Hpl|t m e H], s; cbn; try discriminate; try reflexivity; destruct t; reflexivity. Qed.
Lemma finf_eq : finf = B754_infinity 53 1024 false. Proof. apply to_bits_inj. reflexivity. Qed.
Lemma fneg_inf_eq : fneg_inf = B754_infinity 53 1024 true. Proof. apply to_bits_inj. reflexivity. Qed.

Lemma next_up_key x : fin x → skey x ≠ 0 →
  let y := f64_next_up x in
  (fin y ∧ skey y = skey x + 1) ∨ (y = finf ∧ skey x = 2047 * 2 ^ 52 - 1).
Proof.
  intros Hx Hz y. unfold y, f64_next_up. rewrite (not_nan x Hx), finf_eq, (feq_inf x false Hx). cbn [orb].
  assert (E : feq x fzero = false).
  { destruct (feq x fzero) eqn:E; [|reflexivity]. apply (feq_t x fzero Hx fin_fzero) in E.
    apply (val_eq_iff x fzero Hx fin_fzero) in E. rewrite skey_zero in E. contradiction. }
  rewrite E. clear E. pose proof (mag_range x) as Hm. pose proof (proj1 (fin_mag x) Hx) as Hf.
  assert (G : fge x fzero = negb (fsign x)).
  { unfold fge. destruct (fle fzero x) eqn:G.
    - apply (fle_t fzero x fin_fzero Hx) in G. destruct (fsign x) eqn:S; [exfalso|reflexivity].
      assert (skey x < skey fzero) as Hk%(val_lt_iff x fzero Hx fin_fzero) by (rewrite skey_zero; unfold skey in *; rewrite S in *; lia). lra.
    - apply (fle_f fzero x fin_fzero Hx) in G. apply (val_lt_iff x fzero Hx fin_fzero) in G. rewrite skey_zero in G.
      unfold skey in *. destruct (fsign x); [reflexivity|lia]. }
  rewrite G, bits_mag. unfold skey in *. destruct (fsign x) eqn:S; cbn [negb].
  - replace (sbit true + mag_bits x - 1) with (sbit true + (mag_bits x - 1)) by lia.
    destruct (from_bits_parts true (mag_bits x - 1) ltac:(lia)) as [A B].
    set (z := f64_from_bits (sbit true + (mag_bits x - 1))) in *. left. rewrite A, B. split; [|lia].
    apply fin_mag. lia.
  - replace (sbit false + mag_bits x + 1) with (sbit false + (mag_bits x + 1)) by lia.
    destruct (from_bits_parts false (mag_bits x + 1) ltac:(lia)) as [A B].
    set (z := f64_from_bits (sbit false + (mag_bits x + 1))) in *.
    destruct (Z.eq_dec (mag_bits x) (2047 * 2 ^ 52 - 1)) as [E|E].
    + right. split; [|assumption]. rewrite <- A. apply inf_mag. lia.
    + left. rewrite A, B. split; [|lia]. apply fin_mag. lia.
Qed.
Lemma next_down_key x : fin x → skey x ≠ 0 →
  let y := f64_next_down x in
  (fin y ∧ skey y = skey x - 1) ∨ (y = fneg_inf ∧ skey x = - (2047 * 2 ^ 52 - 1)).
Proof.
  intros Hx Hz y. unfold y, f64_next_down. rewrite (not_nan x Hx), fneg_inf_eq, (feq_inf x true Hx). cbn [orb].
  assert (E : feq x fzero = false).
  { destruct (feq x fzero) eqn:E; [|reflexivity]. apply (feq_t x fzero Hx fin_fzero) in E.
    apply (val_eq_iff x fzero Hx fin_fzero) in E. rewrite skey_zero in E. contradiction. }
  rewrite E. clear E. pose proof (mag_range x) as Hm. pose proof (proj1 (fin_mag x) Hx) as Hf.
  assert (G : fgt x fzero = negb (fsign x)).
  { unfold fgt. destruct (flt fzero x) eqn:G.
    - apply (flt_t fzero x fin_fzero Hx) in G. apply (val_lt_iff fzero x fin_fzero Hx) in G. rewrite skey_zero in G.
      unfold skey in *. destruct (fsign x); [lia|reflexivity].
    - apply (flt_f fzero x fin_fzero Hx) in G. destruct (fsign x) eqn:S; [reflexivity|exfalso].
      assert (skey fzero < skey x) as Hk%(val_lt_iff fzero x fin_fzero Hx) by (rewrite skey_zero; unfold skey in *; rewrite S in *; lia). lra. }
  rewrite G, bits_mag. unfold skey in *. destruct (fsign x) eqn:S; cbn [negb].
  - replace (sbit true + mag_bits x + 1) with (sbit true + (mag_bits x + 1)) by lia.
    destruct (from_bits_parts true (mag_bits x + 1) ltac:(lia)) as [A B].
    set (z := f64_from_bits (sbit true + (mag_bits x + 1))) in *.
    destruct (Z.eq_dec (mag_bits x) (2047 * 2 ^ 52 - 1)) as [E|E].
    + right. split; [|lia]. rewrite <- A. apply inf_mag. lia.
    + left. rewrite A, B. split; [|lia]. apply fin_mag. lia.
  - replace (sbit false + mag_bits x - 1) with (sbit false + (mag_bits x - 1)) by lia.
    destruct (from_bits_parts false (mag_bits x - 1) ltac:(lia)) as [A B].
    set (z := f64_from_bits (sbit false + (mag_bits x - 1))) in *. left. rewrite A, B. split; [|lia].
    apply fin_mag. lia.
Qed.
Lemma next_up_zero x : fin x → skey x = 0 → f64_next_up x = fmin_positive.
Proof.
  intros Hx H. unfold f64_next_up. rewrite (not_nan x Hx), finf_eq, (feq_inf x false Hx). cbn [orb].
  replace (feq x fzero) with true; [reflexivity|]. symmetry. apply (feq_t x fzero Hx fin_fzero).
  apply (val_eq_iff x fzero Hx fin_fzero). assumption.
Qed.
Lemma next_down_zero x : fin x → skey x = 0 → f64_next_down x = fneg fmin_positive.
Proof.
  intros Hx H. unfold f64_next_down. rewrite (not_nan x Hx), fneg_inf_eq, (feq_inf x true Hx). cbn [orb].
  replace (feq x fzero) with true; [reflexivity|]. symmetry. apply (feq_t x fzero Hx fin_fzero).
  apply (val_eq_iff x fzero Hx fin_fzero). assumption.
Qed.
Lemma fin_min_positive : fin fmin_positive ∧ skey fmin_positive = 2 ^ 52. Proof. split; reflexivity. Qed.
Lemma fin_neg_min_positive : fin (fneg fmin_positive) ∧ skey (fneg fmin_positive) = - 2 ^ 52. Proof. split; reflexivity. Qed.

(** Doubles above [x] are at least next_up x (x non-zero). *)
Lemma next_up_above x : fin x → (fin (f64_next_up x) ∧ (val x < val (f64_next_up x))%R) ∨
  (f64_next_up x = finf ∧ ∀ y, fin y → (val y <= val x)%R).
Proof.
  intros Hx. destruct (Z.eq_dec (skey x) 0) as [E|E].
  - left. rewrite (next_up_zero x Hx E). destruct fin_min_positive as [A B]. split; [assumption|].
    apply val_lt_key; [assumption|assumption|]. rewrite E, B. lia.
  - destruct (next_up_key x Hx E) as [[A B]|[A B]].
    + left. split; [assumption|]. apply val_lt_key; [assumption|assumption|lia].
    + right. split; [assumption|]. intros y Hy. apply Rnot_lt_le. rewrite val_lt_iff by assumption.
      pose proof (proj1 (fin_mag y) Hy). pose proof (mag_range y). unfold skey at 2. destruct (fsign y); lia.
Qed.
Lemma next_down_below x : fin x → (fin (f64_next_down x) ∧ (val (f64_next_down x) < val x)%R) ∨
  (f64_next_down x = fneg_inf ∧ ∀ y, fin y → (val x <= val y)%R).
Proof.
  intros Hx. destruct (Z.eq_dec (skey x) 0) as [E|E].
  - left. rewrite (next_down_zero x Hx E). destruct fin_neg_min_positive as [A B]. split; [assumption|].
    apply val_lt_key; [assumption|assumption|]. rewrite E, B. lia.
  - destruct (next_down_key x Hx E) as [[A B]|[A B]].
    + left. split; [assumption|]. apply val_lt_key; [assumption|assumption|lia].
    + right. split; [assumption|]. intros y Hy. apply Rnot_lt_le. rewrite val_lt_iff by assumption.
      pose proof (proj1 (fin_mag y) Hy). pose proof (mag_range y). unfold skey at 1. destruct (fsign y); lia.
Qed.
Lemma next_up_least x y : fin x → (val x ≠ 0)%R → fin (f64_next_up x) → fin y → (val x < val y)%R →
  (val (f64_next_up x) <= val y)%R.
Proof.
  intros Hx Hz Hu Hy H. assert (E : skey x ≠ 0).
  { rewrite <- skey_zero. rewrite <- val_eq_iff; [assumption|assumption|apply fin_fzero]. }
  destruct (next_up_key x Hx E) as [[A B]|[A B]]; [|rewrite A in Hu; discriminate].
  apply Rnot_lt_le. rewrite val_lt_iff by assumption. rewrite val_lt_iff in H by assumption. lia.
Qed.
Lemma next_down_greatest x y : fin x → (val x ≠ 0)%R → fin (f64_next_down x) → fin y → (val y < val x)%R →
  (val y <= val (f64_next_down x))%R.
Proof.
  intros Hx Hz Hu Hy H. assert (E : skey x ≠ 0).
  { rewrite <- skey_zero. rewrite <- val_eq_iff; [assumption|assumption|apply fin_fzero]. }
  destruct (next_down_key x Hx E) as [[A B]|[A B]]; [|rewrite A in Hu; discriminate].
  apply Rnot_lt_le. rewrite val_lt_iff by assumption. rewrite val_lt_iff in H by assumption. lia.
Qed.
