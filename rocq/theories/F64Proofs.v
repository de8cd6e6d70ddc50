(** Proofs about util.rs, cgar_f64.rs and spatial_hash.rs. *)
From Coq Require Import Reals Lra.
From Flocq Require Import Core.
From Verif Require Export F64Arith.
Open Scope Z_scope.

(** ** Truncation brackets *)
Definition trunc64 (r : R) : R := round radix2 fexp64 Ztrunc r.
Lemma trunc_le x y : (x <= y)%R → (trunc64 x <= trunc64 y)%R.
Proof. apply round_le; typeclasses eauto. Qed.
Lemma trunc_val x : trunc64 (val x) = val x.
Proof. apply round_generic; [typeclasses eauto|]. apply generic_format_B2R. Qed.
Lemma trunc_up x r : fin x → trunc64 r = val x → fin (f64_next_up x) → (r <= val (f64_next_up x))%R.
Proof.
  intros Hx Hr Hu. apply Rnot_lt_le. intros Hl. destruct (next_up_above x Hx) as [[_ Ha]|[Ha _]].
  - pose proof (trunc_le _ _ (Rlt_le _ _ Hl)) as Ht. rewrite trunc_val in Ht. lra.
  - rewrite Ha in Hu. discriminate Hu.
Qed.
Lemma trunc_down x r : fin x → trunc64 r = val x → fin (f64_next_down x) → (val (f64_next_down x) <= r)%R.
Proof.
  intros Hx Hr Hu. apply Rnot_lt_le. intros Hl. destruct (next_down_below x Hx) as [[_ Ha]|[Ha _]].
  - pose proof (trunc_le _ _ (Rlt_le _ _ Hl)) as Ht. rewrite trunc_val in Ht. lra.
  - rewrite Ha in Hu. discriminate Hu.
Qed.

(** ** CgarF64: sign predicates *)
Definition fin_negEPS : fin (fneg EPS) := proj1 (fneg_fin EPS fin_EPS).
Definition val_negEPS : (val (fneg EPS) = - val EPS)%R := proj2 (fneg_fin EPS fin_EPS).
Lemma is_zero_t x : fin x → cgar_is_zero x = true ↔ (Rabs (val x) < val EPS)%R.
Proof.
  intros Hx. destruct (fabs_fin x Hx) as [Ha Va]. unfold cgar_is_zero.
  rewrite flt_t by (assumption || exact fin_EPS). rewrite Va. reflexivity.
Qed.
Lemma is_positive_t x : fin x → cgar_is_positive x = true ↔ (val EPS < val x)%R.
Proof. intros Hx. unfold cgar_is_positive, fgt. apply flt_t; [exact fin_EPS|assumption]. Qed.
Lemma is_negative_t x : fin x → cgar_is_negative x = true ↔ (val x < - val EPS)%R.
Proof. intros Hx. unfold cgar_is_negative. rewrite flt_t by (assumption || exact fin_negEPS). rewrite val_negEPS. reflexivity. Qed.

(** ** CgarF64: partial_cmp of finite values *)
Lemma rnd_sub_lt a b : (val a < val b)%R → (rnd (val a - val b) < 0)%R ∨ (rnd (val a - val b) = 0)%R.
Proof. intros H. assert (rnd (val a - val b) <= rnd 0)%R by (apply rnd_le; lra). rewrite rnd_0 in H0. lra. Qed.

Lemma partial_cmp_fin a b : fin a → fin b →
  cgar_partial_cmp a b = Some (
    if Rlt_dec (Rabs (rnd (val a - val b))) (val EPS) then Eq else Rcompare (val a) (val b)).
Proof.
  intros Ha Hb. pose proof val_EPS_pos as He. unfold cgar_partial_cmp, fgt.
  destruct (fsub_spec a b Ha Hb) as [[Hf Hv]|(s & Hs & Hc & Hbig)].
  - destruct (fabs_fin _ Hf) as [Hfa Hva]. rewrite compare_fin by assumption.
    destruct (Rlt_dec _ _) as [Hl|Hl].
    + rewrite (proj2 (flt_t (fabs (fsub a b)) EPS Hfa fin_EPS)); [reflexivity|]. rewrite Hva, Hv. assumption.
    + rewrite (proj2 (flt_f (fabs (fsub a b)) EPS Hfa fin_EPS)) by (rewrite Hva, Hv; lra).
      destruct (flt EPS (fsub a b)) eqn:E1.
      { apply flt_t in E1; [|exact fin_EPS|assumption]. rewrite Hv in E1.
        rewrite Rcompare_Gt; [reflexivity|]. assert (0 < rnd (val a - val b))%R as H by lra. apply rnd_pos in H. lra. }
      destruct (flt (fsub a b) (fneg EPS)) eqn:E2; [|reflexivity].
      apply flt_t in E2; [|assumption|exact fin_negEPS]. rewrite Hv, val_negEPS in E2.
      rewrite Rcompare_Lt; [reflexivity|]. assert (rnd (val a - val b) < 0)%R as H by lra. apply rnd_neg in H. lra.
  - rewrite Hs, fabs_inf. rewrite (flt_inf_fin EPS false fin_EPS), (flt_fin_inf EPS s fin_EPS), (flt_inf_fin _ s fin_negEPS).
    pose proof val_EPS_lt. destruct (Rlt_dec _ _); [lra|]. destruct s; cbn.
    + rewrite Rcompare_Lt by lra. reflexivity.
    + rewrite Rcompare_Gt by lra. reflexivity.
Qed.
Lemma partial_cmp_dual a b : fin a → fin b →
  cgar_partial_cmp b a = option_map CompOpp (cgar_partial_cmp a b).
Proof.
  intros Ha Hb. rewrite !partial_cmp_fin by assumption.
  assert (Hr : rnd (val b - val a) = (- rnd (val a - val b))%R).
  { rewrite <- rnd_opp. f_equal. ring. }
  rewrite Hr, Rabs_Ropp. destruct (Rlt_dec _ _); cbn; [reflexivity|]. rewrite Rcompare_sym. reflexivity.
Qed.

(** ** floor_sat_i64 *)
Lemma format_int i : Z.abs i <= 2 ^ 53 → generic_format radix2 fexp64 (IZR i).
Proof.
  intros Hi. destruct (Z.eq_dec (Z.abs i) (2 ^ 53)) as [E|E].
  - assert (H : generic_format radix2 fexp64 (bpow radix2 53)) by (apply generic_format_bpow; reflexivity || (vm_compute; discriminate)).
    change (bpow radix2 53) with (IZR (2 ^ 53)) in H. rewrite <- E in H.
    destruct (Z.abs_eq_or_opp i) as [Ei|Ei]; rewrite Ei in H; [assumption|].
    rewrite opp_IZR in H. apply generic_format_opp in H. rewrite Ropp_involutive in H. assumption.
  - apply (generic_format_FLT radix2 (-1074) 53). exists (Float radix2 i 0); cbn; [unfold F2R; cbn; lra| |lia].
    change (radix_val radix2) with 2. lia.
Qed.
(** beyond 2^53 every double is an integer *)
Lemma big_int x : fin x → (bpow radix2 53 <= Rabs (val x))%R → IZR (Ztrunc (val x)) = val x.
Proof.
  intros Hx Hb. destruct x as [s|s|s pl Hpl|s m e H]; try discriminate Hx.
  - cbn [B2R] in *. rewrite Rabs_R0 in Hb. pose proof (bpow_gt_0 radix2 53). lra.
  - assert (He : 0 <= e).
    { destruct (Z_lt_le_dec e 0) as [L|L]; [exfalso|assumption].
      pose proof (proj1 (bounded_iff m e) H) as (Hm & _).
      fold (abs_val (B754_finite 53 1024 s m e H)) in Hb. rewrite abs_val_finite in Hb.
      assert (bpow radix2 e <= bpow radix2 0)%R as H1 by (apply bpow_le; lia).
      assert (IZR (Zpos m) < bpow radix2 53)%R as H2. { change (bpow radix2 53) with (IZR (2 ^ 53)). apply IZR_lt. lia. }
      pose proof (IZR_lt 0 (Zpos m) (Pos2Z.is_pos m)). pose proof (bpow_gt_0 radix2 e). cbn [bpow] in H1. nra. }
    rewrite val_finite. rewrite <- (IZR_Zpower radix2) by assumption. rewrite <- mult_IZR. rewrite Ztrunc_IZR. reflexivity.
Qed.
Lemma trunc_format x : fin x → generic_format radix2 fexp64 (IZR (Ztrunc (val x))).
Proof.
  intros Hx. destruct (Rle_lt_dec (bpow radix2 53) (Rabs (val x))) as [H|H].
  - rewrite big_int by assumption. apply format_val.
  - apply format_int. apply le_IZR. rewrite abs_IZR.
    apply Rle_trans with (Rabs (val x)); [|change (bpow radix2 53) with (IZR (2 ^ 53)) in H; lra].
    rewrite <- abs_IZR. rewrite <- Ztrunc_abs. rewrite Ztrunc_floor by apply Rabs_pos. apply Zfloor_lb.
Qed.
Lemma i64_to_f64_spec i : generic_format radix2 fexp64 (IZR i) → Z.abs i <= 2 ^ 63 →
  fin (i64_to_f64 i) ∧ val (i64_to_f64 i) = IZR i.
Proof.
  intros Hf Hi. unfold i64_to_f64.
  pose proof (binary_normalize_correct 53 1024 eq_refl eq_refl mode_NE i 0 false) as H. cbn zeta in H.
  assert (E : F2R (Float radix2 i 0) = IZR i) by (unfold F2R; cbn; lra). rewrite E in H.
  change (round radix2 fexp64 (round_mode mode_NE) (IZR i)) with (rnd (IZR i)) in H.
  rewrite (rnd_format (IZR i) Hf) in H. rewrite Rlt_bool_true in H.
  - destruct H as (H1 & H2 & _). split; assumption.
  - rewrite <- abs_IZR. apply Rle_lt_trans with (bpow radix2 63); [|apply bpow_lt; lia].
    change (bpow radix2 63) with (IZR (2 ^ 63)). apply IZR_le. assumption.
Qed.
Lemma Btrunc_eq x : fin x → Btrunc 53 1024 x = Ztrunc (val x).
Proof. intros Hx. pose proof (Btrunc_correct 53 1024 eq_refl x) as H. apply eq_IZR. rewrite H. apply round_FIX_IZR. Qed.
Lemma floor_sat_in x : fin x → (- IZR (2 ^ 63) <= val x < IZR (2 ^ 63))%R →
  floor_sat_i64 x = Some (Zfloor (val x)).
Proof.
  intros Hx Hr.
  assert (Ht : i64_min <= Ztrunc (val x) <= i64_max).
  { unfold i64_min, i64_max. rewrite <- opp_IZR in Hr. split.
    - rewrite <- (Ztrunc_IZR (- 2 ^ 63)). apply Ztrunc_le. apply Hr.
    - destruct (Rle_lt_dec 0 (val x)) as [H0|H0].
      + rewrite Ztrunc_floor by assumption. enough (Zfloor (val x) < 2 ^ 63) by lia.
        apply lt_IZR. apply Rle_lt_trans with (val x); [apply Zfloor_lb|apply Hr].
      + pose proof (Ztrunc_le (val x) 0 (Rlt_le _ _ H0)) as H1. rewrite Ztrunc_IZR in H1. lia. }
  unfold floor_sat_i64. rewrite Hx. cbn [negb].
  assert (Ei : f64_to_i64 x = Ztrunc (val x)).
  { rewrite <- (Btrunc_eq x Hx) in Ht |- *. unfold f64_to_i64. unfold fin, fis_finite in Hx.
    destruct x; try discriminate Hx; rewrite Z.min_r, Z.max_r; lia. }
  rewrite Ei. cbv zeta.
  destruct (i64_to_f64_spec (Ztrunc (val x)) (trunc_format x Hx)) as [Hf Hv]; [unfold i64_min, i64_max in Ht; lia|].
  assert (Efl : Ztrunc (val x) - (if fgt (i64_to_f64 (Ztrunc (val x))) x then 1 else 0) = Zfloor (val x)).
  { unfold fgt. destruct (flt x (i64_to_f64 (Ztrunc (val x)))) eqn:E; cbv iota.
    - apply flt_t in E; [|assumption..]. rewrite Hv in E.
      destruct (Rle_lt_dec 0 (val x)) as [H0|H0].
      + rewrite Ztrunc_floor in E by assumption. pose proof (Zfloor_lb (val x)). lra.
      + rewrite Ztrunc_ceil in E |- * by lra. rewrite Zceil_floor_neq; [lia|].
        intros Eq. pose proof (Zceil_ub (val x)).
        assert (Ec : Zceil (val x) = Zfloor (val x)) by (rewrite <- Eq at 1; apply Zceil_IZR).
        rewrite Ec in E. lra.
    - apply flt_f in E; [|assumption..]. rewrite Hv in E.
      destruct (Rle_lt_dec 0 (val x)) as [H0|H0].
      + rewrite Ztrunc_floor by assumption. lia.
      + rewrite Ztrunc_ceil in E |- * by lra. pose proof (Zceil_ub (val x)).
        assert (Ex : val x = IZR (Zceil (val x))) by lra.
        rewrite Ex at 2. rewrite Zfloor_IZR. lia. }
  rewrite Efl. replace (Zfloor (val x) <? i64_min) with false; [reflexivity|]. symmetry. apply Z.ltb_ge.
  unfold i64_min. apply Zfloor_lub. rewrite opp_IZR. apply Hr.
Qed.
Lemma i64_max_f64 : fin (i64_to_f64 i64_max) ∧ val (i64_to_f64 i64_max) = IZR (2 ^ 63).
Proof.
  assert (E : i64_to_f64 i64_max = i64_to_f64 (2 ^ 63)) by (apply to_bits_inj; vm_compute; reflexivity).
  rewrite E. apply i64_to_f64_spec; [|vm_compute; discriminate].
  change (IZR (2 ^ 63)) with (bpow radix2 63). apply generic_format_bpow. vm_compute. discriminate.
Qed.
Lemma floor_sat_above x : fin x → (IZR (2 ^ 63) <= val x)%R → floor_sat_i64 x = Some i64_max.
Proof.
  intros Hx Hr. unfold floor_sat_i64. rewrite Hx. cbn [negb].
  assert (Ei : f64_to_i64 x = i64_max).
  { assert (2 ^ 63 <= Btrunc 53 1024 x). { rewrite Btrunc_eq by assumption. rewrite <- (Ztrunc_IZR (2 ^ 63)). apply Ztrunc_le. assumption. }
    unfold f64_to_i64. unfold fin, fis_finite in Hx. destruct x; try discriminate Hx; unfold i64_min, i64_max in *; lia. }
  rewrite Ei. cbv zeta. destruct i64_max_f64 as [Hf Hv]. unfold fgt.
  rewrite (proj2 (flt_f x (i64_to_f64 i64_max) Hx Hf)) by (rewrite Hv; assumption).
  reflexivity.
Qed.
Lemma i64_min_f64 : fin (i64_to_f64 i64_min) ∧ val (i64_to_f64 i64_min) = (- IZR (2 ^ 63))%R.
Proof.
  rewrite <- opp_IZR. apply i64_to_f64_spec; [|vm_compute; discriminate].
  rewrite opp_IZR. apply generic_format_opp.
  change (IZR (2 ^ 63)) with (bpow radix2 63). apply generic_format_bpow. vm_compute. discriminate.
Qed.
Lemma floor_sat_below x : fin x → (val x < - IZR (2 ^ 63))%R → floor_sat_i64 x = None.
Proof.
  intros Hx Hr. unfold floor_sat_i64. rewrite Hx. cbn [negb].
  assert (Ei : f64_to_i64 x = i64_min).
  { assert (Btrunc 53 1024 x <= - 2 ^ 63). { rewrite Btrunc_eq by assumption. rewrite <- (Ztrunc_IZR (- 2 ^ 63)). apply Ztrunc_le. rewrite opp_IZR. lra. }
    unfold f64_to_i64. unfold fin, fis_finite in Hx. destruct x; try discriminate Hx; unfold i64_min, i64_max in *; lia. }
  rewrite Ei. cbv zeta. destruct i64_min_f64 as [Hf Hv]. unfold fgt.
  rewrite (proj2 (flt_t x (i64_to_f64 i64_min) Hx Hf)) by (rewrite Hv; assumption).
  reflexivity.
Qed.

(** ** pack_key3 *)
Lemma lor_shift a b n : 0 <= n → 0 <= a < 2 ^ n → 0 <= b → Z.lor a (Z.shiftl b n) = a + b * 2 ^ n.
Proof.
  intros Hn Ha Hb. rewrite <- Z.lxor_lor, <- Z.add_nocarry_lxor.
  - rewrite Z.shiftl_mul_pow2 by assumption. reflexivity.
  - apply Z.bits_inj'. intros i Hi. rewrite Z.land_spec, Z.bits_0. destruct (Z_lt_le_dec i n).
    + rewrite Z.shiftl_spec_low by assumption. apply andb_false_r.
    + replace (Z.testbit a i) with false; [reflexivity|]. symmetry.
      destruct (Z.eq_dec a 0) as [->|]; [apply Z.bits_0|]. apply Z.bits_above_log2; [lia|].
      apply Z.lt_le_trans with n; [|assumption]. apply Z.log2_lt_pow2; lia.
  - apply Z.bits_inj'. intros i Hi. rewrite Z.land_spec, Z.bits_0. destruct (Z_lt_le_dec i n).
    + rewrite Z.shiftl_spec_low by assumption. apply andb_false_r.
    + replace (Z.testbit a i) with false; [reflexivity|]. symmetry.
      destruct (Z.eq_dec a 0) as [->|]; [apply Z.bits_0|]. apply Z.bits_above_log2; [lia|].
      apply Z.lt_le_trans with n; [|assumption]. apply Z.log2_lt_pow2; lia.
Qed.
Lemma pack_eq x y z : pack_key3 x y z = x mod 2 ^ 42 + (y mod 2 ^ 42) * 2 ^ 42 + (z mod 2 ^ 42) * 2 ^ 84.
Proof.
  unfold pack_key3. change (2 ^ 42 - 1) with (Z.ones 42). rewrite !Z.land_ones by lia.
  pose proof (Z.mod_pos_bound x (2 ^ 42) eq_refl). pose proof (Z.mod_pos_bound y (2 ^ 42) eq_refl). pose proof (Z.mod_pos_bound z (2 ^ 42) eq_refl).
  rewrite (lor_shift (x mod _) (y mod _)) by lia. rewrite lor_shift by lia. reflexivity.
Qed.
