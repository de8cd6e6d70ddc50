(** Error bounds of the ball arithmetic (numeric/ball.rs): the radius computed by
    add, sub, neg and (without underflow) mul bounds the true error. *)
From Coq Require Import Reals Lra Qreals.
From Flocq Require Import Core Relative Plus_error.
From Verif Require Export F64Proofs LazyBallSpec.
Open Scope Z_scope.

Definition u53 : R := bpow radix2 (-53).
Lemma u53_pos : (0 < u53)%R. Proof. apply bpow_gt_0. Qed.
Lemma u53_small : (u53 < / 1024)%R.
Proof. unfold u53. change (/ 1024)%R with (bpow radix2 (-10)). apply bpow_lt. lia. Qed.

(** ** Which results are finite *)
Lemma fadd_fin_inv x y : fin (fadd x y) → fin x ∧ fin y.
Proof.
  unfold fin, fis_finite. destruct x as [s|s|s pl Hpl|s m e H], y as [s'|s'|s' pl' Hpl'|s' m' e' H']; cbn; try (intros; split; reflexivity);
    try discriminate; try (destruct s, s'; cbn; discriminate).
Qed.
Lemma fsub_fin_inv x y : fin (fsub x y) → fin x ∧ fin y.
Proof.
  unfold fin, fis_finite. destruct x as [s|s|s pl Hpl|s m e H], y as [s'|s'|s' pl' Hpl'|s' m' e' H']; cbn; try (intros; split; reflexivity);
    try discriminate; try (destruct s, s'; cbn; discriminate).
Qed.
Lemma fmul_fin_inv x y : fin (fmul x y) → fin x ∧ fin y.
Proof.
  unfold fin, fis_finite. destruct x as [s|s|s pl Hpl|s m e H], y as [s'|s'|s' pl' Hpl'|s' m' e' H']; cbn; try (intros; split; reflexivity);
    discriminate.
Qed.
Lemma fabs_fin_inv x : fin (fabs x) → fin x.
Proof. unfold fin, fis_finite. destruct x; cbn; auto. Qed.
Lemma fneg_fin_inv x : fin (fneg x) → fin x.
Proof. unfold fin, fis_finite. destruct x; cbn; auto. Qed.
Lemma fadd_val x y : fin (fadd x y) → val (fadd x y) = rnd (val x + val y).
Proof.
  intros H. destruct (fadd_fin_inv x y H) as [Hx Hy]. destruct (fadd_spec x y Hx Hy) as [[_ E]|(s & E & _)]; [assumption|].
  rewrite E in H. discriminate H.
Qed.
Lemma fsub_val x y : fin (fsub x y) → val (fsub x y) = rnd (val x - val y).
Proof.
  intros H. destruct (fsub_fin_inv x y H) as [Hx Hy]. destruct (fsub_spec x y Hx Hy) as [[_ E]|(s & E & _)]; [assumption|].
  rewrite E in H. discriminate H.
Qed.
Lemma fmul_val x y : fin (fmul x y) → val (fmul x y) = rnd (val x * val y).
Proof.
  intros H. destruct (fmul_fin_inv x y H) as [Hx Hy]. destruct (fmul_spec x y Hx Hy) as [[_ E]|(s & E & _)]; [assumption|].
  rewrite E in H. discriminate H.
Qed.

(** ** Radii: non-negative, +infinity or NaN *)
Definition pos_or_nan (x : f64) : Prop := fis_nan x = true ∨ x = inf false ∨ (fin x ∧ (0 <= val x)%R).
Lemma pon_fabs x : pos_or_nan (fabs x).
Proof.
  unfold pos_or_nan. destruct (fis_finite x) eqn:E.
  - right. right. destruct (fabs_fin x E) as [F V]. split; [assumption|]. rewrite V. apply Rabs_pos.
  - destruct x as [s|s|s pl Hpl|s m e H]; try discriminate E; [right; left; reflexivity|left; reflexivity].
Qed.
Lemma pon_add x y : pos_or_nan x → pos_or_nan y → pos_or_nan (fadd x y).
Proof.
  intros Hx Hy. destruct Hx as [Hx|[->|[Hx Px]]].
  - left. destruct x; try discriminate Hx. destruct y; reflexivity.
  - destruct Hy as [Hy|[->|[Hy Py]]].
    + left. destruct y; try discriminate Hy. reflexivity.
    + right. left. reflexivity.
    + right. left. destruct y; try discriminate Hy; reflexivity.
  - destruct Hy as [Hy|[->|[Hy Py]]].
    + left. destruct y; try discriminate Hy. destruct x; try discriminate Hx; reflexivity.
    + right. left. destruct x; try discriminate Hx; reflexivity.
    + destruct (fadd_spec x y Hx Hy) as [[F V]|(s & E & C & _)].
      * right. right. split; [assumption|]. rewrite V. rewrite <- rnd_0. apply rnd_le. lra.
      * right. left. rewrite E. destruct s; [lra|reflexivity].
Qed.
Lemma pon_mul x y : pos_or_nan x → pos_or_nan y → pos_or_nan (fmul x y).
Proof.
  intros Hx Hy. destruct Hx as [Hx|[->|[Hx Px]]].
  - left. destruct x; try discriminate Hx. destruct y; reflexivity.
  - destruct Hy as [Hy|[->|[Hy Py]]].
    + left. destruct y; try discriminate Hy. reflexivity.
    + right. left. reflexivity.
    + destruct y as [s|s|s pl Hpl|s m e H]; try discriminate Hy; [left; reflexivity|]. right. left. destruct s; [|reflexivity].
      exfalso. rewrite val_finite in Py. pose proof (bpow_gt_0 radix2 e). pose proof (IZR_lt (Zneg m) 0 (Pos2Z.neg_is_neg m)). nra.
  - destruct Hy as [Hy|[->|[Hy Py]]].
    + left. destruct y; try discriminate Hy. destruct x; try discriminate Hx; reflexivity.
    + destruct x as [s|s|s pl Hpl|s m e H]; try discriminate Hx; [left; reflexivity|]. right. left. destruct s; [|reflexivity].
      exfalso. rewrite val_finite in Px. pose proof (bpow_gt_0 radix2 e). pose proof (IZR_lt (Zneg m) 0 (Pos2Z.neg_is_neg m)). nra.
    + destruct (fmul_spec x y Hx Hy) as [[F V]|(s & E & C & _)].
      * right. right. split; [assumption|]. rewrite V. rewrite <- rnd_0. apply rnd_le. apply Rmult_le_pos; assumption.
      * right. left. rewrite E. destruct s; [|reflexivity]. pose proof (Rmult_le_pos _ _ Px Py). lra.
Qed.
Lemma pon_fin x : pos_or_nan x → fin x → (0 <= val x)%R.
Proof. intros [H|[->|[_ H]]] F; [destruct x; discriminate|discriminate|assumption]. Qed.

(** ** Rounding errors *)
Lemma rnd_add_ge x y : (0 <= val x)%R → (0 <= val y)%R → ((1 - u53) * (val x + val y) <= rnd (val x + val y))%R.
Proof.
  intros Hx Hy. destruct (FLT_plus_error_N_ex radix2 (-1074) 53 (λ x, negb (Z.even x)) (val x) (val y)) as (eps & He & E).
  - apply format_val.
  - apply format_val.
  - change (round radix2 (FLT_exp (-1074) 53) ZnearestE (val x + val y)) with (rnd (val x + val y)) in E. rewrite E.
    assert (Hu : (u_ro radix2 53 / (1 + u_ro radix2 53) <= u53)%R).
    { unfold u_ro. change (/ 2)%R with (bpow radix2 (-1)). rewrite <- bpow_plus. change (-1 + (- (53) + 1)) with (-53). fold u53.
      pose proof u53_pos. apply Rmult_le_reg_r with (1 + u53)%R; [lra|]. unfold Rdiv. rewrite Rmult_assoc, Rinv_l by lra. nra. }
    apply Rabs_le_inv in He. assert (0 <= val x + val y)%R by lra. nra.
Qed.
Lemma rnd_mul_ge p : (bpow radix2 (-1022) <= Rabs p)%R → (0 <= p)%R → ((1 - u53) * p <= rnd p)%R.
Proof.
  intros Hp H0. pose proof (relative_error_N_FLT radix2 (-1074) 53 eq_refl (λ x, negb (Z.even x)) p Hp) as E.
  change (round radix2 (FLT_exp (-1074) 53) ZnearestE p) with (rnd p) in E.
  change (/ 2)%R with (bpow radix2 (-1)) in E. rewrite <- bpow_plus in E. change (-1 + (- (53) + 1)) with (-53) in E. fold u53 in E.
  rewrite (Rabs_pos_eq p H0) in E. apply Rabs_le_inv in E. lra.
Qed.

(** ** widen_ulp *)
Lemma widen_spec m : fin m → fin (widen_ulp m) → val (widen_ulp m) = ulp radix2 fexp64 (val m).
Proof.
  intros Hm Hw. unfold widen_ulp in *. apply fabs_fin_inv in Hw. destruct (fabs_fin _ Hw) as [_ ->].
  rewrite (fsub_val _ _ Hw). destruct (fsub_fin_inv _ _ Hw) as [Hup _].
  set (up := f64_from_bits ((f64_to_bits m + 1) mod 2 ^ 64)) in *.
  assert (Hbits : (f64_to_bits m + 1) mod 2 ^ 64 = f64_to_bits m + 1).
  { apply Z.mod_small. pose proof (to_bits_range m). pose proof (proj1 (fin_mag m) Hm) as G. unfold mag_bits, sbit in G. destruct (fsign m); lia. }
  assert (K : ∃ e, (Rabs (val up - val m) = bpow radix2 e)%R ∧ ulp radix2 fexp64 (val m) = bpow radix2 e ∧ -1074 <= e).
  { unfold up in *. rewrite Hbits in *. clear up Hw. destruct m as [s|s|s pl Hpl|s m e H]; try discriminate Hm.
    - exists (-1074). split; [|split; [|lia]].
      + rewrite bits_zero in *. assert (B : SpecFloat.bounded 53 1024 1 (-1074) = true) by reflexivity.
        rewrite (from_bits_eq (sbit s + 1) (B754_finite 53 1024 s 1 (-1074) B)) by (rewrite bits_finite; lia).
        rewrite val_finite, val_zero, Rminus_0_r, Rabs_mult, (Rabs_pos_eq (bpow _ _)) by apply bpow_ge_0.
        destruct s; [rewrite Rabs_left by lra|rewrite Rabs_R1]; lra.
      + rewrite val_zero. change fexp64 with (FLT_exp (-1074) 53). apply ulp_FLT_0. reflexivity.
    - exists e. pose proof (proj1 (bounded_iff m e) H) as (H1 & H2 & H3). split; [|split; [|destruct H2 as [->|[_ ?]]; lia]].
      + rewrite bits_finite in *. destruct (Z.eq_dec (Zpos m) (2 ^ 53 - 1)) as [Em|Em].
        * destruct (Z.eq_dec e 971) as [->|He].
          { exfalso. rewrite (from_bits_eq _ (B754_infinity 53 1024 s)) in Hup by (rewrite bits_inf; lia). discriminate Hup. }
          assert (B : SpecFloat.bounded 53 1024 (2 ^ 52) (e + 1) = true) by (apply bounded_iff; lia).
          rewrite (from_bits_eq _ (B754_finite 53 1024 s (2 ^ 52) (e + 1) B)) by (rewrite bits_finite; lia).
          rewrite !val_finite, bpow_plus_1. change (IZR (radix_val radix2)) with 2%R. pose proof (bpow_gt_0 radix2 e).
          replace (IZR (if s then Zneg (2 ^ 52) else Zpos (2 ^ 52)) * (2 * bpow radix2 e) - IZR (if s then Zneg m else Zpos m) * bpow radix2 e)%R
            with (IZR ((if s then Zneg (2 ^ 52) else Zpos (2 ^ 52)) * 2 - (if s then Zneg m else Zpos m)) * bpow radix2 e)%R
            by (rewrite minus_IZR, mult_IZR; ring).
          rewrite Rabs_mult, (Rabs_pos_eq (bpow _ _)) by lra. rewrite <- abs_IZR.
          replace (Z.abs ((if s then Zneg (2 ^ 52) else Zpos (2 ^ 52)) * 2 - (if s then Zneg m else Zpos m))) with 1 by (destruct s; lia).
          lra.
        * assert (B : SpecFloat.bounded 53 1024 (m + 1) e = true) by (apply bounded_iff; lia).
          rewrite (from_bits_eq _ (B754_finite 53 1024 s (m + 1) e B)) by (rewrite bits_finite; lia).
          rewrite !val_finite. pose proof (bpow_gt_0 radix2 e).
          replace (IZR (if s then Zneg (m + 1) else Zpos (m + 1)) * bpow radix2 e - IZR (if s then Zneg m else Zpos m) * bpow radix2 e)%R
            with (IZR ((if s then Zneg (m + 1) else Zpos (m + 1)) - (if s then Zneg m else Zpos m)) * bpow radix2 e)%R
            by (rewrite minus_IZR; ring).
          rewrite Rabs_mult, (Rabs_pos_eq (bpow _ _)) by lra. rewrite <- abs_IZR.
          replace (Z.abs ((if s then Zneg (m + 1) else Zpos (m + 1)) - (if s then Zneg m else Zpos m))) with 1 by (destruct s; lia).
          lra.
      + rewrite ulp_neq_0.
        * f_equal. symmetry. apply (canonical_canonical_mantissa 53 1024 s m e). pose proof H as C. unfold SpecFloat.bounded in C. apply andb_prop in C. apply C.
        * rewrite val_finite. pose proof (bpow_gt_0 radix2 e). apply Rmult_integral_contrapositive_currified; [|lra].
          apply IZR_neq. destruct s; discriminate. }
  destruct K as (e & K1 & K2 & K3). rewrite K2.
  assert (Hf : generic_format radix2 fexp64 (bpow radix2 e)).
  { change fexp64 with (FLT_exp (-1074) 53). apply generic_format_FLT_bpow; [reflexivity|assumption]. }
  assert (Hd : (val up - val m = bpow radix2 e)%R ∨ (val up - val m = - bpow radix2 e)%R).
  { unfold Rabs in K1. destruct (Rcase_abs _) in K1; lra. }
  pose proof (bpow_ge_0 radix2 e). destruct Hd as [->| ->].
  - rewrite rnd_format by assumption. apply Rabs_pos_eq. assumption.
  - rewrite rnd_opp, rnd_format by assumption. rewrite Rabs_Ropp. apply Rabs_pos_eq. assumption.
Qed.
Lemma widen_error m t : fin m → fin (widen_ulp m) → val m = rnd t → (2 * Rabs (val m - t) <= val (widen_ulp m))%R.
Proof.
  intros Hm Hw E. rewrite (widen_spec m Hm Hw), E.
  pose proof (error_le_half_ulp_round radix2 fexp64 (λ x, negb (Z.even x)) t) as H. unfold rnd. lra.
Qed.
Lemma widen_fin m : fin (widen_ulp m) → fin m.
Proof.
  unfold widen_ulp. intros H. apply fabs_fin_inv in H. apply fsub_fin_inv in H. apply H.
Qed.

(** ** Balls *)
(** [BI K b v]: the radius of [b] is a non-negative number, infinite or NaN, and if
    it is a number then the centre is one and errs by at most [K] radii. *)
Definition BI (K : R) (b : ball) (v : R) : Prop :=
  pos_or_nan (br b) ∧
  (fin (br b) → fin (bm b) ∧ (Rabs (v - val (bm b)) <= K * val (br b))%R).
Lemma BI_from_f64 K x v : fin x → v = val x → BI K (ball_from_f64 x) v.
Proof.
  intros Hx ->. split; [right; right; split; [reflexivity|apply Rle_refl]|]. intros _. split; [assumption|].
  cbn. rewrite Rminus_diag_eq, Rabs_R0 by reflexivity. lra.
Qed.
Lemma BI_mono K K' b v : (K <= K')%R → BI K b v → BI K' b v.
Proof.
  intros HK [P H]. split; [assumption|]. intros F. destruct (H F) as [Fm E]. split; [assumption|].
  pose proof (pon_fin _ P F). nra.
Qed.
Lemma BI_neg K b v : BI K b v → BI K (ball_neg b) (- v).
Proof.
  intros [P H]. split; [exact P|]. cbn. intros F. destruct (H F) as [Fm E]. destruct (fneg_fin _ Fm) as [Fn ->].
  split; [assumption|]. replace (- v - - val (bm b))%R with (- (v - val (bm b)))%R by ring. rewrite Rabs_Ropp. assumption.
Qed.
Lemma bernoulli u n : (0 <= u <= 1)%R → (1 - INR n * u <= (1 - u) ^ n)%R.
Proof.
  intros Hu. induction n as [|n IH]; [cbn; lra|]. rewrite S_INR. cbn [pow]. pose proof (pos_INR n).
  assert (0 <= (1 - u) ^ n)%R by (apply pow_le; lra). nra.
Qed.
(** growth of the constant per operation *)
Definition grow : R := / (1 - u53) ^ 5.
Lemma one_minus : (1023 / 1024 < 1 - u53 < 1)%R. Proof. pose proof u53_small. pose proof u53_pos. lra. Qed.
Lemma grow_pos : (0 < (1 - u53) ^ 5)%R. Proof. apply pow_lt. pose proof one_minus. lra. Qed.
Lemma grow_ge n K : (0 <= K)%R → (n <= 5)%nat → (K <= K * grow * (1 - u53) ^ n)%R.
Proof.
  intros HK Hn. unfold grow. pose proof grow_pos. pose proof one_minus.
  assert (E : ((1 - u53) ^ 5 <= (1 - u53) ^ n)%R).
  { replace 5%nat with (n + (5 - n))%nat by lia. rewrite pow_add.
    pose proof (pow_incr (1 - u53) 1 (5 - n) ltac:(lra)) as I. rewrite pow1 in I.
    assert (0 < (1 - u53) ^ n)%R by (apply pow_lt; lra). nra. }
  apply Rmult_le_reg_r with ((1 - u53) ^ 5)%R; [assumption|].
  replace (K * / (1 - u53) ^ 5 * (1 - u53) ^ n * (1 - u53) ^ 5)%R with (K * (1 - u53) ^ n)%R by (field; lra).
  nra.
Qed.
Lemma grow_1 : (1 <= grow)%R.
Proof. pose proof (grow_ge 0 1 ltac:(lra) ltac:(lia)). cbn in H. lra. Qed.

Lemma grow_le : (grow <= 9 / 8)%R.
Proof.
  unfold grow. pose proof (bernoulli u53 5) as B. pose proof one_minus as U. pose proof u53_pos. specialize (B ltac:(lra)). cbn [INR] in B.
  pose proof grow_pos. apply Rmult_le_reg_r with ((1 - u53) ^ 5)%R; [assumption|]. rewrite Rinv_l by lra. lra.
Qed.

Lemma BI_add K x y v w : (/ 2 <= K)%R → BI K x v → BI K y w → BI (K * grow) (ball_add x y) (v + w).
Proof.
  intros HK [Px Hx] [Py Hy]. unfold ball_add, two_sum. cbv zeta.
  set (s := fadd (bm x) (bm y)). match goal with |- context [fabs ?q] => set (e := q) end.
  split; cbn [bm br].
  - apply pon_add; [apply pon_add; [apply pon_add; assumption|apply pon_fabs]|]. apply pon_fabs.
  - intros F. destruct (fadd_fin_inv _ _ F) as [F1 Fw]. destruct (fadd_fin_inv _ _ F1) as [F2 Fe]. destruct (fadd_fin_inv _ _ F2) as [Fx Fy].
    destruct (Hx Fx) as [Mx Ex]. destruct (Hy Fy) as [My Ey]. pose proof (widen_fin _ Fw) as Fs. split; [assumption|].
    pose proof (pon_fin _ Px Fx) as P1. pose proof (pon_fin _ Py Fy) as P2.
    pose proof (pon_fin _ (pon_add _ _ Px Py) F2) as P3. pose proof (pon_fin _ (pon_fabs e) Fe) as P4.
    pose proof (pon_fin _ (pon_add _ _ (pon_add _ _ Px Py) (pon_fabs e)) F1) as P5.
    pose proof (pon_fin _ (pon_fabs _ : pos_or_nan (widen_ulp s)) Fw) as P6.
    pose proof (rnd_add_ge _ _ P1 P2) as R1. rewrite <- (fadd_val _ _ F2) in R1.
    pose proof (rnd_add_ge _ _ P3 P4) as R2. rewrite <- (fadd_val _ _ F1) in R2.
    pose proof (rnd_add_ge _ _ P5 P6) as R3. rewrite <- (fadd_val _ _ F) in R3.
    pose proof (widen_error s _ Fs Fw (fadd_val _ _ Fs)) as W.
    set (R := val (fadd _ (widen_ulp s))) in *. set (A := val (fadd (fadd (br x) (br y)) (fabs e))) in *. set (B := val (fadd (br x) (br y))) in *.
    set (W' := val (widen_ulp s)) in *. set (E' := val (fabs e)) in *.
    pose proof (grow_ge 3 K ltac:(lra) ltac:(lia)) as G3. pose proof (grow_ge 1 K ltac:(lra) ltac:(lia)) as G1. pose proof grow_1 as G.
    pose proof one_minus as U.
    assert (L : ((1 - u53) ^ 3 * (val (br x) + val (br y)) + (1 - u53) ^ 1 * W' <= R)%R).
    { cbn [pow]. rewrite !Rmult_1_r. assert ((1 - u53) * ((1 - u53) * (val (br x) + val (br y))) <= A)%R by nra. nra. }
    apply Rle_trans with (K * (val (br x) + val (br y)) + / 2 * W')%R.
    { replace (v + w - val s)%R with ((v - val (bm x)) + (w - val (bm y)) + (- (val s - (val (bm x) + val (bm y)))))%R by ring.
      eapply Rle_trans; [apply Rabs_triang|]. rewrite Rabs_Ropp.
      pose proof (Rabs_triang (v - val (bm x)) (w - val (bm y))). lra. }
    apply Rle_trans with (K * grow * ((1 - u53) ^ 3 * (val (br x) + val (br y)) + (1 - u53) ^ 1 * W'))%R.
    { assert (0 <= val (br x) + val (br y))%R by lra. nra. }
    apply Rmult_le_compat_l; [nra|assumption].
Qed.
Lemma BI_sub K x y v w : (/ 2 <= K)%R → BI K x v → BI K y w → BI (K * grow) (ball_sub x y) (v - w).
Proof. intros HK Hx Hy. apply BI_add; [assumption|assumption|]. apply (BI_neg K y w) in Hy. exact Hy. Qed.

(** Multiplication, provided nothing is lost to underflow in the three products of
    the radius, or the product is large enough for its ulp to make up for it. *)
Definition eta : R := bpow radix2 (-1074).
Lemma rnd_loss p : (0 <= p)%R → ((1 - u53) * p - / 2 * eta <= rnd p)%R.
Proof.
  intros H0. pose proof (bpow_ge_0 radix2 (-1074)) as He. fold eta in He. pose proof one_minus as U. pose proof u53_pos.
  destruct (Rle_lt_dec (bpow radix2 (-1022)) p) as [L|L].
  - pose proof (rnd_mul_ge p ltac:(rewrite Rabs_pos_eq; assumption) H0). lra.
  - pose proof (error_le_half_ulp radix2 fexp64 (λ x, negb (Z.even x)) p) as E.
    change (round radix2 fexp64 ZnearestE p) with (rnd p) in E.
    assert (Hu : ulp radix2 fexp64 p = eta).
    { change fexp64 with (FLT_exp (-1074) 53). apply ulp_FLT_small; [reflexivity|]. rewrite Rabs_pos_eq by assumption. eapply Rlt_le_trans; [exact L|]. apply bpow_le. lia. }
    rewrite Hu in E. apply Rabs_le_inv in E. nra.
Qed.
Lemma prod_loss a b : fin (fmul a b) → (0 <= val a)%R → (0 <= val b)%R →
  ((1 - u53) * (val a * val b) - / 2 * eta <= val (fmul a b))%R.
Proof. intros F Ha Hb. rewrite (fmul_val _ _ F). apply rnd_loss. apply Rmult_le_pos; assumption. Qed.
Lemma prod_ge a b : fin (fmul a b) → (0 <= val a)%R → (0 <= val b)%R → no_underflow a b →
  ((1 - u53) * (val a * val b) <= val (fmul a b))%R.
Proof.
  intros F Ha Hb [->|H]; pose proof (Rmult_le_pos _ _ Ha Hb); pose proof one_minus.
  - nra.
  - rewrite (fmul_val _ _ F). apply rnd_mul_ge; assumption.
Qed.
Lemma ulp_big m : (bpow radix2 (-1019) <= Rabs (val m))%R → (8 * eta <= ulp radix2 fexp64 (val m))%R.
Proof.
  intros H. replace (8 * eta)%R with (bpow radix2 (-1071)).
  - change fexp64 with (FLT_exp (-1074) 53). apply Rle_trans with (ulp radix2 (FLT_exp (-1074) 53) (bpow radix2 (-1019))).
    + rewrite ulp_bpow. apply bpow_le. unfold FLT_exp. lia.
    + rewrite <- (ulp_abs _ _ (val m)). apply ulp_le_pos; [typeclasses eauto|typeclasses eauto|apply bpow_ge_0|assumption].
  - unfold eta. change 8%R with (bpow radix2 3). rewrite <- bpow_plus. reflexivity.
Qed.
(** what the radius of a product is worth, with [l] units lost *)
Lemma BI_mul_loss K x y v w l : (3 / 4 <= K <= 1)%R →
  (0 <= l)%R →
  (fin (fmul (fabs (bm x)) (br y)) → fin (fmul (fabs (bm y)) (br x)) → fin (fmul (br x) (br y)) → fin (fmul (bm x) (bm y)) →
   fin (widen_ulp (fmul (bm x) (bm y))) → (0 <= val (br x))%R → (0 <= val (br y))%R →
   ∃ l1 l2 l3, (0 <= l1)%R ∧ (0 <= l2)%R ∧ (0 <= l3)%R ∧ (l1 + l2 + l3 <= l)%R ∧ (9 / 2 * l <= val (widen_ulp (fmul (bm x) (bm y))))%R ∧
     ((1 - u53) * (val (fabs (bm x)) * val (br y)) - l1 <= val (fmul (fabs (bm x)) (br y)))%R ∧
     ((1 - u53) * (val (fabs (bm y)) * val (br x)) - l2 <= val (fmul (fabs (bm y)) (br x)))%R ∧
     ((1 - u53) * (val (br x) * val (br y)) - l3 <= val (fmul (br x) (br y)))%R) →
  BI K x v → BI K y w → BI (K * grow) (ball_mul x y) (v * w).
Proof.
  intros HK Hl0 HL [Px Hx] [Py Hy]. unfold ball_mul, two_prod.
  set (p := fmul (bm x) (bm y)) in *. match goal with |- context [fabs (fma ?a ?b ?c)] => set (e := fma a b c) end.
  pose proof (pon_mul _ _ (pon_fabs (bm x)) Py) as Q1. pose proof (pon_mul _ _ (pon_fabs (bm y)) Px) as Q2. pose proof (pon_mul _ _ Px Py) as Q3.
  pose proof (pon_add _ _ Q1 Q2) as Q4. pose proof (pon_add _ _ Q4 Q3) as Q5. pose proof (pon_add _ _ Q5 (pon_fabs e)) as Q6.
  pose proof (pon_fabs _ : pos_or_nan (widen_ulp p)) as Q7.
  split; cbn [bm br]; [apply pon_add; assumption|].
  intros F. destruct (fadd_fin_inv _ _ F) as [F1 Fw]. destruct (fadd_fin_inv _ _ F1) as [F2 Fe]. destruct (fadd_fin_inv _ _ F2) as [F3 F6].
  destruct (fadd_fin_inv _ _ F3) as [F4 F5]. destruct (fmul_fin_inv _ _ F6) as [Fx Fy].
  destruct (Hx Fx) as [Mx Ex]. destruct (Hy Fy) as [My Ey]. pose proof (widen_fin _ Fw) as Fp. split; [assumption|].
  pose proof (pon_fin _ Px Fx) as P1. pose proof (pon_fin _ Py Fy) as P2.
  destruct (HL F4 F5 F6 Fp Fw P1 P2) as (l1 & l2 & l3 & N1 & N2 & N3 & Hl & HW & T1 & T2 & T3).
  destruct (fabs_fin _ Mx) as [FAx VAx]. destruct (fabs_fin _ My) as [FAy VAy].
  pose proof (pon_fin _ Q1 F4) as B1. pose proof (pon_fin _ Q2 F5) as B2. pose proof (pon_fin _ Q3 F6) as B3.
  pose proof (pon_fin _ Q4 F3) as B4. pose proof (pon_fin _ Q5 F2) as B5. pose proof (pon_fin _ Q6 F1) as B6.
  pose proof (pon_fin _ (pon_fabs e) Fe) as B7. pose proof (pon_fin _ Q7 Fw) as B8.
  pose proof (rnd_add_ge _ _ B1 B2) as R1. rewrite <- (fadd_val _ _ F3) in R1.
  pose proof (rnd_add_ge _ _ B4 B3) as R2. rewrite <- (fadd_val _ _ F2) in R2.
  pose proof (rnd_add_ge _ _ B5 B7) as R3. rewrite <- (fadd_val _ _ F1) in R3.
  pose proof (rnd_add_ge _ _ B6 B8) as R4. rewrite <- (fadd_val _ _ F) in R4.
  pose proof (widen_error p _ Fp Fw (fmul_val _ _ Fp)) as W.
  rewrite VAx in *. rewrite VAy in *.
  set (mx := val (bm x)) in *. set (my := val (bm y)) in *. set (rx := val (br x)) in *. set (ry := val (br y)) in *.
  match type of R4 with (_ <= ?q)%R => set (R := q) in * end.
  match type of R3 with (_ <= ?q)%R => set (A3 := q) in * end.
  match type of R2 with (_ <= ?q)%R => set (A2 := q) in * end.
  match type of R1 with (_ <= ?q)%R => set (A1 := q) in * end.
  match type of T1 with (_ <= ?q)%R => set (p1 := q) in * end.
  match type of T2 with (_ <= ?q)%R => set (p2 := q) in * end.
  match type of T3 with (_ <= ?q)%R => set (p3 := q) in * end.
  set (W' := val (widen_ulp p)) in *. set (E' := val (fabs e)) in *.
  set (t1 := (Rabs mx * ry)%R) in *. set (t2 := (Rabs my * rx)%R) in *. set (t3 := (rx * ry)%R) in *.
  pose proof one_minus as U. set (c := (1 - u53)%R) in *.
  assert (Z1 : (0 <= t1)%R) by (apply Rmult_le_pos; [apply Rabs_pos|assumption]). assert (Z2 : (0 <= t2)%R) by (apply Rmult_le_pos; [apply Rabs_pos|assumption]).
  assert (Z3 : (0 <= t3)%R) by (apply Rmult_le_pos; assumption).
  assert (Sc : ∀ z, (0 <= z)%R → (c * z <= z)%R) by (intros z Hz; rewrite <- (Rmult_1_l z) at 2; apply Rmult_le_compat_r; lra).
  assert (L : (c ^ 5 * (t1 + t2 + t3) + c ^ 1 * W' - l <= R)%R).
  { assert (Y1 : (c * (c * (t1 + t2)) - (l1 + l2) <= A1)%R).
    { apply Rle_trans with (c * (p1 + p2))%R; [|assumption]. apply Rle_trans with (c * (c * (t1 + t2) - (l1 + l2)))%R; [|apply Rmult_le_compat_l; lra].
      pose proof (Sc (l1 + l2)%R ltac:(lra)). lra. }
    assert (Y2 : (c * (c * (c * (t1 + t2 + t3))) - (l1 + l2 + l3) <= A2)%R).
    { apply Rle_trans with (c * (A1 + p3))%R; [|assumption].
      apply Rle_trans with (c * (c * (c * (t1 + t2)) - (l1 + l2) + (c * t3 - l3)))%R; [|apply Rmult_le_compat_l; lra].
      pose proof (Sc (l1 + l2 + l3)%R ltac:(lra)). pose proof (Sc (c * (c * t3))%R ltac:(nra)).
      assert (H3 : (c * (c * t3) <= c * t3)%R) by (apply Sc; nra). assert (H4 : (c * (c * (c * t3)) <= c * (c * t3))%R) by assumption. lra. }
    assert (Y3 : (c * (c * (c * (c * (t1 + t2 + t3)))) - (l1 + l2 + l3) <= A3)%R).
    { apply Rle_trans with (c * (A2 + E'))%R; [|assumption].
      apply Rle_trans with (c * (c * (c * (c * (t1 + t2 + t3))) - (l1 + l2 + l3)))%R; [|apply Rmult_le_compat_l; lra].
      pose proof (Sc (l1 + l2 + l3)%R ltac:(lra)). lra. }
    apply Rle_trans with (c * (A3 + W'))%R; [|assumption].
    apply Rle_trans with (c * (c * (c * (c * (c * (t1 + t2 + t3)))) - (l1 + l2 + l3) + W'))%R; [|apply Rmult_le_compat_l; lra].
    pose proof (Sc (l1 + l2 + l3)%R ltac:(lra)). cbn [pow]. lra. }
  pose proof (grow_ge 5 K ltac:(lra) ltac:(lia)) as G5. pose proof (grow_ge 1 K ltac:(lra) ltac:(lia)) as G1. pose proof grow_1 as G. pose proof grow_le as G'. fold c in G5, G1.
  apply Rle_trans with (K * (t1 + t2 + t3) + / 2 * W')%R.
  { replace (v * w - val p)%R with ((v - mx) * (w - my) + (v - mx) * my + mx * (w - my) + (- (val p - mx * my)))%R by ring.
    pose proof (Rabs_pos (v - mx)) as M1. pose proof (Rabs_pos (w - my)) as M2. pose proof (Rabs_pos mx) as M3. pose proof (Rabs_pos my) as M4.
    assert (X1 : (Rabs ((v - mx) * (w - my)) <= K * t3)%R).
    { rewrite Rabs_mult. apply Rle_trans with ((K * rx) * (K * ry))%R; [apply Rmult_le_compat; assumption|].
      replace (K * rx * (K * ry))%R with (K * K * t3)%R by (unfold t3; ring). assert (K * K <= K)%R by nra. nra. }
    assert (X2 : (Rabs ((v - mx) * my) <= K * t2)%R).
    { rewrite Rabs_mult. replace (K * t2)%R with ((K * rx) * Rabs my)%R by (unfold t2; ring). apply Rmult_le_compat_r; assumption. }
    assert (X3 : (Rabs (mx * (w - my)) <= K * t1)%R).
    { rewrite Rabs_mult. replace (K * t1)%R with (Rabs mx * (K * ry))%R by (unfold t1; ring). apply Rmult_le_compat_l; assumption. }
    eapply Rle_trans; [apply Rabs_triang|]. rewrite Rabs_Ropp.
    eapply Rle_trans; [apply Rplus_le_compat_r; apply Rabs_triang|].
    eapply Rle_trans; [apply Rplus_le_compat_r; apply Rplus_le_compat_r; apply Rabs_triang|]. lra. }
  apply Rle_trans with (K * grow * (c ^ 5 * (t1 + t2 + t3) + c ^ 1 * W' - l))%R.
  { assert (H1 : (K * (t1 + t2 + t3) <= K * grow * c ^ 5 * (t1 + t2 + t3))%R) by (apply Rmult_le_compat_r; [lra|assumption]).
    assert (H2 : (3 / 4 * W' <= K * grow * c ^ 1 * W')%R) by (apply Rmult_le_compat_r; [assumption|lra]).
    assert (H3 : (K * grow * l <= 9 / 8 * l)%R) by (apply Rmult_le_compat_r; [assumption|nra]).
    replace (K * grow * (c ^ 5 * (t1 + t2 + t3) + c ^ 1 * W' - l))%R with (K * grow * c ^ 5 * (t1 + t2 + t3) + K * grow * c ^ 1 * W' - K * grow * l)%R by ring. lra. }
  apply Rmult_le_compat_l; [nra|assumption].
Qed.
Lemma BI_mul_exact K x y v w : (3 / 4 <= K <= 1)%R → radius_exact x y → BI K x v → BI K y w → BI (K * grow) (ball_mul x y) (v * w).
Proof.
  intros HK (S1 & S2 & S3) Hx Hy. apply (BI_mul_loss K x y v w 0); [assumption|lra| |assumption..].
  intros F1 F2 F3 Fp Fw Px Py. exists 0%R, 0%R, 0%R. pose proof (pon_fin _ (pon_fabs _ : pos_or_nan (widen_ulp (fmul (bm x) (bm y)))) Fw) as P.
  pose proof (pon_fin _ (pon_fabs (bm x)) (proj1 (fmul_fin_inv _ _ F1))). pose proof (pon_fin _ (pon_fabs (bm y)) (proj1 (fmul_fin_inv _ _ F2))).
  repeat split; try lra; rewrite Rminus_0_r; apply prod_ge; assumption.
Qed.
Lemma BI_mul_big K x y v w : (3 / 4 <= K <= 1)%R → (bpow radix2 (-1019) <= Rabs (val (fmul (bm x) (bm y))))%R →
  BI K x v → BI K y w → BI (K * grow) (ball_mul x y) (v * w).
Proof.
  intros HK Hp Hx Hy. pose proof (bpow_gt_0 radix2 (-1074)) as He. fold eta in He.
  apply (BI_mul_loss K x y v w (3 / 2 * eta)); [assumption|lra| |assumption..].
  intros F1 F2 F3 Fp Fw Px Py. exists (/ 2 * eta)%R, (/ 2 * eta)%R, (/ 2 * eta)%R.
  pose proof (pon_fin _ (pon_fabs (bm x)) (proj1 (fmul_fin_inv _ _ F1))). pose proof (pon_fin _ (pon_fabs (bm y)) (proj1 (fmul_fin_inv _ _ F2))).
  pose proof (ulp_big _ Hp) as Hu. rewrite <- (widen_spec _ Fp Fw) in Hu.
  repeat split; try lra; apply prod_loss; assumption.
Qed.
(** a factor that is zero, and known to be *)
Lemma mul_zero_l x y : fin x → fin y → val x = 0%R → val (fmul x y) = 0%R.
Proof.
  intros Fx Fy E. destruct (fmul_spec x y Fx Fy) as [[_ V]|(s & _ & C & _)]; rewrite E, Rmult_0_l in *; [rewrite V; apply rnd_0|].
  exfalso. destruct s; lra.
Qed.
Lemma mul_zero_r x y : fin x → fin y → val y = 0%R → val (fmul x y) = 0%R.
Proof.
  intros Fx Fy E. destruct (fmul_spec x y Fx Fy) as [[_ V]|(s & _ & C & _)]; rewrite E, Rmult_0_r in *; [rewrite V; apply rnd_0|].
  exfalso. destruct s; lra.
Qed.
Lemma BI_mul_zero K x y v w : (0 <= K)%R → (v = 0 ∧ val (bm x) = 0)%R ∨ (w = 0 ∧ val (bm y) = 0)%R →
  BI K x v → BI K y w → BI (K * grow) (ball_mul x y) (v * w).
Proof.
  intros HK Hz [Px Hx] [Py Hy]. unfold ball_mul, two_prod.
  set (p := fmul (bm x) (bm y)) in *. match goal with |- context [fabs (fma ?a ?b ?c)] => set (e := fma a b c) end.
  pose proof (pon_mul _ _ (pon_fabs (bm x)) Py) as Q1. pose proof (pon_mul _ _ (pon_fabs (bm y)) Px) as Q2. pose proof (pon_mul _ _ Px Py) as Q3.
  pose proof (pon_add _ _ Q1 Q2) as Q4. pose proof (pon_add _ _ Q4 Q3) as Q5. pose proof (pon_add _ _ Q5 (pon_fabs e)) as Q6.
  pose proof (pon_add _ _ Q6 (pon_fabs _ : pos_or_nan (widen_ulp p))) as Q7.
  split; cbn [bm br]; [assumption|].
  intros F. destruct (fadd_fin_inv _ _ F) as [F1 Fw]. destruct (fadd_fin_inv _ _ F1) as [F2 Fe]. destruct (fadd_fin_inv _ _ F2) as [F3 F6].
  destruct (fadd_fin_inv _ _ F3) as [F4 F5]. destruct (fmul_fin_inv _ _ F6) as [Fx Fy].
  destruct (Hx Fx) as [Mx Ex]. destruct (Hy Fy) as [My Ey]. split; [apply (widen_fin _ Fw)|].
  assert (E : val p = 0%R) by (destruct Hz as [[_ H]|[_ H]]; [apply mul_zero_l|apply mul_zero_r]; assumption).
  assert (E' : (v * w = 0)%R) by (destruct Hz as [[-> _]|[-> _]]; ring).
  rewrite E, E', Rminus_0_r, Rabs_R0. apply Rmult_le_pos; [pose proof grow_1; nra|]. apply (pon_fin _ Q7 F).
Qed.

(** the constants stay below 1 for any depth the code allows *)
Definition Kd (d : nat) : R := (3 / 4 * grow ^ d)%R.
Lemma Kd_S d : Kd (S d) = (Kd d * grow)%R. Proof. unfold Kd. cbn. ring. Qed.
Lemma Kd_ge d : (3 / 4 <= Kd d)%R.
Proof. unfold Kd. pose proof (pow_R1_Rle grow d grow_1). lra. Qed.
Lemma Kd_mono d d' : (d <= d')%nat → (Kd d <= Kd d')%R.
Proof. intros H. unfold Kd. apply Rmult_le_compat_l; [lra|]. apply Rle_pow; [apply grow_1|assumption]. Qed.
Lemma Kd_max d : (d <= 1024)%nat → (Kd d < 1)%R.
Proof.
  intros H. apply Rle_lt_trans with (Kd 1024); [apply Kd_mono; assumption|]. unfold Kd, grow.
  rewrite pow_inv, <- pow_mult. change (5 * 1024)%nat with 5120%nat. pose proof u53_pos. pose proof one_minus.
  pose proof (bernoulli u53 5120 ltac:(lra)) as B.
  assert (E : (INR 5120 * u53 < / 8)%R).
  { rewrite INR_IZR_INZ. change (Z.of_nat 5120) with 5120. unfold u53.
    apply Rle_lt_trans with (bpow radix2 13 * bpow radix2 (-53))%R; [apply Rmult_le_compat_r; [apply bpow_ge_0|cbn; lra]|].
    rewrite <- bpow_plus. change (/ 8)%R with (bpow radix2 (-3)). apply bpow_lt. lia. }
  assert (P : (7 / 8 < (1 - u53) ^ 5120)%R) by lra.
  apply Rmult_lt_reg_r with ((1 - u53) ^ 5120)%R; [lra|]. rewrite Rmult_assoc, Rinv_l by lra. lra.
Qed.

(** ** Signs and intervals *)
Lemma sign_certain_ok K b v s : (K < 1)%R → BI K b v → sign_if_certain b = Some s →
  (s = 1 ∧ (0 < v)%R) ∨ (s = -1 ∧ (v < 0)%R).
Proof.
  intros HK [P H]. unfold sign_if_certain, fgt. destruct P as [Pn|[Pi|[F P]]].
  - assert (fis_infinite (br b) = false) as -> by (unfold fis_infinite; rewrite Pn; reflexivity).
    destruct (br b) as [s0|s0|s0 pl Hpl|s0 m e Hb]; try discriminate Pn.
    replace (flt (B754_nan 53 1024 s0 pl Hpl) (bm b)) with false by (destruct (bm b); reflexivity).
    replace (flt (bm b) (fneg (B754_nan 53 1024 s0 pl Hpl))) with false; [discriminate|].
    destruct (bm b); reflexivity.
  - rewrite Pi. cbn. discriminate.
  - destruct (H F) as [Fm E]. apply Rabs_le_inv in E.
    assert (fis_infinite (br b) = false) as -> by (unfold fis_infinite; rewrite F, andb_false_r; reflexivity).
    destruct (flt (br b) (bm b)) eqn:E1.
    + apply flt_t in E1; [|assumption..]. intros [= <-]. left. split; [reflexivity|]. nra.
    + destruct (flt (bm b) (fneg (br b))) eqn:E2; [|discriminate].
      destruct (fneg_fin _ F) as [Fn Vn]. apply flt_t in E2; [|assumption..]. rewrite Vn in E2. intros [= <-]. right. split; [reflexivity|]. nra.
Qed.

Lemma next_up_rnd y r : fin y → val y = rnd r → fin (f64_next_up y) → (r <= val (f64_next_up y))%R.
Proof.
  intros Hy Hr Hu. apply Rnot_lt_le. intros Hl. destruct (next_up_above y Hy) as [[_ Ha]|[Ha _]].
  - pose proof (rnd_le _ _ (Rlt_le _ _ Hl)) as Ht. rewrite rnd_val in Ht. lra.
  - rewrite Ha in Hu. discriminate Hu.
Qed.
Lemma next_down_rnd y r : fin y → val y = rnd r → fin (f64_next_down y) → (val (f64_next_down y) <= r)%R.
Proof.
  intros Hy Hr Hu. apply Rnot_lt_le. intros Hl. destruct (next_down_below y Hy) as [[_ Ha]|[Ha _]].
  - pose proof (rnd_le _ _ (Rlt_le _ _ Hl)) as Ht. rewrite rnd_val in Ht. lra.
  - rewrite Ha in Hu. discriminate Hu.
Qed.
(** the ends of the double interval enclose the value whenever they are finite, and
    are otherwise on their own side *)
Definition upper_ok (v : R) (x : f64) : Prop := (fin x ∧ (v <= val x)%R) ∨ x = inf false ∨ fis_nan x = true.
Definition lower_ok (v : R) (x : f64) : Prop := (fin x ∧ (val x <= v)%R) ∨ x = inf true ∨ fis_nan x = true.
Lemma next_up_other x : x = inf false ∨ fis_nan x = true → f64_next_up x = x.
Proof. intros [->|H]; [reflexivity|]. unfold f64_next_up. rewrite H. reflexivity. Qed.
Lemma next_down_other x : x = inf true ∨ fis_nan x = true → f64_next_down x = x.
Proof. intros [->|H]; [reflexivity|]. unfold f64_next_down. rewrite H. reflexivity. Qed.
Lemma interval_ok K b v : (K < 1)%R → BI K b v →
  lower_ok v (fst (double_interval b)) ∧ upper_ok v (snd (double_interval b)).
Proof.
  intros HK [P H]. unfold double_interval. cbn [fst snd].
  destruct P as [Pn|[Pi|[F P]]].
  - destruct (br b) as [s|s|s pl Hpl|s m e Hb]; try discriminate Pn. split.
    + rewrite next_down_other by (right; destruct (bm b); reflexivity). right; right. destruct (bm b); reflexivity.
    + rewrite next_up_other by (right; destruct (bm b); reflexivity). right; right. destruct (bm b); reflexivity.
  - rewrite Pi. split.
    + assert (E : fsub (bm b) (inf false) = inf true ∨ fis_nan (fsub (bm b) (inf false)) = true).
      { destruct (bm b) as [s|[]|s pl Hpl|s m e Hb]; (left; reflexivity) || (right; reflexivity). }
      rewrite (next_down_other _ E). right. exact E.
    + assert (E : fadd (bm b) (inf false) = inf false ∨ fis_nan (fadd (bm b) (inf false)) = true).
      { destruct (bm b) as [s|[]|s pl Hpl|s m e Hb]; (left; reflexivity) || (right; reflexivity). }
      rewrite (next_up_other _ E). right. exact E.
  - destruct (H F) as [Fm E]. apply Rabs_le_inv in E. split.
    + destruct (fsub_spec _ _ Fm F) as [[Fs Vs]|(s & Es & Hs & Hb)].
      * destruct (next_down_below _ Fs) as [[Fd _]|[Fd _]]; [left; split; [assumption|]|right; left; assumption].
        eapply Rle_trans; [apply (next_down_rnd _ _ Fs Vs Fd)|]. nra.
      * destruct s; [rewrite Es; right; left; reflexivity|]. exfalso.
        assert (L1 : (rnd (val (bm b) - val (br b)) <= val (bm b))%R) by (rewrite <- (rnd_val (bm b)) at 2; apply rnd_le; lra).
        assert (L2 : (0 <= rnd (val (bm b) - val (br b)))%R) by (rewrite <- rnd_0; apply rnd_le; lra).
        rewrite (Rabs_pos_eq _ L2) in Hb. pose proof (abs_B2R_lt_emax 53 1024 (bm b)) as L3. fold (val (bm b)) in L3.
        apply Rabs_lt_inv in L3. lra.
    + destruct (fadd_spec _ _ Fm F) as [[Fs Vs]|(s & Es & Hs & Hb)].
      * destruct (next_up_above _ Fs) as [[Fd _]|[Fd _]]; [left; split; [assumption|]|right; left; assumption].
        eapply Rle_trans; [|apply (next_up_rnd _ _ Fs Vs Fd)]. nra.
      * destruct s; [|rewrite Es; right; left; reflexivity]. exfalso.
        assert (L1 : (val (bm b) <= rnd (val (bm b) + val (br b)))%R) by (rewrite <- (rnd_val (bm b)) at 1; apply rnd_le; lra).
        assert (L2 : (rnd (val (bm b) + val (br b)) <= 0)%R) by (rewrite <- rnd_0; apply rnd_le; lra).
        rewrite (Rabs_left1 _ L2) in Hb. pose proof (abs_B2R_lt_emax 53 1024 (bm b)) as L3. fold (val (bm b)) in L3.
        apply Rabs_lt_inv in L3. lra.
Qed.
Lemma bounds_lt v w x y : upper_ok v x → lower_ok w y → flt x y = true → (v < w)%R.
Proof.
  intros Hx Hy H.
  destruct Hx as [[Fx Hx]|[->|Hx]]; [|destruct y as [?|[]|? ? ?|? ? ? ?]; discriminate H|destruct x; try discriminate Hx; destruct y; discriminate H].
  destruct Hy as [[Fy Hy]|[->|Hy]]; [|destruct x as [?|[]|? ? ?|[] ? ? ?]; discriminate H|destruct y; try discriminate Hy; destruct x; discriminate H].
  apply flt_t in H; [|assumption..]. lra.
Qed.
(** total_cmp on finite numbers that are not two zeros of different sign *)
Lemma total_key_eq x : total_key x = if fsign x then - mag_bits x - 1 else mag_bits x.
Proof.
  unfold total_key, mag_bits. rewrite sign_bits. pose proof (to_bits_range x).
  destruct (Z.ltb_spec (f64_to_bits x) (2 ^ 63)) as [L|L]; destruct (Z.leb_spec (2 ^ 63) (f64_to_bits x)) as [L'|L']; cbv [sbit]; lia.
Qed.
Lemma total_cmp_val x y : fin x → fin y → (val x = val y → fsign x = fsign y) →
  match total_cmp x y with Lt => (val x < val y)%R | Eq => val x = val y | Gt => (val y < val x)%R end.
Proof.
  intros Fx Fy Hz. unfold total_cmp. rewrite !total_key_eq. pose proof (mag_range x) as Rx. pose proof (mag_range y) as Ry.
  assert (Sx : skey x = if fsign x then - mag_bits x else mag_bits x) by reflexivity.
  assert (Sy : skey y = if fsign y then - mag_bits y else mag_bits y) by reflexivity.
  destruct (Z.compare_spec (if fsign x then - mag_bits x - 1 else mag_bits x) (if fsign y then - mag_bits y - 1 else mag_bits y)) as [E|E|E].
  - apply val_eq_iff; [assumption..|]. destruct (fsign x), (fsign y); lia.
  - destruct (Z.eq_dec (skey x) (skey y)) as [Ek|Ek].
    + pose proof (Hz (proj2 (val_eq_iff x y Fx Fy) Ek)) as Hs. destruct (fsign x), (fsign y); try discriminate Hs; lia.
    + apply val_lt_iff; [assumption..|]. destruct (fsign x), (fsign y); lia.
  - destruct (Z.eq_dec (skey x) (skey y)) as [Ek|Ek].
    + pose proof (Hz (proj2 (val_eq_iff x y Fx Fy) Ek)) as Hs. destruct (fsign x), (fsign y); try discriminate Hs; lia.
    + apply val_lt_iff; [assumption..|]. destruct (fsign x), (fsign y); lia.
Qed.
