(** Proofs about the cells of point_key (boolean.rs 66-83) and the search for vertices, with
    the scalar CgarRational. *)
From Coq Require Import Reals Qreals Lra.
From Flocq Require Import Core.
From Verif Require Import F64Rat HashProofs HashSpec ClaimsHash.
From Verif Require BoolAllocModel BoolAllocSpec.
Open Scope Z_scope.
Local Opaque flt fabs fmul fsub fdiv fzero floor_sat_i64 pack_key3 offsets default_cell EPS f64_from_bits fone f1em6 Q_to_f64.

Notation round_i64 := BoolAllocModel.round_i64.

Lemma round_div (n d : Z) : 0 < d → 0 <= n → let r := (2 * n + d) / (2 * d) in 2 * d * r - d <= 2 * n < 2 * d * r + d.
Proof. intros Hd Hn r. pose proof (Z.mul_div_le (2 * n + d) (2 * d) ltac:(lia)). pose proof (Z.mul_succ_div_gt (2 * n + d) (2 * d) ltac:(lia)). unfold r. lia. Qed.
Lemma round_close y q : f64_to_Q y = Some q → (Rabs (Q2R q) <= IZR (2 ^ 40))%R → (Rabs (Q2R q - IZR (round_i64 y)) <= 1 / 2)%R.
Proof.
  intros E B. unfold BoolAllocModel.round_i64. rewrite E. destruct q as [n d]. cbn [Qnum Qden] in *. unfold Q2R in *. cbn [Qnum Qden] in *.
  set (D := Zpos d) in *. assert (0 < D) as HD by (unfold D; lia). assert (0 < IZR D)%R as HDR by (apply IZR_lt; lia).
  pose proof (round_div (Z.abs n) D HD (Z.abs_nonneg n)) as [L U]. set (r := (2 * Z.abs n + D) / (2 * D)) in *. cbv zeta in L, U.
  assert (Z.abs n <= 2 ^ 40 * D) as Bn.
  { apply le_IZR. rewrite mult_IZR, abs_IZR. rewrite Rabs_mult, (Rabs_right (/ IZR D)) in B by (left; apply Rinv_0_lt_compat; lra).
    apply (Rmult_le_compat_r (IZR D)) in B; [|lra]. rewrite Rmult_assoc, Rinv_l, Rmult_1_r in B by lra. exact B. }
  assert (0 <= r <= 2 ^ 40 + 1) as Br by nia.
  clearbody r. assert (Z.max i64_min (Z.min i64_max (Z.sgn n * r)) = Z.sgn n * r) as ->.
  { unfold i64_min, i64_max. destruct (Z.sgn_spec n) as [[? ->]|[[? ->]|[? ->]]]; lia. }
  apply IZR_le in L. apply IZR_lt in U. rewrite plus_IZR, !mult_IZR in U. rewrite minus_IZR, !mult_IZR in L. rewrite abs_IZR in *.
  assert (IZR n = IZR (Z.sgn n) * Rabs (IZR n))%R as En.
  { rewrite <- abs_IZR, <- mult_IZR. f_equal. lia. }
  rewrite mult_IZR. rewrite En. replace (IZR (Z.sgn n) * Rabs (IZR n) * / IZR D - IZR (Z.sgn n) * IZR r)%R with (IZR (Z.sgn n) * (Rabs (IZR n) * / IZR D - IZR r))%R by ring.
  assert (Rabs (Rabs (IZR n) * / IZR D - IZR r) <= 1 / 2)%R as M.
  { assert (Rabs (IZR n) = Rabs (IZR n) * / IZR D * IZR D)%R as Ei by (field; lra). set (t := (Rabs (IZR n) * / IZR D)%R) in *. clearbody t.
    apply Rabs_le. split; apply (Rmult_le_reg_r (IZR D)); lra. }
  rewrite Rabs_mult. assert (Rabs (IZR (Z.sgn n)) <= 1)%R as Hs.
  { rewrite <- abs_IZR. apply IZR_le. lia. }
  pose proof (Rabs_pos (Rabs (IZR n) * / IZR D - IZR r)). pose proof (Rabs_pos (IZR (Z.sgn n))). nra.
Qed.

Notation tol := BoolAllocModel.merge_tol.
Definition scale : f64 := fdiv fone tol.
Definition qkey (x : Q) : Z := round_i64 (fmul (Q_to_f64 x) scale).
Lemma point_key_eq x y z : BoolAllocModel.point_key (x, y, z) = (qkey x, qkey y, qkey z).
Proof. reflexivity. Qed.

Lemma scale_ok : fin scale ∧ (999999 <= val scale <= 1000001)%R.
Proof.
  assert (C : match f64_to_Q scale with Some q => Qle_bool 999999 q && Qle_bool q 1000001 = true | None => False end) by (vm_compute; reflexivity).
  destruct (f64_to_Q scale) as [q|] eqn:E; [|contradiction]. destruct (to_Q_val _ _ E) as [F V]. split; [exact F|]. rewrite <- V.
  apply andb_prop in C. destruct C as [C1 C2]. apply Qle_bool_iff, Qle_Rle in C1, C2. unfold Q2R in *. cbn [Qnum Qden] in *. lra.
Qed.

(** ** Conversion to doubles loses little *)
Lemma tq_close q : (Rabs (tq q - Q2R q) <= bpow radix2 (-1074))%R.
Proof.
  unfold tq, Q2R. destruct q as [n d]. cbn [Qnum Qden]. set (D := Zpos d). assert (0 < IZR D)%R as HD by (apply IZR_lt; unfold D; lia).
  pose proof (Z.quot_rem' (n * 2 ^ 1074) D) as E. pose proof (Z.rem_bound_abs (n * 2 ^ 1074) D ltac:(unfold D; lia)) as B.
  assert (bpow radix2 1074 * bpow radix2 (-1074) = 1)%R as Eb by (rewrite <- bpow_plus; reflexivity).
  assert (IZR (2 ^ 1074) = bpow radix2 1074)%R as E2 by (rewrite <- IZR_Zpower by lia; reflexivity).
  apply (f_equal IZR) in E. rewrite plus_IZR, !mult_IZR, E2 in E. set (k := Z.quot (n * 2 ^ 1074) D) in *. set (r := Z.rem (n * 2 ^ 1074) D) in *.
  assert (Rabs (IZR r) <= IZR D)%R as Br. { rewrite <- abs_IZR. apply IZR_le. unfold D in *. lia. }
  pose proof (bpow_gt_0 radix2 (-1074)) as Hp. pose proof (bpow_gt_0 radix2 1074) as Hp'.
  clearbody k r D. set (b := bpow radix2 (-1074)) in *. set (c := bpow radix2 1074) in *. clearbody b c.
  assert (IZR k * b - IZR n * / IZR D = - (IZR r * / IZR D) * b)%R as ->.
  { apply (Rmult_eq_reg_r (IZR D * c)%R); [|nra]. replace ((IZR k * b - IZR n * / IZR D) * (IZR D * c))%R with (IZR D * IZR k * (c * b) - IZR n * c * (/ IZR D * IZR D))%R by ring.
    replace (- (IZR r * / IZR D) * b * (IZR D * c))%R with (- IZR r * (c * b) * (/ IZR D * IZR D))%R by ring. rewrite Eb, Rinv_l by lra. lra. }
  rewrite Rabs_mult, (Rabs_right b), Rabs_Ropp, Rabs_mult, (Rabs_right (/ IZR D)) by (left; try apply Rinv_0_lt_compat; lra).
  assert (Rabs (IZR r) * / IZR D <= 1)%R as H1.
  { apply (Rmult_le_reg_r (IZR D)); [lra|]. rewrite Rmult_assoc, Rinv_l by lra. lra. }
  nra.
Qed.
Lemma trunc_close t : (Rabs t <= 1000)%R → (Rabs (trunc64 t - t) <= bpow radix2 (-42))%R.
Proof.
  intros B. destruct (Req_dec t 0) as [->|Hn].
  { unfold trunc64. rewrite round_0 by typeclasses eauto. rewrite Rminus_0_r, Rabs_R0. apply bpow_ge_0. }
  pose proof (error_lt_ulp radix2 fexp64 Ztrunc t Hn) as H. apply Rlt_le in H. eapply Rle_trans; [exact H|].
  rewrite ulp_neq_0 by assumption. apply bpow_le. unfold cexp.
  assert (mag radix2 t <= 10) as Hm. { apply mag_le_bpow; [assumption|]. change (bpow radix2 10) with 1024%R. lra. }
  unfold SpecFloat.fexp, SpecFloat.emin. lia.
Qed.
Lemma to_f64_close q : (Rabs (Q2R q) <= 1000)%R → (Rabs (val (Q_to_f64 q) - Q2R q) <= bpow radix2 (-41))%R.
Proof.
  intros B. pose proof (tq_close q) as H1. pose proof (tq_le q) as H2. pose proof (trunc_close (tq q) ltac:(lra)) as H3.
  assert (bpow radix2 (-1074) <= bpow radix2 (-42))%R as Hb by (apply bpow_le; lia).
  assert (bpow radix2 (-41) = 2 * bpow radix2 (-42))%R as -> by (change (-41) with (1 + -42); rewrite bpow_plus; reflexivity).
  destruct (Q_to_f64_spec q) as [_ [->|[_ H]]].
  - apply Rabs_le_inv in H1, H3. apply Rabs_le. lra.
  - exfalso. pose proof (trunc_le_abs (tq q)) as H4. assert (bpow radix2 10 < bpow radix2 1024)%R as Hl by (apply bpow_lt; lia).
    change (bpow radix2 10) with 1024%R in Hl. lra.
Qed.
Lemma rnd_close t : (Rabs t <= IZR (2 ^ 30))%R → (Rabs (rnd t - t) <= bpow radix2 (-23))%R.
Proof.
  intros B. destruct (Req_dec t 0) as [->|Hn].
  { rewrite rnd_0, Rminus_0_r, Rabs_R0. apply bpow_ge_0. }
  pose proof (error_le_half_ulp radix2 fexp64 (λ x, negb (Z.even x)) t) as H. fold (rnd t) in H. eapply Rle_trans; [exact H|].
  rewrite ulp_neq_0 by assumption. assert (bpow radix2 (cexp radix2 fexp64 t) <= bpow radix2 (-22))%R as Hc.
  { apply bpow_le. unfold cexp. assert (mag radix2 t <= 31) as Hm. { apply mag_le_bpow; [assumption|]. eapply Rle_lt_trans; [exact B|]. change (bpow radix2 31) with (IZR (2 ^ 31)). apply IZR_lt. lia. }
    unfold SpecFloat.fexp, SpecFloat.emin. lia. }
  assert (bpow radix2 (-22) = 2 * bpow radix2 (-23))%R as E by (change (-22) with (1 + -23); rewrite bpow_plus; reflexivity). lra.
Qed.

(** Equal keys: the coordinates are closer than 1.001 millionths. *)
Lemma scaled x : (Rabs (Q2R x) <= 1000)%R → ∃ y, f64_to_Q (fmul (Q_to_f64 x) scale) = Some y ∧
  (Rabs (Q2R y) <= IZR (2 ^ 40))%R ∧ (Rabs (Q2R y - val (Q_to_f64 x) * val scale) <= bpow radix2 (-23))%R.
Proof.
  intros B. destruct scale_ok as [Fs Bs]. pose proof (proj1 (Q_to_f64_spec x)) as Fx. pose proof (to_f64_le x) as Bx.
  assert (Rabs (val (Q_to_f64 x) * val scale) <= IZR (2 ^ 30))%R as Bp.
  { rewrite Rabs_mult, (Rabs_right (val scale)) by lra. pose proof (Rabs_pos (val (Q_to_f64 x))).
    assert (1000 * 1000001 <= IZR (2 ^ 30))%R as Hk by (rewrite <- mult_IZR; apply IZR_le; lia). nra. }
  pose proof (rnd_close _ Bp) as Hc. assert (bpow radix2 (-23) <= 1)%R as Hb by (change 1%R with (bpow radix2 0); apply bpow_le; lia).
  assert (IZR (2 ^ 30) + 1 <= IZR (2 ^ 40))%R as Hk by (rewrite <- (plus_IZR _ 1); apply IZR_le; lia).
  destruct (fmul_spec _ _ Fx Fs) as [[F V]|(s&_&_&H)].
  - destruct (to_Q_fin _ F) as (y&Ey&Vy). exists y. split; [exact Ey|]. rewrite Vy, V. split; [|exact Hc].
    apply Rabs_le_inv in Bp, Hc. apply Rabs_le. lra.
  - exfalso. assert (bpow radix2 40 < bpow radix2 1024)%R as Hl by (apply bpow_lt; lia). change (bpow radix2 40) with (IZR (2 ^ 40)) in Hl.
    apply Rabs_le_inv in Bp, Hc. assert (Rabs (rnd (val (Q_to_f64 x) * val scale)) <= IZR (2 ^ 40))%R by (apply Rabs_le; lra). lra.
Qed.
Lemma bpow_small : (bpow radix2 (-23) <= 12 / 100000000)%R ∧ (bpow radix2 (-41) <= 5 / 10000000000000)%R.
Proof. change (bpow radix2 (-23)) with (/ 8388608)%R. change (bpow radix2 (-41)) with (/ 2199023255552)%R. split; lra. Qed.
Lemma qkey_close x y : (Qabs x <= 1000)%Q → (Qabs y <= 1000)%Q → qkey x = qkey y → (Qabs (x - y) < 1001 # 1000000000)%Q.
Proof.
  intros Hx%Qle_Rle Hy%Qle_Rle E. rewrite Q2R_abs in Hx, Hy. assert (Q2R 1000 = 1000)%R as E1 by (unfold Q2R; cbn; lra). rewrite E1 in Hx, Hy.
  apply Rlt_Qlt. rewrite Q2R_abs, Q2R_minus. replace (Q2R (1001 # 1000000000)) with (1001 / 1000000000)%R by (unfold Q2R; cbn; lra).
  destruct (scaled x Hx) as (a&Ea&Ba&Ca), (scaled y Hy) as (b&Eb&Bb&Cb).
  pose proof (round_close _ _ Ea Ba) as Ra. pose proof (round_close _ _ Eb Bb) as Rb. unfold qkey in E. rewrite E in Ra.
  set (k := IZR _) in Ra, Rb. clearbody k. pose proof (to_f64_close x Hx) as Tx. pose proof (to_f64_close y Hy) as Ty. destruct scale_ok as [_ Bs], bpow_small as [S1 S2].
  set (u := val (Q_to_f64 x)) in *. set (v := val (Q_to_f64 y)) in *. set (s := val scale) in *. clearbody u v s.
  set (X := Q2R x) in *. set (Y := Q2R y) in *. clearbody X Y. set (A := Q2R a) in *. set (B := Q2R b) in *. clearbody A B.
  apply Rabs_le_inv in Ca, Cb, Ra, Rb, Tx, Ty. apply Rabs_def1.
  - assert ((u - v) * s <= 100000024 / 100000000)%R by lra. nra.
  - assert ((v - u) * s <= 100000024 / 100000000)%R by lra. nra.
Qed.
Lemma qkey_Qeq x y : (x == y)%Q → qkey x = qkey y.
Proof. intros E. unfold qkey. rewrite (Q_to_f64_Qeq x y E); reflexivity. Qed.

(** ** The search *)
Lemma rat_near_eq q p : BoolAllocModel.rat_near q p = rapx q p.
Proof.
  unfold BoolAllocModel.rat_near. rewrite (apx_eq rat_scalar rat_sub Q_to_f64 rthr (λ _ _ _, eq_refl) (λ _ _, eq_refl) eq_refl). reflexivity.
Qed.
Lemma rat_hit_refl p : BoolAllocModel.rat_hit p p = true.
Proof. unfold BoolAllocModel.rat_hit. rewrite Z.eqb_refl, rat_near_eq. apply rapx_refl. Qed.

Lemma key_within p q : BoolAllocSpec.around_origin p → BoolAllocSpec.around_origin q →
  BoolAllocModel.point_key p = BoolAllocModel.point_key q → BoolAllocSpec.within BoolAllocSpec.cell p q.
Proof.
  destruct p as [[x y] z], q as [[x' y'] z']. rewrite !point_key_eq. intros (A&B&C) (A'&B'&C') E. injection E as E1 E2 E3.
  split; [|split]; apply Qlt_le_weak, qkey_close; assumption.
Qed.
Lemma key_eq3 p q : GeomSpec.eq3 p q → BoolAllocModel.point_key p = BoolAllocModel.point_key q.
Proof.
  destruct p as [[x y] z], q as [[x' y'] z']. rewrite !point_key_eq. intros (A&B&C). rewrite (qkey_Qeq x x' A), (qkey_Qeq y y' B), (qkey_Qeq z z' C). reflexivity.
Qed.
Lemma hit_within p q : BoolAllocModel.rat_hit p q = true → BoolAllocSpec.within BoolAllocSpec.cell p q.
Proof.
  unfold BoolAllocModel.rat_hit. intros [_ E]%andb_prop. rewrite rat_near_eq in E. destruct p as [[x y] z], q as [[x' y'] z']. cbn [BoolAllocModel.coords] in E.
  cbn [apx] in E. destruct (rfar x x') eqn:E1; [discriminate|]. destruct (rfar y y') eqn:E2; [discriminate|]. destruct (rfar z z') eqn:E3; [discriminate|].
  apply rfar_near in E1, E2, E3. assert (bound < BoolAllocSpec.cell)%Q as Hb by reflexivity.
  split; [|split]; apply Qlt_le_weak; (eapply Qlt_trans; [|exact Hb]); assumption.
Qed.
Lemma cell_eq3 p q : GeomSpec.eq3 p q → BoolAllocModel.rat_cell (BoolAllocModel.coords p) = BoolAllocModel.rat_cell (BoolAllocModel.coords q).
Proof.
  destruct p as [[x y] z], q as [[x' y'] z']. intros (A&B&C). unfold BoolAllocModel.rat_cell, position_to_packed_key, position_to_hash_key, key_coord.
  cbn [BoolAllocModel.coords nth_error s_ref_into rat_scalar]. rewrite (Q_to_f64_Qeq x x' A), (Q_to_f64_Qeq y y' B), (Q_to_f64_Qeq z z' C). reflexivity.
Qed.
Lemma hit_eq3 p q : GeomSpec.eq3 p q → BoolAllocModel.rat_hit p q = true.
Proof.
  intros E. unfold BoolAllocModel.rat_hit. rewrite (cell_eq3 p q E), Z.eqb_refl, rat_near_eq. destruct p as [[x y] z], q as [[x' y'] z'], E as (A&B&C).
  cbn [BoolAllocModel.coords apx].
  assert (∀ a b : Q, (a == b)%Q → rfar a b = false) as H.
  { intros a b E. apply rfar_close. setoid_replace (a - b)%Q with 0%Q by (rewrite E; ring). discriminate. }
  rewrite (H x x' A), (H y y' B), (H z z' C). reflexivity.
Qed.
