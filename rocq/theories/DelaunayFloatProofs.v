(** The exit edge is a side of the triangle, and in double arithmetic it avoids
    both ends of the segment. *)
From Verif Require Export DelaunayFloat DelaunaySpec.
From Verif Require Import DelaunayProofs.
From Coq Require Import Reals Lra Qreals.
From Flocq Require Import Core.
From Verif Require Import F64Model F64Base F64Arith F64Rat.
Open Scope nat_scope.

Lemma directed_side u v t : In (u, v) (directed t) → In (mk_edge u v) (sides t).
Proof. destruct t as [[a b] c]. cbn. intros [E|[E|[E|[]]]]; injection E as <- <-; tauto. Qed.

Section exact_exit.
Context (fl : Q → Q).
Lemma exit_collinear_in pts pa pb a es e : exit_collinear fl pts pa pb a es = Some e → ∃ u v, In (u, v) es ∧ e = mk_edge u v.
Proof.
  induction es as [|[u v] es IH]; cbn; [discriminate|]. intros H.
  assert (G : exit_collinear fl pts pa pb a es = Some e → ∃ u0 v0, ((u, v) = (u0, v0) ∨ In (u0, v0) es) ∧ e = mk_edge u0 v0) by (intros K; destruct (IH K) as (x & y & I & ->); exists x, y; auto).
  destruct (_ || _) in H; [|apply G, H]. destruct (nth_error pts u), (nth_error pts v); try discriminate. cbn [bind] in H. destruct (negb _) in H; [|apply G, H]. injection H as <-. exists u, v. auto.
Qed.
Lemma exit_forward_in pts pa pb a es best e : exit_forward pts pa pb a best es = Some e → (∃ q, best = Some (e, q)) ∨ ∃ u v, In (u, v) es ∧ e = mk_edge u v.
Proof.
  revert best. induction es as [|[u v] es IH]; cbn; intros best H.
  - left. destruct best as [[e' q]|]; [|discriminate]. injection H as <-. exists q. reflexivity.
  - assert (G : ∀ b, exit_forward pts pa pb a b es = Some e → (∃ q, b = Some (e, q)) ∨ ∃ u0 v0, ((u, v) = (u0, v0) ∨ In (u0, v0) es) ∧ e = mk_edge u0 v0).
    { intros b K. destruct (IH _ K) as [?|(x & y & I & ->)]; [auto|]. right. exists x, y. auto. }
    destruct (_ || _) in H; [|apply G, H]. destruct (nth_error pts u), (nth_error pts v); try discriminate. cbn [bind] in H. apply G in H. destruct H as [[q H]|H]; [|auto].
    destruct best as [[e' q']|]; [destruct (qlt _ _) in H|]; try (left; eexists; exact H); injection H as <- _; right; exists u, v; auto.
Qed.
Lemma exit_crossing_in pts pa pb es e : exit_crossing fl pts pa pb es = Some e → ∃ u v, In (u, v) es ∧ e = mk_edge u v.
Proof.
  induction es as [|[u v] es IH]; cbn; [discriminate|]. intros H. destruct (nth_error pts u), (nth_error pts v); try discriminate. cbn [bind] in H. cbv zeta in H.
  match type of H with context [if ?c then _ else _] => destruct c end.
  - injection H as <-. exists u, v. auto.
  - destruct (IH H) as (x & y & I & ->). exists x, y. auto.
Qed.
Lemma exit_exact_side pts ts ti a b e : exit_exact fl pts ts ti a b = Some e → ∃ t, nth_error ts ti = Some t ∧ In e (sides t).
Proof.
  unfold exit_exact. destruct (nth_error ts ti) as [t|]; [|discriminate]. cbn [bind]. destruct (nth_error pts a) as [pa|]; [|discriminate]. destruct (nth_error pts b) as [pb|]; [|discriminate]. cbn [bind]. intros H. exists t. split; [reflexivity|].
  assert (D : (∃ u v, In (u, v) (directed t) ∧ e = mk_edge u v) → In e (sides t)) by (intros (u & v & I & ->); apply directed_side, I).
  destruct (memb a (corners t)); [|apply D, (exit_crossing_in pts pa pb _ _ H)].
  destruct (filter (λ v, negb (v =? a)) (corners t)) as [|x [|y l]] eqn:F; try discriminate.
  destruct (nth_error pts x), (nth_error pts y); try discriminate. cbn [bind] in H. cbv zeta in H.
  destruct (_ && _) in H; [apply D, (exit_collinear_in pts pa pb a _ _ H)|]. destruct (_ || _) in H.
  - destruct (find _ (directed t)) as [[u v]|] eqn:E; [|discriminate]. injection H as <-. apply find_some in E. apply D. exists u, v. tauto.
  - destruct (negb _) in H.
    + injection H as <-. clear D. destruct t as [[i j] k]. cbn in F |- *.
      destruct (negb (i =? a)), (negb (j =? a)), (negb (k =? a)); cbn in F; try discriminate; injection F; intros; subst; rewrite ?(mk_edge_comm y x); tauto.
    + apply exit_forward_in in H. destruct H as [[q H]|H]; [discriminate|]. apply D, H.
Qed.
End exact_exit.

Local Opaque fsub fmul fadd fabs flt fmax fneg F64Model.EPS.
Lemma exit_f64_in ball pts ax ay bx yb es e : exit_f64_loop ball pts ax ay bx yb es = Some e → ∃ u v, In (u, v) es ∧ e = mk_edge u v.
Proof.
  induction es as [|[u v] es IH]; cbn [exit_f64_loop In]; [discriminate|]. intros H. destruct (nth_error pts u), (nth_error pts v); try discriminate. cbn [bind] in H.
  destruct (ball _) as [ux uy] in H. destruct (ball _) as [vx vy] in H. cbv zeta in H. destruct (_ && _) in H.
  - injection H as <-. exists u, v. auto.
  - destruct (IH H) as (x & y & I & ->). exists x, y. auto.
Qed.
Theorem exit_fast_side fl approx ball : exits (exit_fast fl approx ball).
Proof.
  intros pts ts i a b e H. unfold exit_fast in H. destruct (nth_error pts a) as [pa|]; [|discriminate]. destruct (nth_error pts b) as [pb|]; [|discriminate]. cbn [bind] in H.
  destruct (approx pa) as [[ax ay]|]; [destruct (approx pb) as [[bx yb]|]|]; try (apply exit_exact_side in H; exact H).
  destruct (nth_error ts i) as [t|]; [|discriminate]. cbn [bind] in H. exists t. split; [reflexivity|]. apply exit_f64_in in H. destruct H as (u & v & I & ->). apply directed_side, I.
Qed.

(** ** Zero or NaN *)
Local Transparent fsub fmul fadd fabs flt fmax fneg F64Model.EPS.
Definition zn (x : f64) : Prop := match x with B754_zero _ _ _ | B754_nan _ _ _ _ _ => True | _ => False end.
Lemma zn_sub_self x : zn (fsub x x).
Proof.
  destruct x as [s|s|s pl H|s m e B]; try (destruct s; exact I).
  destruct (fsub_spec (B754_finite 53 1024 s m e B) (B754_finite 53 1024 s m e B) eq_refl eq_refl) as [[F V]|(s' & _ & V & _)].
  - rewrite Rminus_diag_eq, rnd_0 in V by reflexivity. destruct (fsub _ _) as [| | |s' m' e' B']; try exact I; [discriminate F|].
    exfalso. rewrite val_finite in V. apply Rmult_integral in V. pose proof (bpow_gt_0 radix2 e'). destruct V as [V|V]; [|lra]. apply eq_IZR in V. destruct s'; discriminate.
  - exfalso. destruct s'; lra.
Qed.
Lemma zn_mul_r x y : zn y → zn (fmul x y).
Proof. intros Z. destruct x as [s|s|s pl H|s m e B], y as [s'|s'|s' pl' H'|s' m' e' B']; try contradiction Z; exact I. Qed.
Lemma zn_mul_l x y : zn x → zn (fmul x y).
Proof. intros Z. destruct x as [s|s|s pl H|s m e B], y as [s'|s'|s' pl' H'|s' m' e' B']; try contradiction Z; exact I. Qed.
Lemma zn_sub x y : zn x → zn y → zn (fsub x y).
Proof. intros Z Z'. destruct x as [s|s|s pl H|s m e B], y as [s'|s'|s' pl' H'|s' m' e' B']; try contradiction Z; try contradiction Z'; try exact I. destruct s, s'; exact I. Qed.
Lemma zn_sub_eq x y : fin x → fin y → val x = val y → zn (fsub x y).
Proof.
  intros Fx Fy E. destruct (fsub_spec x y Fx Fy) as [[F V]|(s' & _ & V & _)].
  - rewrite Rminus_diag_eq, rnd_0 in V by exact E. destruct (fsub _ _) as [| | |s' m' e' B']; try exact I; [discriminate F|].
    exfalso. rewrite val_finite in V. apply Rmult_integral in V. pose proof (bpow_gt_0 radix2 e'). destruct V as [V|V]; [|lra]. apply eq_IZR in V. destruct s'; discriminate.
  - exfalso. rewrite E in V. destruct s'; lra.
Qed.
Lemma zn_comm x y : zn (fsub (fmul x y) (fmul y x)).
Proof.
  destruct (fis_finite x) eqn:Fx; [destruct (fis_finite y) eqn:Fy|].
  - destruct (fmul_spec x y Fx Fy) as [[F V]|(s & E & Sg & B)], (fmul_spec y x Fy Fx) as [[F' V']|(s' & E' & Sg' & B')].
    + apply zn_sub_eq; try assumption. rewrite V, V', Rmult_comm. reflexivity.
    + exfalso. rewrite Rmult_comm, <- V in B'. pose proof (abs_B2R_lt_emax 53 1024 (fmul x y)). lra.
    + exfalso. rewrite Rmult_comm, <- V' in B. pose proof (abs_B2R_lt_emax 53 1024 (fmul y x)). lra.
    + rewrite E, E'. rewrite Rmult_comm in Sg'. destruct s, s'; try exact I; lra.
  - destruct x as [s|s|s pl H|s m e B], y as [s'|s'|s' pl' H'|s' m' e' B']; try discriminate; cbn; try exact I; try (destruct s, s'; exact I).
  - destruct x as [s|s|s pl H|s m e B], y as [s'|s'|s' pl' H'|s' m' e' B']; try discriminate; cbn; try exact I; try (destruct s, s'; exact I).
Qed.
Lemma zn_not_below z e : zn z → flt z (fmul (fneg e) e) = false.
Proof.
  intros Z. assert (G : ∀ m, match m with B754_zero _ _ _ | B754_nan _ _ _ _ _ => True | B754_infinity _ _ s => s = true | B754_finite _ _ s _ _ _ => s = true end → flt z m = false).
  { intros m Hm. destruct z as [s|s|s pl H|s mm ee B]; try (destruct Z); destruct m as [s'|s'|s' pl' H'|s' m' e' B']; try reflexivity; subst s'; reflexivity. }
  apply G. destruct e as [s|s|s pl H|s m e B]; try exact I; try (destruct s; reflexivity); try (destruct s; exact I).
  set (x := B754_finite 53 1024 s m e B). assert (Fx : fin x) by reflexivity. destruct (fneg_fin x Fx) as [Fn Vn].
  assert (Vm : (val x * val x > 0)%R).
  { unfold x. rewrite val_finite. apply Rsqr_pos_lt. intros E0. apply Rmult_integral in E0. pose proof (bpow_gt_0 radix2 e). destruct E0 as [E0|E0]; [|lra]. apply eq_IZR in E0. destruct s; discriminate. }
  destruct (fmul_spec (fneg x) x Fn Fx) as [[F V]|(s' & -> & Sg & _)].
  - rewrite Vn in V. destruct (fmul (fneg x) x) as [| | |s' m' e' B']; try exact I; [discriminate F|]. destruct s'; [reflexivity|]. exfalso.
    assert (P : (0 < val (B754_finite 53 1024 false m' e' B'))%R). { rewrite val_finite. apply Rmult_lt_0_compat; [apply IZR_lt; reflexivity|apply bpow_gt_0]. }
    rewrite V in P. apply rnd_pos in P. lra.
  - rewrite Vn in Sg. destruct s'; [reflexivity|]. lra.
Qed.

Local Opaque fsub fmul fadd fabs flt fmax fneg F64Model.EPS.
(** every coordinate read as a double by the walk is the same double *)
Theorem exit_f64_across fl ball : exits_across (exit_fast fl (λ p, Some (ball p)) ball).
Proof.
  intros pts ts i a b e H. unfold exit_fast in H. destruct (nth_error pts a) as [pa|] eqn:Ea; [|discriminate]. destruct (nth_error pts b) as [pb|] eqn:Eb; [|discriminate]. cbn [bind] in H.
  destruct (ball pa) as [ax ay] eqn:Ba. destruct (ball pb) as [bx yb] eqn:Bb. destruct (nth_error ts i) as [t|]; [|discriminate]. cbn [bind] in H.
  remember (directed t) as es eqn:Ees. clear Ees t. induction es as [|[u v] es IH]; cbn [exit_f64_loop] in H; [discriminate|].
  destruct (nth_error pts u) as [pu|] eqn:Eu; [|discriminate]. destruct (nth_error pts v) as [pv|] eqn:Ev; [|discriminate]. cbn [bind] in H.
  destruct (ball pu) as [ux uy] eqn:Bu. destruct (ball pv) as [vx vy] eqn:Bv. cbv zeta in H. destruct (_ && _) eqn:C in H; [|apply IH, H]. clear IH. injection H as <-.
  apply andb_true_iff in C. destruct C as [C1 C2].
  assert (G : u ≠ a ∧ u ≠ b ∧ v ≠ a ∧ v ≠ b).
  { repeat split; intros ->.
    - assert (pu = pa) by congruence. subst. assert (ux = ax ∧ uy = ay) as [-> ->] by (split; congruence). rewrite zn_not_below in C1; [discriminate|].
      apply zn_mul_l, zn_sub; apply zn_mul_r, zn_sub_self.
    - assert (pu = pb) by congruence. subst. assert (ux = bx ∧ uy = yb) as [-> ->] by (split; congruence). rewrite zn_not_below in C2; [discriminate|].
      apply zn_mul_r, zn_sub; apply zn_mul_r, zn_sub_self.
    - assert (pv = pa) by congruence. subst. assert (vx = ax ∧ vy = ay) as [-> ->] by (split; congruence). rewrite zn_not_below in C1; [discriminate|].
      apply zn_mul_r, zn_sub; apply zn_mul_r, zn_sub_self.
    - assert (pv = pb) by congruence. subst. assert (vx = bx ∧ vy = yb) as [-> ->] by (split; congruence). rewrite zn_not_below in C1; [discriminate|].
      apply zn_mul_r. apply zn_comm. }
  destruct (mk_edge_cases u v) as [[-> _]|[-> _]]; cbn; tauto.
Qed.

(** ** Truncation to double *)
Lemma trunc64_err r : (Rabs (trunc64 r - r) <= bpow radix2 (-52) * Rabs r + bpow radix2 (-1074))%R.
Proof.
  unfold trunc64. pose proof (error_le_ulp radix2 (SpecFloat.fexp 53 1024) Ztrunc r) as E.
  assert (U : (ulp radix2 (SpecFloat.fexp 53 1024) r <= bpow radix2 (-52) * Rabs r + bpow radix2 (-1074))%R).
  { change (SpecFloat.fexp 53 1024) with (FLT_exp (-1074) 53). destruct (Rle_or_lt (bpow radix2 (-1074 + 53 - 1)) (Rabs r)) as [L|L].
    - pose proof (ulp_FLT_le radix2 (-1074) 53 r L) as X. change (1 - 53)%Z with (-52)%Z in X. pose proof (bpow_ge_0 radix2 (-1074)). lra.
    - rewrite ulp_FLT_small; [|reflexivity|]. 
      + pose proof (bpow_ge_0 radix2 (-52)). pose proof (Rabs_pos r). assert (0 <= bpow radix2 (-52) * Rabs r)%R by (apply Rmult_le_pos; assumption). lra.
      + eapply Rlt_trans; [exact L|]. apply bpow_lt. lia. }
  lra.
Qed.
Lemma tq_err q : (Rabs (tq q - Q2R q) <= bpow radix2 (-1074))%R.
Proof.
  unfold tq, Q2R. set (z := Zpos (Qden q)). assert (Hz : (0 < z)%Z) by reflexivity. set (m := (Qnum q * 2 ^ 1074)%Z).
  assert (E : (IZR (Qnum q) * / IZR z = IZR m / IZR z * bpow radix2 (-1074))%R).
  { unfold m. rewrite mult_IZR, pow1074. change (-1074)%Z with (- (1074))%Z. rewrite bpow_opp. pose proof (bpow_gt_0 radix2 1074). assert (IZR z <> 0)%R by (apply IZR_neq; lia). field. split; lra. }
  rewrite E, <- Rmult_minus_distr_r, Rabs_mult, (Rabs_pos_eq (bpow _ _)) by apply bpow_ge_0. rewrite <- (Rmult_1_l (bpow radix2 (-1074))) at 2.
  apply Rmult_le_compat_r; [apply bpow_ge_0|]. pose proof (Z.quot_rem' m z) as QR. assert (R : (Z.abs (Z.rem m z) < z)%Z). { pose proof (Z.rem_bound_abs m z). lia. }
  clearbody m z. replace (IZR (Z.quot m z) - IZR m / IZR z)%R with (- IZR (Z.rem m z) / IZR z)%R.
  2:{ assert (E2 : IZR m = (IZR z * IZR (Z.quot m z) + IZR (Z.rem m z))%R) by (rewrite <- mult_IZR, <- plus_IZR; f_equal; exact QR). rewrite E2. assert (IZR z <> 0)%R by (apply IZR_neq; lia). field. assumption. }
  unfold Rdiv. rewrite Rabs_mult, Rabs_Ropp, <- abs_IZR. assert (P : (0 < IZR z)%R) by (apply IZR_lt; lia). rewrite Rabs_inv, (Rabs_pos_eq (IZR z)) by lra.
  apply IZR_lt in R. apply Rmult_le_reg_r with (IZR z); [exact P|]. rewrite Rmult_assoc, Rinv_l by lra. lra.
Qed.
Lemma rat_fl_val q : Q2R (rat_fl q) = val (Q_to_f64 q).
Proof.
  unfold rat_fl. destruct (to_Q_fin _ (proj1 (Q_to_f64_spec q))) as (x & -> & E). exact E.
Qed.
Lemma Q2R_abs q : Q2R (Qabs q) = Rabs (Q2R q).
Proof.
  apply Qabs_case; intros H.
  - apply Qle_Rle in H. change (Q2R 0) with (0 * / 1)%R in H. rewrite Rabs_pos_eq by lra. reflexivity.
  - apply Qle_Rle in H. change (Q2R 0) with (0 * / 1)%R in H. rewrite Rabs_left1, Q2R_opp by lra. reflexivity.
Qed.
Theorem rat_fl_double : double_like rat_fl.
Proof.
  intros x Hx. apply Rle_Qle. apply Qle_Rle in Hx. rewrite Q2R_plus, Q2R_mult, !Q2R_abs, Q2R_minus, rat_fl_val. rewrite Q2R_abs in Hx.
  assert (L : (Q2R limit < bpow radix2 1024)%R). { unfold limit, Q2R. cbn [Qnum Qden inject_Z]. rewrite Rinv_1, Rmult_1_r. apply Rlt_le_trans with (IZR (2 ^ 1024)); [apply IZR_lt; vm_compute; reflexivity|]. right. apply (IZR_Zpower radix2 1024). lia. }
  pose proof (tq_err x) as T. pose proof (tq_le x) as Tl. assert (T' : (Rabs (tq x) <= Rabs (Q2R x))%R) by exact Tl.
  destruct (Q_to_f64_spec x) as [_ [->|[_ B]]].
  - pose proof (trunc64_err (tq x)) as E. replace (trunc64 (tq x) - Q2R x)%R with ((trunc64 (tq x) - tq x) + (tq x - Q2R x))%R by ring.
    eapply Rle_trans; [apply Rabs_triang|]. 
    assert (A1 : Q2R (1 # 2 ^ 50) = bpow radix2 (-50)) by (unfold Q2R; cbn [Qnum Qden]; rewrite Rmult_1_l; reflexivity).
    assert (A2 : Q2R (1 # 2 ^ 100) = bpow radix2 (-100)) by (unfold Q2R; cbn [Qnum Qden]; rewrite Rmult_1_l; reflexivity).
    rewrite A1, A2. assert (B1 : (bpow radix2 (-52) <= bpow radix2 (-50))%R) by (apply bpow_le; lia). assert (B2 : (2 * bpow radix2 (-1074) <= bpow radix2 (-100))%R).
    { change 2%R with (bpow radix2 1). rewrite <- bpow_plus. apply bpow_le. lia. }
    pose proof (Rabs_pos (tq x)). pose proof (bpow_ge_0 radix2 (-52)). assert (bpow radix2 (-52) * Rabs (tq x) <= bpow radix2 (-50) * Rabs (Q2R x))%R by (apply Rmult_le_compat; assumption). lra.
  - exfalso. pose proof (trunc_le_abs (tq x)). lra.
Qed.
