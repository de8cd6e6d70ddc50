(** Rounded arithmetic: what the f64 operations return for finite operands. *)
From Coq Require Import Reals Lra Qreals.
From Flocq Require Import Core.
From Verif Require Export F64Next.
Open Scope Z_scope.

Notation fexp64 := (SpecFloat.fexp 53 1024).
Definition rnd (r : R) : R := round radix2 fexp64 ZnearestE r.
#[export] Instance prec53 : Prec_gt_0 53. Proof. reflexivity. Qed.
#[export] Instance exp53 : Prec_lt_emax 53 1024. Proof. reflexivity. Qed.
#[export] Instance valid64 : Valid_exp fexp64. Proof. apply (fexp_correct 53 1024). reflexivity. Qed.
#[export] Instance mono64 : Monotone_exp fexp64. Proof. apply (fexp_monotone 53 1024). Qed.

Lemma rnd_0 : rnd 0 = 0%R. Proof. apply round_0. typeclasses eauto. Qed.
Lemma rnd_le x y : (x <= y)%R → (rnd x <= rnd y)%R.
Proof. apply round_le; typeclasses eauto. Qed.
Lemma rnd_opp x : rnd (- x) = (- rnd x)%R. Proof. apply round_NE_opp. Qed.
Lemma rnd_val x : rnd (val x) = val x.
Proof. apply round_generic; [typeclasses eauto|]. apply generic_format_B2R. Qed.
Lemma rnd_format r : generic_format radix2 fexp64 r → rnd r = r.
Proof. intros H. apply round_generic; [typeclasses eauto|assumption]. Qed.
Lemma rnd_pos r : (0 < rnd r)%R → (0 < r)%R.
Proof. intros H. apply Rnot_le_lt. intros Hr. apply rnd_le in Hr. rewrite rnd_0 in Hr. lra. Qed.
Lemma rnd_neg r : (rnd r < 0)%R → (r < 0)%R.
Proof. intros H. apply Rnot_le_lt. intros Hr. apply rnd_le in Hr. rewrite rnd_0 in Hr. lra. Qed.
Lemma format_val x : generic_format radix2 fexp64 (val x).
Proof. apply generic_format_B2R. Qed.

Definition inf (s : bool) : f64 := B754_infinity 53 1024 s.
Lemma overflow_inf x s : B2FF 53 1024 x = binary_overflow 53 1024 mode_NE s → x = inf s.
Proof. unfold inf. destruct x, s; cbn; intros E; try discriminate; injection E as ->; reflexivity. Qed.
Lemma rlt_false a b : Rlt_bool a b = false → (b <= a)%R.
Proof. intros H. destruct (Rlt_bool_spec a b); [discriminate|assumption]. Qed.
Lemma big_overflow r : Rlt_bool (Rabs (rnd r)) (bpow radix2 1024) = false → (0 < Rabs r)%R.
Proof.
  intros H. destruct (Rlt_bool_spec (Rabs (rnd r)) (bpow radix2 1024)); [discriminate|].
  destruct (Req_dec r 0) as [->|Hn]; [|apply Rabs_pos_lt; assumption].
  rewrite rnd_0, Rabs_R0 in H0. pose proof (bpow_gt_0 radix2 1024). lra.
Qed.
Lemma sign_val x : fin x → (if fsign x then val x <= 0 else 0 <= val x)%R.
Proof. intros H. rewrite (val_sign x H). pose proof (abs_val_nonneg x). destruct (fsign x); lra. Qed.

Lemma fadd_spec x y : fin x → fin y →
  (fin (fadd x y) ∧ val (fadd x y) = rnd (val x + val y)) ∨
  (∃ s, fadd x y = inf s ∧ (if s then val x + val y < 0 else 0 < val x + val y)%R ∧
     (bpow radix2 1024 <= Rabs (rnd (val x + val y)))%R).
Proof.
  intros Hx Hy. pose proof (Bplus_correct 53 1024 eq_refl eq_refl binop_nan_pl64 mode_NE x y Hx Hy) as H.
  change (round radix2 fexp64 (round_mode mode_NE) (val x + val y)) with (rnd (val x + val y)) in H.
  destruct (Rlt_bool _ _) eqn:E.
  - left. destruct H as (H1 & H2 & _). split; assumption.
  - right. destruct H as (H1 & H2). apply overflow_inf in H1. exists (fsign x). split; [assumption|].
    split; [|exact (rlt_false _ _ E)].
    apply big_overflow in E. pose proof (sign_val x Hx) as Sx. pose proof (sign_val y Hy) as Sy.
    unfold fsign in *. rewrite <- H2 in Sy. unfold Rabs in E. destruct (Rcase_abs _) in E; destruct (Bsign 53 1024 x); lra.
Qed.
Lemma fsub_spec x y : fin x → fin y →
  (fin (fsub x y) ∧ val (fsub x y) = rnd (val x - val y)) ∨
  (∃ s, fsub x y = inf s ∧ (if s then val x - val y < 0 else 0 < val x - val y)%R ∧
     (bpow radix2 1024 <= Rabs (rnd (val x - val y)))%R).
Proof.
  intros Hx Hy. pose proof (Bminus_correct 53 1024 eq_refl eq_refl binop_nan_pl64 mode_NE x y Hx Hy) as H.
  change (round radix2 fexp64 (round_mode mode_NE) (val x - val y)) with (rnd (val x - val y)) in H.
  destruct (Rlt_bool _ _) eqn:E.
  - left. destruct H as (H1 & H2 & _). split; assumption.
  - right. destruct H as (H1 & H2). apply overflow_inf in H1. exists (fsign x). split; [assumption|].
    split; [|exact (rlt_false _ _ E)].
    apply big_overflow in E. pose proof (sign_val x Hx) as Sx. pose proof (sign_val y Hy) as Sy.
    unfold fsign in *. rewrite H2 in Sx |- *.
    unfold Rabs in E. destruct (Rcase_abs _) in E; destruct (Bsign 53 1024 y); cbn in *; lra.
Qed.
Lemma fmul_spec x y : fin x → fin y →
  (fin (fmul x y) ∧ val (fmul x y) = rnd (val x * val y)) ∨
  (∃ s, fmul x y = inf s ∧ (if s then val x * val y < 0 else 0 < val x * val y)%R ∧
     (bpow radix2 1024 <= Rabs (rnd (val x * val y)))%R).
Proof.
  intros Hx Hy. pose proof (Bmult_correct 53 1024 eq_refl eq_refl binop_nan_pl64 mode_NE x y) as H.
  change (round radix2 fexp64 (round_mode mode_NE) (val x * val y)) with (rnd (val x * val y)) in H.
  destruct (Rlt_bool _ _) eqn:E.
  - left. destruct H as (H1 & H2 & _). unfold fin, fis_finite in *. split; [|assumption]. rewrite Hx, Hy in H2. exact H2.
  - right. apply overflow_inf in H. exists (xorb (fsign x) (fsign y)). split; [assumption|].
    split; [|exact (rlt_false _ _ E)].
    apply big_overflow in E. pose proof (sign_val x Hx) as Sx. pose proof (sign_val y Hy) as Sy.
    assert (val x * val y ≠ 0)%R by (intros E0; rewrite E0, Rabs_R0 in E; lra).
    destruct (fsign x), (fsign y); cbn.
    + assert (0 <= (- val x) * (- val y))%R by (apply Rmult_le_pos; lra). lra.
    + assert (0 <= (- val x) * val y)%R by (apply Rmult_le_pos; lra). lra.
    + assert (0 <= val x * (- val y))%R by (apply Rmult_le_pos; lra). lra.
    + assert (0 <= val x * val y)%R by (apply Rmult_le_pos; lra). lra.
Qed.
Lemma fabs_inf s : fabs (inf s) = inf false. Proof. destruct s; reflexivity. Qed.
Lemma flt_fin_inf x s : fin x → flt x (inf s) = negb s.
Proof. unfold fin. destruct x as [t|t|t pl Hpl|t m e H]; cbn; try discriminate; intros _; destruct s; reflexivity. Qed.
Lemma flt_inf_fin x s : fin x → flt (inf s) x = s.
Proof. unfold fin. destruct x as [t|t|t pl Hpl|t m e H]; cbn; try discriminate; intros _; destruct s; reflexivity. Qed.
Lemma val_EPS_lt : (val EPS < bpow radix2 1024)%R.
Proof. pose proof (abs_B2R_lt_emax 53 1024 EPS) as H. pose proof (Rle_abs (val EPS)). lra. Qed.
Lemma val_EPS_pos : (0 < val EPS)%R.
Proof. rewrite <- val_fzero. apply val_lt_key; reflexivity. Qed.

(** ** Rational values of doubles *)
Lemma to_Q_fin x : fin x → ∃ q, f64_to_Q x = Some q ∧ Q2R q = val x.
Proof.
  intros Hx. destruct x as [s|s|s pl Hpl|s m e H]; try discriminate Hx.
  - exists 0%Q. split; [reflexivity|]. unfold Q2R. cbn. lra.
  - eexists. split; [reflexivity|]. rewrite val_finite. unfold Q2R. destruct e as [|p|p]; cbn -[Z.pow Pos.pow].
    + rewrite Rinv_1. reflexivity.
    + rewrite Rinv_1, Rmult_1_r, mult_IZR. reflexivity.
    + rewrite Pos2Z.inj_pow. reflexivity.
Qed.
Lemma to_Q_val x q : f64_to_Q x = Some q → fin x ∧ Q2R q = val x.
Proof.
  intros H. assert (Hx : fin x) by (unfold fin, fis_finite; destruct x; cbn in *; congruence).
  split; [assumption|]. destruct (to_Q_fin x Hx) as (q' & E & V). congruence.
Qed.
