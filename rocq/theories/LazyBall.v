(** The filters of LazyExact (sign, comparisons) on filter-safe expressions. *)
From Coq Require Import Setoid Reals Qreals Lra.
From Flocq Require Import Core.
From Verif Require Export LazyCanon BallProofs.
Open Scope Z_scope.
Local Opaque max_depth.

Lemma ball_mono f : ∀ f' h i b, ball_of f h i = Ok b → (f <= f')%nat → ball_of f' h i = Ok b.
Proof.
  induction f as [|f IH]; intros f' h i b H Hf; cbn [ball_of] in H.
  - destruct (nth_error h i); discriminate H.
  - destruct f' as [|f']; [lia|]. cbn [ball_of]. destruct (nth_error h i) as [n|]; [|discriminate H].
    destruct (nkind n) as [x|e|o p q|p]; try exact H.
    + destruct (ball_of f h p) as [x| |] eqn:Ex; try discriminate H. destruct (ball_of f h q) as [y| |] eqn:Ey; try discriminate H.
      rewrite (IH f' h p x Ex), (IH f' h q y Ey) by lia. exact H.
    + destruct (ball_of f h p) as [x| |] eqn:Ex; try discriminate H. rewrite (IH f' h p x Ex) by lia. exact H.
Qed.
Lemma ball_max f h i b : ball_of f h i = Ok b → (f <= max_depth)%nat → ball_of max_depth h i = Ok b.
Proof. apply ball_mono. Qed.

Lemma Q2R_eq q v : (q == v)%Q → Q2R q = Q2R v. Proof. apply Qeq_eqR. Qed.
Lemma le_max d : (d <= max_depth)%nat → (d <= 1024)%nat.
Proof. Transparent max_depth. exact (λ H, H). Opaque max_depth. Qed.
Lemma Kd_kid h k j : In j (kids k) → (Kd (depth_of h j) <= Kd (compute_depth h k - 1))%R.
Proof. intros Hj. apply Kd_mono. pose proof (kid_depth h k j Hj). lia. Qed.

Theorem ball_sound h i : Inv h → filter_safe h i → ∀ v f b, Has h i v → (f <= max_depth)%nat → ball_of f h i = Ok b →
  BI (Kd (depth_of h i)) b (Q2R v).
Proof.
  intros HI. induction 1 as [i n x Hn Hk|i n e q Hn Hk Hq He|i n p1 p2 Hn Hk Sa IHa Sb IHb|i n p1 p2 Hn Hk Sa IHa Sb IHb|i n p1 Hn Hk Sa IHa|i n p1 p2 x y Hn Hk Sa IHa Sb IHb Hx Hy Hs];
    intros v f b Hv Hf Hb; destruct f as [|f]; cbn [ball_of] in Hb; rewrite Hn in Hb; try discriminate Hb;
    rewrite Hk in Hb; rewrite (Has_kind h i n v Hn), Hk in Hv; pose proof (depth_at h i n Hn) as Hd; rewrite (nk_depth _ _ _ (HI i n Hn)), Hk in Hd;
    pose proof (nk_max _ _ _ (HI i n Hn)) as Hmax; rewrite <- (depth_at h i n Hn) in Hmax.
  - injection Hb as <-. destruct Hv as (q & Hq & E). inversion Hq; subst. apply to_Q_val in H0. destruct H0 as [Fx Vx].
    apply BI_from_f64; [assumption|]. rewrite <- Vx. symmetry. apply Q2R_eq. assumption.
  - injection Hb as <-. destruct Hv as (q' & Hq' & E). inversion Hq'; subst. apply to_Q_val in Hq. destruct Hq as [Fx Vx].
    apply BI_from_f64; [assumption|]. rewrite <- Vx. symmetry. apply Q2R_eq. etransitivity; eassumption.
  - destruct (ball_of f h p1) as [x| |] eqn:Ex; try discriminate Hb. destruct (ball_of f h p2) as [y| |] eqn:Ey; try discriminate Hb. cbn [obind ball_op] in Hb. injection Hb as <-.
    apply HasK_bin_inv in Hv. destruct Hv as (va & vb & v' & Ha & Hb & Hv & E). injection Hv as <-.
    specialize (IHa _ f _ Ha ltac:(lia) Ex). specialize (IHb _ f _ Hb ltac:(lia) Ey).
    assert (In p1 (kids (KBin OAdd p1 p2))) as I1 by (left; reflexivity). assert (In p2 (kids (KBin OAdd p1 p2))) as I2 by (right; left; reflexivity).
    pose proof (compute_depth_pos h (KBin OAdd p1 p2)).
    rewrite Hd. replace (compute_depth h (KBin OAdd p1 p2)) with (S (compute_depth h (KBin OAdd p1 p2) - 1)) by lia. rewrite Kd_S.
    rewrite <- (Q2R_eq _ _ E), Q2R_plus. apply BI_add; [pose proof (Kd_ge (compute_depth h (KBin OAdd p1 p2) - 1)); lra| |]; (eapply BI_mono; [|eassumption]; apply Kd_kid; assumption).
  - destruct (ball_of f h p1) as [x| |] eqn:Ex; try discriminate Hb. destruct (ball_of f h p2) as [y| |] eqn:Ey; try discriminate Hb. cbn [obind ball_op] in Hb. injection Hb as <-.
    apply HasK_bin_inv in Hv. destruct Hv as (va & vb & v' & Ha & Hb & Hv & E). injection Hv as <-.
    specialize (IHa _ f _ Ha ltac:(lia) Ex). specialize (IHb _ f _ Hb ltac:(lia) Ey).
    assert (In p1 (kids (KBin OSub p1 p2))) as I1 by (left; reflexivity). assert (In p2 (kids (KBin OSub p1 p2))) as I2 by (right; left; reflexivity).
    pose proof (compute_depth_pos h (KBin OSub p1 p2)).
    rewrite Hd. replace (compute_depth h (KBin OSub p1 p2)) with (S (compute_depth h (KBin OSub p1 p2) - 1)) by lia. rewrite Kd_S.
    rewrite <- (Q2R_eq _ _ E), Q2R_minus. apply BI_sub; [pose proof (Kd_ge (compute_depth h (KBin OSub p1 p2) - 1)); lra| |]; (eapply BI_mono; [|eassumption]; apply Kd_kid; assumption).
  - destruct (ball_of f h p1) as [x| |] eqn:Ex; try discriminate Hb. cbn [obind] in Hb. injection Hb as <-.
    apply HasK_neg_inv in Hv. destruct Hv as (va & Ha & E). specialize (IHa _ f _ Ha ltac:(lia) Ex).
    assert (In p1 (kids (KNeg p1))) as I1 by (left; reflexivity).
    rewrite Hd, <- (Q2R_eq _ _ E), Q2R_opp. apply BI_neg. eapply BI_mono; [|eassumption]. apply Kd_mono. pose proof (kid_depth h _ _ I1). lia.
  - destruct (ball_of f h p1) as [x'| |] eqn:Ex; try discriminate Hb. destruct (ball_of f h p2) as [y'| |] eqn:Ey; try discriminate Hb. cbn [obind ball_op] in Hb. injection Hb as <-.
    rewrite (ball_max f h p1 x' Ex) in Hx by lia. injection Hx as <-. rewrite (ball_max f h p2 y' Ey) in Hy by lia. injection Hy as <-.
    apply HasK_bin_inv in Hv. destruct Hv as (va & vb & v' & Ha & Hb & Hv & E). injection Hv as <-.
    specialize (IHa _ f _ Ha ltac:(lia) Ex). specialize (IHb _ f _ Hb ltac:(lia) Ey).
    assert (In p1 (kids (KBin OMul p1 p2))) as I1 by (left; reflexivity). assert (In p2 (kids (KBin OMul p1 p2))) as I2 by (right; left; reflexivity).
    pose proof (compute_depth_pos h (KBin OMul p1 p2)).
    assert (HK : (Kd (compute_depth h (KBin OMul p1 p2) - 1) < 1)%R) by (apply Kd_max, le_max; lia).
    rewrite Hd. replace (compute_depth h (KBin OMul p1 p2)) with (S (compute_depth h (KBin OMul p1 p2) - 1)) by lia. rewrite Kd_S.
    rewrite <- (Q2R_eq _ _ E), Q2R_mult. pose proof (Kd_ge (compute_depth h (KBin OMul p1 p2) - 1)) as HK0.
    assert (Bx : BI (Kd (compute_depth h (KBin OMul p1 p2) - 1)) x' (Q2R va)) by (eapply BI_mono; [|eassumption]; apply Kd_kid; assumption).
    assert (By : BI (Kd (compute_depth h (KBin OMul p1 p2) - 1)) y' (Q2R vb)) by (eapply BI_mono; [|eassumption]; apply Kd_kid; assumption).
    assert (Hz : ∀ j u z, Has h j u → (j < length h)%nat → zero_factor h j z → (Q2R u = 0 ∧ val (bm z) = 0)%R).
    { intros j u z Hu Hj (Hm & h' & q & Ex' & Eq). split; [|assumption]. pose proof (exact_max_ok h j HI Hj) as P. rewrite Ex' in P. cbn in P.
      rewrite <- RMicromega.Q2R_0. apply Q2R_eq. rewrite <- Eq. eapply Has_det; [eassumption|apply P]. }
    pose proof (node_lt h i n Hn) as Li. pose proof (nk_kids _ _ _ (HI i n Hn)) as Hkk. rewrite Hk in Hkk. pose proof (Hkk _ I1). pose proof (Hkk _ I2).
    destruct Hs as [Hs|[Hs|Hs]].
    + apply BI_mul_exact; [lra|assumption..].
    + apply BI_mul_big; [lra|assumption..].
    + apply BI_mul_zero; [lra| |assumption..]. destruct Hs as [Hs|Hs]; [left|right]; (eapply Hz; [eassumption|lia|eassumption]).
Qed.
Lemma ball_sound_max h i v b : Inv h → filter_safe h i → Has h i v → ball_of max_depth h i = Ok b →
  ∃ K, (K < 1)%R ∧ BI K b (Q2R v).
Proof.
  intros HI HS Hv Hb. exists (Kd (depth_of h i)). split; [|eapply ball_sound; eauto].
  apply Kd_max, le_max. destruct HS; rewrite (depth_at h _ _ ltac:(eassumption)); eapply nk_max; apply HI; eassumption.
Qed.

(** ** sign *)
Lemma sgn_pos v : (0 < Q2R v)%R → sgnQ v = 1.
Proof.
  intros H. unfold sgnQ. assert (L : (0 < v)%Q) by (apply Rlt_Qlt; rewrite RMicromega.Q2R_0; assumption).
  rewrite (proj1 (Qgt_alt v 0) L). reflexivity.
Qed.
Lemma sgn_neg v : (Q2R v < 0)%R → sgnQ v = -1.
Proof.
  intros H. unfold sgnQ. assert (L : (v < 0)%Q) by (apply Rlt_Qlt; rewrite RMicromega.Q2R_0; assumption).
  rewrite (proj1 (Qlt_alt v 0) L). reflexivity.
Qed.
Lemma rat_sign_eq e v : (e == v)%Q → rat_sign e = sgnQ v.
Proof.
  intros E. unfold sgnQ. rewrite <- E. unfold rat_sign, rat_is_positive, rat_is_negative, Qcompare. cbn. rewrite Z.mul_1_r.
  destruct (Z.compare_spec (Qnum e) 0) as [L|L|L]; destruct (Z.ltb_spec 0 (Qnum e)); destruct (Z.ltb_spec (Qnum e) 0); try lia; reflexivity.
Qed.
Lemma sign_uncertain h i v b : Inv h → (i < length h)%nat → Has h i v → ball_of max_depth h i = Ok b → sign_if_certain b = None →
  ∃ h', lz_sign h i = Ok (h', sgnQ v).
Proof.
  intros HI Hi Hv Hb Hs. unfold lz_sign. rewrite Hb. cbn [obind]. rewrite Hs.
  pose proof (exact_max_ok h i HI Hi) as P. destruct (exact max_depth h i) as [[h' e]| |]; cbn in *; [|contradiction (P v)|contradiction].
  destruct P as (_ & _ & _ & He). exists h'. rewrite (rat_sign_eq e v); [reflexivity|]. eapply Has_det; eassumption.
Qed.
Lemma sign_safe h i v : Inv h → (i < length h)%nat → filter_safe h i → Has h i v → ∃ h', lz_sign h i = Ok (h', sgnQ v).
Proof.
  intros HI Hi HS Hv. destruct (ball_max_ok h i HI Hi) as (b & Hb). destruct (sign_if_certain b) as [s|] eqn:Es; [|eapply sign_uncertain; eassumption].
  unfold lz_sign. rewrite Hb. cbn [obind]. rewrite Es. exists h. destruct (ball_sound_max h i v b HI HS Hv Hb) as (K & HK & HB).
  destruct (sign_certain_ok K b _ s HK HB Es) as [[-> H]|[-> H]]; [rewrite sgn_pos by assumption|rewrite sgn_neg by assumption]; reflexivity.
Qed.

(** ** cmp_ref *)
Lemma as_f64_has h i x v : as_f64_if_exact h i = Some x → Has h i v → fin x ∧ val x = Q2R v.
Proof.
  unfold as_f64_if_exact. intros H Hv. destruct (nth_error h i) as [n|] eqn:Hn; [|discriminate]. rewrite (Has_kind h i n v Hn) in Hv.
  destruct Hv as (q & Hq & E). destruct (nkind n) as [y|e|o a b|a] eqn:Hk; try discriminate H.
  - destruct (fis_finite y) eqn:Fy; [|discriminate]. injection H as <-. inversion Hq; subst. split; [assumption|].
    apply to_Q_val in H0. rewrite <- (proj2 H0). apply Q2R_eq. assumption.
  - destruct (f64_to_Q (Q_to_f64 e)) as [q'|] eqn:Eq; [|discriminate]. destruct (rat_eq (Qred q') e) eqn:Er; [|discriminate]. injection H as <-.
    apply to_Q_val in Eq. split; [apply Eq|]. rewrite <- (proj2 Eq). apply Q2R_eq. inversion Hq; subst.
    apply rat_eq_sound in Er. rewrite Qred_correct in Er. etransitivity; eassumption.
Qed.
Lemma Qcmp_lt v w : (Q2R v < Q2R w)%R → (v ?= w)%Q = Lt.
Proof. intros H. apply Qlt_alt. apply Rlt_Qlt. assumption. Qed.
Lemma Qcmp_gt v w : (Q2R w < Q2R v)%R → (v ?= w)%Q = Gt.
Proof. intros H. apply Qgt_alt. apply Rlt_Qlt. assumption. Qed.
Lemma Qcmp_eq v w : (Q2R v = Q2R w)%R → (v ?= w)%Q = Eq.
Proof. intros H. apply Qeq_alt. apply eqR_Qeq. assumption. Qed.
Lemma two_exact h i j v w : Inv h → (i < length h)%nat → (j < length h)%nat → Has h i v → Has h j w →
  ∃ h1 ea h2 eb, exact max_depth h i = Ok (h1, ea) ∧ exact max_depth h1 j = Ok (h2, eb) ∧ (ea == v)%Q ∧ (eb == w)%Q.
Proof.
  intros HI Hi Hj Hv Hw. pose proof (exact_max_ok h i HI Hi) as P. destruct (exact max_depth h i) as [[h1 ea]| |] eqn:E1; cbn in P; [|contradiction (P v)|contradiction].
  destruct P as (I1 & X1 & L1 & V1). pose proof (exact_max_ok h1 j I1 ltac:(lia)) as P.
  pose proof (Has_ext _ _ _ _ X1 Hw) as Hw1. destruct (exact max_depth h1 j) as [[h2 eb]| |] eqn:E2; cbn in P; [|contradiction (P w)|contradiction].
  exists h1, ea, h2, eb. repeat split; [assumption|eapply Has_det; eassumption|eapply Has_det; [apply P|assumption]].
Qed.
Lemma cmp_safe h i j v w : Inv h → (i < length h)%nat → (j < length h)%nat → filter_safe h i → filter_safe h j →
  Has h i v → Has h j w → ¬ zeros_differ h i j → ∃ h', lz_cmp_ref h i j = Ok (h', (v ?= w)%Q).
Proof.
  intros HI Hi Hj Si Sj Hv Hw Hz. unfold lz_cmp_ref. destruct (Nat.eqb_spec i j) as [<-|Hne].
  { exists h. do 2 f_equal. symmetry. apply Qeq_alt. eapply Has_det; eassumption. }
  destruct (ball_max_ok h i HI Hi) as (a & Ha). destruct (ball_max_ok h j HI Hj) as (b & Hb). rewrite Ha, Hb. cbn [obind].
  destruct (ball_sound_max h i v a HI Si Hv Ha) as (Ka & HKa & HBa). destruct (ball_sound_max h j w b HI Sj Hw Hb) as (Kb & HKb & HBb).
  destruct (interval_ok _ _ _ HKa HBa) as [La Ua]. destruct (interval_ok _ _ _ HKb HBb) as [Lb Ub].
  destruct (double_interval a) as [alo ahi], (double_interval b) as [blo bhi]. cbn [fst snd] in *.
  destruct (flt ahi blo) eqn:E1.
  { exists h. do 2 f_equal. symmetry. apply Qcmp_lt. eapply bounds_lt; eassumption. }
  destruct (flt bhi alo) eqn:E2.
  { exists h. do 2 f_equal. symmetry. apply Qcmp_gt. eapply bounds_lt; eassumption. }
  assert (G : ∃ h', ('(h1, ea) <-- exact max_depth h i; '(h2, eb) <-- exact max_depth h1 j;
    match rat_partial_cmp ea eb with Some c => Ok (h2, c) | None => Panic end) = Ok (h', (v ?= w)%Q)).
  { destruct (two_exact h i j v w HI Hi Hj Hv Hw) as (h1 & ea & h2 & eb & X1 & X2 & E3 & E4). rewrite X1. cbn [obind]. rewrite X2. cbn [obind rat_partial_cmp].
    exists h2. rewrite E3, E4. reflexivity. }
  destruct (as_f64_if_exact h i) as [x|] eqn:Ex; [|exact G]. destruct (as_f64_if_exact h j) as [y|] eqn:Ey; [|exact G].
  destruct (as_f64_has h i x v Ex Hv) as [Fx Vx]. destruct (as_f64_has h j y w Ey Hw) as [Fy Vy].
  exists h. do 2 f_equal. pose proof (total_cmp_val x y Fx Fy) as T. rewrite Vx, Vy in T.
  assert (Hs : Q2R v = Q2R w → fsign x = fsign y).
  { intros E. destruct (Bool.bool_dec (fsign x) (fsign y)) as [S|S]; [assumption|]. exfalso. apply Hz. exists x, y. repeat split; [assumption..| |assumption].
    apply feq_t; [assumption..|]. congruence. }
  specialize (T Hs). symmetry. destruct (total_cmp x y); [apply Qcmp_eq|apply Qcmp_lt|apply Qcmp_gt]; assumption.
Qed.

(** ** partial_cmp, min and max: when the difference is filter-safe *)
Lemma sub_node h i j v w : Inv h → (i < length h)%nat → (j < length h)%nat → Has h i v → Has h j w →
  ∃ h1 d, lz_bin h OSub i j = Ok (h1, d) ∧ Inv h1 ∧ ext h h1 ∧ (d < length h1)%nat ∧ Has h1 d (v - w)%Q.
Proof.
  intros HI Hi Hj Hv Hw. unfold lz_bin. pose proof (new_ok h (KBin OSub i j) HI) as P.
  assert (Hk : ∀ k, In k (kids (KBin OSub i j)) → (k < length h)%nat) by (intros k [<-|[<-|[]]]; assumption). specialize (P Hk).
  assert (HK : HasK h (KBin OSub i j) (v - w)%Q) by (eapply HasK_bin; [eassumption|eassumption|reflexivity]).
  destruct (new h (KBin OSub i j)) as [[h1 d]| |]; cbn in P; [|contradiction (P (v - w)%Q)|contradiction].
  destruct P as (I1 & E1 & L1 & V1). exists h1, d. auto 6.
Qed.
Lemma sgn_diff v w : sgnQ (v - w) = match (v ?= w)%Q with Lt => -1 | Eq => 0 | Gt => 1 end.
Proof.
  unfold sgnQ. replace (v - w ?= 0)%Q with (v ?= w)%Q; [reflexivity|]. symmetry.
  destruct (Qcompare_spec v w) as [E|E|E].
  - apply Qeq_alt. rewrite E. ring.
  - apply (proj1 (Qlt_alt _ _)). apply Qlt_minus_iff in E. apply Qlt_minus_iff. setoid_replace (0 + - (v - w))%Q with (w + - v)%Q by ring. assumption.
  - apply (proj1 (Qgt_alt _ _)). apply Qlt_minus_iff in E. exact E.
Qed.
Lemma partial_cmp_safe h i j v w : Inv h → (i < length h)%nat → (j < length h)%nat → Has h i v → Has h j w →
  (∀ h1 d, lz_bin h OSub i j = Ok (h1, d) → filter_safe h1 d) → ∃ h', lz_partial_cmp h i j = Ok (h', Some (v ?= w)%Q).
Proof.
  intros HI Hi Hj Hv Hw HS. destruct (sub_node h i j v w HI Hi Hj Hv Hw) as (h1 & d & Eb & I1 & X1 & Ld & Vd). specialize (HS _ _ Eb).
  unfold lz_partial_cmp. rewrite Eb. cbn [obind]. destruct (ball_max_ok h1 d I1 Ld) as (b & Hb). rewrite Hb. cbn [obind].
  destruct (sign_if_certain b) as [s|] eqn:Es.
  - exists h1. do 3 f_equal. destruct (ball_sound_max h1 d _ b I1 HS Vd Hb) as (K & HK & HB). pose proof (sgn_diff v w) as D.
    destruct (sign_certain_ok K b _ s HK HB Es) as [[-> H]|[-> H]]; [rewrite sgn_pos in D by assumption|rewrite sgn_neg in D by assumption];
      destruct (v ?= w)%Q; try discriminate D; reflexivity.
  - pose proof (proj1 X1) as LL. destruct (two_exact h1 i j v w I1 ltac:(lia) ltac:(lia) (Has_ext _ _ _ _ X1 Hv) (Has_ext _ _ _ _ X1 Hw)) as (h2 & ea & h3 & eb & Y1 & Y2 & E3 & E4).
    rewrite Y1. cbn [obind]. rewrite Y2. cbn [obind]. exists h3. unfold rat_partial_cmp. rewrite E3, E4. reflexivity.
Qed.
Lemma minmax_safe h i j v w : Inv h → (i < length h)%nat → (j < length h)%nat → Has h i v → Has h j w →
  (∀ h1 d, lz_bin h OSub i j = Ok (h1, d) → filter_safe h1 d) →
  (∃ h', lz_min h i j = Ok (h', if Qle_bool v w then i else j)) ∧ (∃ h', lz_max h i j = Ok (h', if Qle_bool w v then i else j)).
Proof.
  intros HI Hi Hj Hv Hw HS. destruct (sub_node h i j v w HI Hi Hj Hv Hw) as (h1 & d & Eb & I1 & X1 & Ld & Vd). specialize (HS _ _ Eb).
  destruct (sign_safe h1 d _ I1 Ld HS Vd) as (h2 & E). unfold lz_min, lz_max. rewrite Eb. cbn [obind]. rewrite E. cbn [obind].
  rewrite sgn_diff.
  destruct (Qcompare_spec v w) as [C|C|C].
  - rewrite (proj2 (Qle_bool_iff v w)), (proj2 (Qle_bool_iff w v)) by (rewrite C; apply Qle_refl). split; eexists; reflexivity.
  - rewrite (proj2 (Qle_bool_iff v w)) by (apply Qlt_le_weak; assumption).
    replace (Qle_bool w v) with false; [split; eexists; reflexivity|]. symmetry. apply not_true_is_false. rewrite Qle_bool_iff. apply Qlt_not_le. assumption.
  - rewrite (proj2 (Qle_bool_iff w v)) by (apply Qlt_le_weak; assumption).
    replace (Qle_bool v w) with false; [split; eexists; reflexivity|]. symmetry. apply not_true_is_false. rewrite Qle_bool_iff. apply Qlt_not_le. assumption.
Qed.

(** ** Programs that add and subtract doubles *)
Record Add (k : nat) (h : heap) : Prop := {
  ad_kind : ∀ i n, nth_error h i = Some n →
    match nkind n with LeafApprox x => fis_finite x = true | LeafExact _ => False | KBin OAdd _ _ | KBin OSub _ _ | KNeg _ => True | KBin _ _ _ => False end;
  ad_none : ∀ i n, nth_error h i = Some n → nexact n = None;
  ad_depth : ∀ i n, nth_error h i = Some n → (ndepth n <= k)%nat }.
Lemma ready_none k h i : Add k h → exact_ready h i = None.
Proof. intros [_ H _]. unfold exact_ready. destruct (nth_error h i) as [n|] eqn:E; [|reflexivity]. eapply H; eassumption. Qed.
Lemma depth_le k h i : Add k h → (depth_of h i <= k)%nat.
Proof. intros [_ _ H]. unfold depth_of. destruct (nth_error h i) as [n|] eqn:E; [|lia]. eapply H; eassumption. Qed.
Lemma Add_mono k h : Add k h → Add (S k) h.
Proof. intros [A B C]. split; [assumption..|]. intros i n H. pose proof (C i n H). lia. Qed.
Lemma Add_app k h n : Add k h →
  match nkind n with LeafApprox x => fis_finite x = true | LeafExact _ => False | KBin OAdd _ _ | KBin OSub _ _ | KNeg _ => True | KBin _ _ _ => False end →
  nexact n = None → (ndepth n <= S k)%nat → Add (S k) (h ++ [n]).
Proof.
  intros [A B C] H1 H2 H3. split; intros i m Hm; apply nth_app_last in Hm; destruct Hm as [[_ Hm]|[_ <-]]; try assumption.
  - eapply A; eassumption.
  - eapply B; eassumption.
  - pose proof (C i m Hm). lia.
Qed.
Lemma Add_new k h c h' r : Add k h → (k < 1024)%nat →
  match c with KBin OAdd _ _ | KBin OSub _ _ | KNeg _ => True | _ => False end → new h c = Ok (h', r) → Add (S k) h'.
Proof.
  intros HA Hk Hc. unfold new.
  assert (Z : ∀ i, is_exact_zero h i = false) by (intros i; unfold is_exact_zero; rewrite (ready_none k h i HA); reflexivity).
  assert (Hs : simplify_identities h c = c). { destruct c as [| |[] a b|a]; try contradiction; cbn; rewrite !Z; reflexivity. }
  rewrite Hs. assert (Hf : fold_if_both_exact h c = None).
  { destruct c as [| |[] a b|a]; try contradiction; cbn; rewrite (ready_none k h a HA); reflexivity. }
  rewrite Hf. destruct (approx_of_kind h c) as [x| |]; cbn [obind]; try discriminate.
  assert (Hd : (compute_depth h c <= S k)%nat).
  { destruct c as [| |o a b|a]; cbn; try contradiction; [pose proof (depth_le k h a HA); pose proof (depth_le k h b HA)|pose proof (depth_le k h a HA)]; lia. }
  Transparent max_depth. destruct (Nat.ltb_spec max_depth (compute_depth h c)) as [L|L]; [unfold max_depth in L; lia|]. Opaque max_depth.
  intros H. injection H as <- _. apply Add_app; cbn; [assumption| |reflexivity|assumption]. destruct c as [| |[] a b|a]; auto.
Qed.
Lemma Add_step k h rs c h' rs' : Add k h → (k < 1024)%nat → additive c → step (h, rs) c = Ok (h', rs') → Add (S k) h'.
Proof.
  intros HA Hk Hc. destruct c as [x|q|z|o i j|i|i|i j|i j|i|i|i j|i j|i j]; try contradiction; cbn [step].
  - unfold push, from_f64, alloc. cbn. intros H. injection H as <- _. apply Add_app; cbn; [assumption|assumption|reflexivity|lia].
  - destruct (reg rs i) as [a| |]; cbn [obind]; try discriminate. destruct (reg rs j) as [b| |]; cbn [obind]; try discriminate.
    unfold lz_bin. destruct (new h (KBin o a b)) as [[h1 r]| |] eqn:En; cbn [obind]; try discriminate. unfold push. cbn. intros H. injection H as <- _.
    eapply (Add_new k h (KBin o a b)); [eassumption|assumption| |eassumption]. destruct o; exact Hc.
  - destruct (reg rs i) as [a| |]; cbn [obind]; try discriminate.
    unfold lz_neg. destruct (new h (KNeg a)) as [[h1 r]| |] eqn:En; cbn [obind]; try discriminate. unfold push. cbn. intros H. injection H as <- _.
    eapply (Add_new k h (KNeg a)); [eassumption|assumption|exact I|eassumption].
  - destruct (reg rs i) as [a| |]; cbn [obind]; try discriminate. intros H. injection H as <- _. apply Add_mono. assumption.
Qed.
Lemma Add_run p : ∀ k h rs h' rs', Add k h → (k + length p <= 1024)%nat → Forall additive p → run (h, rs) p = Ok (h', rs') → Add (k + length p) h'.
Proof.
  induction p as [|c t IH]; intros k h rs h' rs' HA Hk Hp; cbn [run length] in *.
  - intros H. injection H as <- _. rewrite Nat.add_0_r. assumption.
  - inversion Hp; subst. destruct (step (h, rs) c) as [[h1 rs1]| |] eqn:Es; cbn [obind]; try discriminate. intros H.
    replace (k + S (length t))%nat with (S k + length t)%nat by lia. eapply IH; [|lia|assumption|eassumption].
    eapply Add_step; [eassumption|lia|eassumption|eassumption].
Qed.
Lemma Add_safe k h : Inv h → Add k h → ∀ i, (i < length h)%nat → filter_safe h i.
Proof.
  intros HI HA i. induction i as [i IH] using lt_wf_ind. intros Hi. destruct (get_node h i Hi) as (n & Hn).
  pose proof (nk_kids _ _ _ (HI i n Hn)) as Hk. pose proof (ad_kind _ _ HA i n Hn) as Ha.
  destruct (nkind n) as [x|e|[] a b|a] eqn:En; try contradiction.
  - eapply FS_f64; eassumption.
  - assert (a < i)%nat by (apply Hk; left; reflexivity). assert (b < i)%nat by (apply Hk; right; left; reflexivity).
    eapply FS_add; [eassumption..| |]; apply IH; lia.
  - assert (a < i)%nat by (apply Hk; left; reflexivity). assert (b < i)%nat by (apply Hk; right; left; reflexivity).
    eapply FS_sub; [eassumption..| |]; apply IH; lia.
  - assert (a < i)%nat by (apply Hk; left; reflexivity). eapply FS_neg; [eassumption..|]. apply IH; lia.
Qed.
Lemma Add_start : Add 0 []. Proof. split; intros [|i] n; discriminate. Qed.

(** ** The 2D determinant of doubles *)
Definition leaf (x : f64) : node := Node (LeafApprox x) x None 1.
Definition det_heap (ax ay bx by_ cx cy : f64) : heap :=
  let u := fsub bx ax in let v := fsub cy ay in let w := fsub by_ ay in let z := fsub cx ax in
  [leaf ax; leaf ay; leaf bx; leaf by_; leaf cx; leaf cy;
   Node (KBin OSub 2 0) u None 2; Node (KBin OSub 5 1) v None 2; Node (KBin OSub 3 1) w None 2; Node (KBin OSub 4 0) z None 2;
   Node (KBin OMul 6 7) (fmul u v) None 3; Node (KBin OMul 8 9) (fmul w z) None 3;
   Node (KBin OSub 10 11) (fsub (fmul u v) (fmul w z)) None 4].
Lemma det_run ax ay bx by_ cx cy : run start (det_prog ax ay bx by_ cx cy) = Ok (det_heap ax ay bx by_ cx cy, seq 0 13).
Proof. Transparent max_depth. reflexivity. Opaque max_depth. Qed.

Lemma scale_big (d : R) : (d = 0 ∨ bpow radix2 (-500) <= Rabs d <= bpow radix2 500)%R →
  (rnd d = 0 ∧ d = 0)%R ∨ (bpow radix2 (-500) <= Rabs (rnd d) <= bpow radix2 500)%R.
Proof.
  intros [->|[H1 H2]]; [left; split; [apply rnd_0|reflexivity]|right].
  assert (F : ∀ k, -500 <= k <= 500 → generic_format radix2 fexp64 (bpow radix2 k)).
  { intros k Hk. change fexp64 with (FLT_exp (-1074) 53). apply generic_format_FLT_bpow; [reflexivity|lia]. }
  split.
  - apply abs_round_ge_generic; [typeclasses eauto|typeclasses eauto|apply F; lia|assumption].
  - apply abs_round_le_generic; [typeclasses eauto|typeclasses eauto|apply F; lia|assumption].
Qed.
Lemma big_fsub x y : fin x → fin y → (Rabs (rnd (val x - val y)) <= bpow radix2 500)%R → fin (fsub x y) ∧ val (fsub x y) = rnd (val x - val y).
Proof.
  intros Fx Fy H. destruct (fsub_spec x y Fx Fy) as [H'|(s & _ & _ & B)]; [assumption|].
  exfalso. pose proof (bpow_lt radix2 500 1024 ltac:(lia)). lra.
Qed.
Lemma big_fmul x y : fin x → fin y → (bpow radix2 (-500) <= Rabs (val x) <= bpow radix2 500)%R → (bpow radix2 (-500) <= Rabs (val y) <= bpow radix2 500)%R →
  (bpow radix2 (-1019) <= Rabs (val (fmul x y)))%R.
Proof.
  intros Fx Fy [X1 X2] [Y1 Y2].
  assert (L : (bpow radix2 (-1000) <= Rabs (val x * val y) <= bpow radix2 1000)%R).
  { rewrite Rabs_mult. change (-1000) with (-500 + -500). change 1000 with (500 + 500). rewrite !bpow_plus. pose proof (bpow_gt_0 radix2 (-500)).
    split; apply Rmult_le_compat; try assumption; lra. }
  assert (F : ∀ k, -1000 <= k <= 1000 → generic_format radix2 fexp64 (bpow radix2 k)).
  { intros k Hk. change fexp64 with (FLT_exp (-1074) 53). apply generic_format_FLT_bpow; [reflexivity|lia]. }
  assert (L' : (bpow radix2 (-1000) <= Rabs (rnd (val x * val y)) <= bpow radix2 1000)%R).
  { split; [apply abs_round_ge_generic|apply abs_round_le_generic]; try typeclasses eauto; try (apply F; lia); apply L. }
  destruct (fmul_spec x y Fx Fy) as [[_ V]|(s & _ & _ & B)].
  - rewrite V. pose proof (bpow_le radix2 (-1019) (-1000) ltac:(lia)). lra.
  - exfalso. pose proof (bpow_lt radix2 1000 1024 ltac:(lia)). lra.
Qed.
Lemma bpow500 : (0 < bpow radix2 (-500))%R. Proof. apply bpow_gt_0. Qed.
Lemma diff_ball x y : fin x → fin y → moderate x y →
  let b := ball_sub (ball_from_f64 x) (ball_from_f64 y) in
  (val (bm b) = 0 ∧ val x = val y)%R ∨ (fin (bm b) ∧ bpow radix2 (-500) <= Rabs (val (bm b)) <= bpow radix2 500)%R.
Proof.
  intros Fx Fy H. unfold ball_sub, ball_add, two_sum. cbv zeta. cbn [bm br ball_from_f64].
  destruct (fneg_fin y Fy) as [Fn Vn].
  assert (H' : (val x - val y = 0 ∨ bpow radix2 (-500) <= Rabs (val x - val y) <= bpow radix2 500)%R) by (destruct H as [->|H]; [left; ring|right; assumption]).
  apply scale_big in H'. destruct (fadd_spec x (fneg y) Fx Fn) as [[Fs Vs]|(s & _ & _ & B)].
  - rewrite Vs, Vn. replace (val x + - val y)%R with (val x - val y)%R by ring. destruct H' as [[E1 E2]|H']; [left; split; [assumption|lra]|right; split; assumption].
  - exfalso. rewrite Vn in B. replace (val x + - val y)%R with (val x - val y)%R in B by ring. pose proof (bpow_lt radix2 500 1024 ltac:(lia)).
    pose proof (bpow_gt_0 radix2 500). destruct H' as [[E1 E2]|H']; [rewrite E1, Rabs_R0 in B|]; lra.
Qed.
Lemma ball_small h i b : ball_of 4 h i = Ok b → ball_of max_depth h i = Ok b.
Proof. intros H. eapply ball_mono; [exact H|]. Transparent max_depth. unfold max_depth. lia. Opaque max_depth. Qed.
Lemma has_zero h i v : Inv h → (i < length h)%nat → Has h i v → (Q2R v = 0)%R → ∃ h' q, exact max_depth h i = Ok (h', q) ∧ (q == 0)%Q.
Proof.
  intros HI Hi Hv E. pose proof (exact_max_ok h i HI Hi) as P. destruct (exact max_depth h i) as [[h' q]| |]; cbn in P; [|contradiction (P v)|contradiction].
  exists h', q. split; [reflexivity|]. rewrite <- (Has_det h i v q Hv ltac:(apply P)). apply eqR_Qeq. rewrite E, RMicromega.Q2R_0. reflexivity.
Qed.
Lemma det_safe ax ay bx by_ cx cy : Inv (det_heap ax ay bx by_ cx cy) →
  fin ax → fin ay → fin bx → fin by_ → fin cx → fin cy →
  moderate bx ax → moderate cy ay → moderate by_ ay → moderate cx ax → filter_safe (det_heap ax ay bx by_ cx cy) 12.
Proof.
  intros HI Fax Fay Fbx Fby Fcx Fcy M1 M2 M3 M4. set (h := det_heap ax ay bx by_ cx cy) in *.
  assert (Leaf : ∀ i x, nth_error h i = Some (leaf x) → filter_safe h i) by (intros i x Hi; eapply FS_f64; [exact Hi|reflexivity]).
  assert (Diff : ∀ k i j x y z, nth_error h i = Some (leaf x) → nth_error h j = Some (leaf y) → nth_error h k = Some (Node (KBin OSub i j) z None 2) →
    fin x → fin y → filter_safe h k ∧ (∃ v, Has h k v ∧ Q2R v = (val x - val y)%R)).
  { intros k i j x y z Hi Hj Hk Fx Fy. split; [eapply FS_sub; [exact Hk|reflexivity|eapply Leaf; exact Hi|eapply Leaf; exact Hj]|].
    destruct (to_Q_fin x Fx) as (qx & Ex & Vx). destruct (to_Q_fin y Fy) as (qy & Ey & Vy). exists (qx - qy)%Q. rewrite Q2R_minus, Vx, Vy. split; [|reflexivity].
    apply (Has_kind h k _ _ Hk). eapply HasK_bin; [| |reflexivity].
    - apply (Has_kind h i _ _ Hi). exists qx. split; [constructor; assumption|reflexivity].
    - apply (Has_kind h j _ _ Hj). exists qy. split; [constructor; assumption|reflexivity]. }
  assert (Mul : ∀ k a b x y x' y' z, nth_error h k = Some (Node (KBin OMul a b) z None 3) → filter_safe h a → filter_safe h b → (a < length h)%nat → (b < length h)%nat →
    (∃ v, Has h a v ∧ Q2R v = (val x - val x')%R) → (∃ v, Has h b v ∧ Q2R v = (val y - val y')%R) →
    ball_of 4 h a = Ok (ball_sub (ball_from_f64 x) (ball_from_f64 x')) → ball_of 4 h b = Ok (ball_sub (ball_from_f64 y) (ball_from_f64 y')) →
    fin x → fin x' → fin y → fin y' → moderate x x' → moderate y y' → filter_safe h k).
  { intros k a b x y x' y' z Hk Sa Sb La Lb (v & Hv & Ev) (w & Hw & Ew) Ba Bb Fx Fx' Fy Fy' Mx My.
    eapply FS_mul; [exact Hk|reflexivity|exact Sa|exact Sb|apply ball_small; exact Ba|apply ball_small; exact Bb|]. right.
    destruct (diff_ball x x' Fx Fx' Mx) as [[Z1 Z2]|[F1 B1]].
    { right. left. split; [assumption|]. eapply has_zero; [assumption..|exact Hv|]. rewrite Ev, Z2. ring. }
    destruct (diff_ball y y' Fy Fy' My) as [[Z1 Z2]|[F2 B2]].
    { right. right. split; [assumption|]. eapply has_zero; [assumption|exact Lb|exact Hw|]. rewrite Ew, Z2. ring. }
    left. apply big_fmul; assumption. }
  destruct (Diff 6%nat 2%nat 0%nat bx ax _ eq_refl eq_refl eq_refl Fbx Fax) as [S6 V6].
  destruct (Diff 7%nat 5%nat 1%nat cy ay _ eq_refl eq_refl eq_refl Fcy Fay) as [S7 V7].
  destruct (Diff 8%nat 3%nat 1%nat by_ ay _ eq_refl eq_refl eq_refl Fby Fay) as [S8 V8].
  destruct (Diff 9%nat 4%nat 0%nat cx ax _ eq_refl eq_refl eq_refl Fcx Fax) as [S9 V9].
  eapply FS_sub; [reflexivity|reflexivity| |].
  - eapply (Mul 10%nat 6%nat 7%nat bx cy ax ay); [reflexivity|assumption|assumption|cbn; lia|cbn; lia|assumption|assumption|reflexivity|reflexivity|assumption..].
  - eapply (Mul 11%nat 8%nat 9%nat by_ cx ay ax); [reflexivity|assumption|assumption|cbn; lia|cbn; lia|assumption|assumption|reflexivity|reflexivity|assumption..].
Qed.
