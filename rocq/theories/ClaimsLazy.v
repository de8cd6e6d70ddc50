(** LazyExact (numeric/lazy_exact.rs, numeric/ball.rs): C28-C31.

    A client is a program over registers (LazyModel.cmd): it creates leaves,
    applies operators, clones, and forces or compares values in any order.
    [value_run p] (LazySpec) is what the registers are worth in plain rational
    arithmetic. *)
From Coq Require Import Reals Qreals Lra.
From Flocq Require Import Core.
From Verif Require Import LazyBall.
Open Scope Z_scope.
Local Opaque max_depth.

Lemma reach p h rs : run start p = Ok (h, rs) → St (h, rs) (value_run p) ∧ Canon h.
Proof.
  intros H. pose proof (run_ok p start [] start_ok) as P. rewrite H in P. split; [exact P|].
  apply (run_canon p [] [] (h, rs) start_canon H).
Qed.

(** ** C28: exact() returns the value of the expression, whatever was simplified,
    folded, capped or cached before *)
Theorem C28_exact p h rs i r v :
  run start p = Ok (h, rs) → nth_error rs i = Some r → get (value_run p) i = Some v →
  ∃ h' q, exact max_depth h r = Ok (h', q) ∧ (q == v)%Q.
Proof.
  intros H Hr Hv. destruct (reach p h rs H) as [HS _]. pose proof (st_reg _ _ HS i r Hr) as Lr. pose proof (st_val _ _ HS i r v Hr Hv) as V. cbn in *.
  pose proof (exact_max_ok h r (st_inv _ _ HS) Lr) as P. destruct (exact max_depth h r) as [[h' q]| |]; cbn in P; [|contradiction (P v)|contradiction].
  exists h', q. split; [reflexivity|]. eapply Has_det; [apply P|exact V].
Qed.
(** Programs that never divide by zero or use a NaN or infinite double, and only
    read existing registers, run without panicking. *)
Theorem C28_no_panic p : defined p → ∃ s, run start p = Ok s.
Proof.
  intros Hd. pose proof (run_ok p start [] start_ok) as P. destruct (run start p) as [s| |]; [eauto|contradiction|contradiction].
Qed.
(** [==] decides equality of the values. *)
Theorem C28_eq p h rs i j r s v w :
  run start p = Ok (h, rs) → nth_error rs i = Some r → nth_error rs j = Some s →
  get (value_run p) i = Some v → get (value_run p) j = Some w →
  ∃ h' b, lz_eq h r s = Ok (h', b) ∧ (b = true ↔ (v == w)%Q).
Proof.
  intros H Hr Hs Hv Hw. destruct (reach p h rs H) as [HS HC]. pose proof (st_inv _ _ HS) as HI. cbn in HI.
  destruct (lz_eq_ok h r s v w HI HC (st_reg _ _ HS i r Hr) (st_reg _ _ HS j s Hs) (st_val _ _ HS i r v Hr Hv) (st_val _ _ HS j s w Hs Hw)) as (h' & E).
  exists h', (Qeq_bool v w). split; [exact E|apply Qeq_bool_iff].
Qed.
Definition demo : list cmd :=
  [MkRat (1 # 3); MkF64 (f64_from_bits 0x3ff8000000000000); Bin OMul 0 1; Force 2; Negate 2; Bin ODiv 3 0; Clone 4; AddAssign 4 1; ReadSign 4; Bin OSub 5 4].
Example C28_case :
  defined demo ∧ (∃ v, get (value_run demo) 6 = Some v ∧ (v == -3 # 2)%Q) ∧
  match run start demo with Ok (h, rs) => length h = 7%nat ∧ nth_error rs 6 = Some 6%nat | _ => False end.
Proof.
  split; [|split; [eexists; split; vm_compute; reflexivity|vm_compute; split; reflexivity]].
  assert (K : ∀ vs : values, forallb (λ v, match v with Some _ => true | None => false end) vs = true → Forall (λ v, v ≠ None) vs).
  { intros vs H. rewrite forallb_forall in H. apply Forall_forall. intros v Hv E. subst v. discriminate (H None Hv). }
  unfold defined, demo. cbn [defined_from]. repeat split; try (apply K; vm_compute; reflexivity); cbn [reads]; repeat constructor.
Qed.

(** ** C29: recorded depths never exceed MAX_DEPTH, and the recursive evaluators
    never need more than MAX_DEPTH nested calls *)
Theorem C29_depth p h rs : run start p = Ok (h, rs) → Forall (λ n, (ndepth n <= 1024)%nat) h.
Proof.
  intros H. destruct (reach p h rs H) as [HS _]. apply Forall_forall. intros n Hn. apply In_nth_error in Hn. destruct Hn as (i & Hi).
  exact (nk_max _ _ _ (st_inv _ _ HS i n Hi)).
Qed.
Theorem C29_stack p h rs i : run start p = Ok (h, rs) → (i < length h)%nat →
  exact 1024 h i ≠ Deep ∧ ∃ b, ball_of 1024 h i = Ok b.
Proof.
  intros H Hi. destruct (reach p h rs H) as [HS _]. pose proof (st_inv _ _ HS) as HI. cbn in HI. split; [|exact (ball_max_ok h i HI Hi)].
  pose proof (exact_max_ok h i HI Hi) as P. Transparent max_depth. change max_depth with 1024%nat in P. Opaque max_depth. intros E. rewrite E in P. exact P.
Qed.
(** The recorded depth is the depth of the expression. *)
Theorem C29_recorded p h rs i n : run start p = Ok (h, rs) → nth_error h i = Some n →
  ndepth n = match nkind n with
             | LeafApprox _ | LeafExact _ => 1%nat
             | KBin _ a b => S (Nat.max (depth_of h a) (depth_of h b))
             | KNeg a => S (depth_of h a)
             end.
Proof. intros H Hn. destruct (reach p h rs H) as [HS _]. rewrite (nk_depth _ _ _ (st_inv _ _ HS i n Hn)). destruct (nkind n); reflexivity. Qed.
Theorem C29_run p : run start p ≠ Deep.
Proof. intros E. pose proof (run_ok p start [] start_ok) as P. rewrite E in P. exact P. Qed.
(** A chain of 1100 additions stays within the cap: the node that would exceed it is evaluated. *)
Definition chain (n : nat) : list cmd := MkF64 fone :: map (λ i, Bin OAdd i 0) (seq 0 n).
Example C29_case :
  match run start (chain 1100) with
  | Ok (h, _) => map ndepth (firstn 3 (skipn 1022 h)) = [1023; 1024; 1]%nat ∧ length h = 1101%nat
  | _ => False
  end.
Proof. vm_compute. split; reflexivity. Qed.

(** ** C30: sign *)
(** It is right whenever it is decided exactly, and whenever the filter is applied
    to an expression of doubles built with +, -, negation and products that do not
    underflow ([filter_safe], LazyBallSpec). *)
Theorem C30_sign_partial p h rs i r v :
  run start p = Ok (h, rs) → nth_error rs i = Some r → get (value_run p) i = Some v → filter_safe h r →
  ∃ h', lz_sign h r = Ok (h', sgnQ v).
Proof.
  intros H Hr Hv HF. destruct (reach p h rs H) as [HS _].
  apply sign_safe; [apply (st_inv _ _ HS)|apply (st_reg _ _ HS i r Hr)|assumption|apply (st_val _ _ HS i r v Hr Hv)].
Qed.
Theorem C30_sign_exact_partial p h rs i r v b :
  run start p = Ok (h, rs) → nth_error rs i = Some r → get (value_run p) i = Some v →
  ball_of max_depth h r = Ok b → sign_if_certain b = None → ∃ h', lz_sign h r = Ok (h', sgnQ v).
Proof.
  intros H Hr Hv Hb Hc. destruct (reach p h rs H) as [HS _].
  eapply sign_uncertain; [apply (st_inv _ _ HS)|apply (st_reg _ _ HS i r Hr)|apply (st_val _ _ HS i r v Hr Hv)|eassumption|assumption].
Qed.
(** In particular after any program of at most 1024 steps that adds, subtracts and
    negates finite doubles. *)
Theorem C30_additive_partial p h rs i r v :
  Forall additive p → (length p <= 1024)%nat →
  run start p = Ok (h, rs) → nth_error rs i = Some r → get (value_run p) i = Some v →
  ∃ h', lz_sign h r = Ok (h', sgnQ v).
Proof.
  intros Ha Hl H Hr Hv. destruct (reach p h rs H) as [HS _]. eapply C30_sign_partial; [eassumption..|].
  apply (Add_safe (0 + length p) h (st_inv _ _ HS)); [|apply (st_reg _ _ HS i r Hr)].
  eapply Add_run; [apply Add_start|lia|assumption|exact H].
Qed.
(** The enclosure behind it: the ball of a safe expression contains its value. *)
Theorem C30_enclosure_partial p h rs i r v b :
  run start p = Ok (h, rs) → nth_error rs i = Some r → get (value_run p) i = Some v → filter_safe h r →
  ball_of max_depth h r = Ok b → fis_finite (br b) = true →
  (val (bm b) - val (br b) <= Q2R v <= val (bm b) + val (br b))%R.
Proof.
  intros H Hr Hv HF Hb Fb. destruct (reach p h rs H) as [HS _].
  destruct (ball_sound_max h r v b (st_inv _ _ HS) HF (st_val _ _ HS i r v Hr Hv) Hb) as (K & HK & P & Q). destruct (Q Fb) as [_ E].
  pose proof (pon_fin _ P Fb) as R0. apply Rabs_le_inv in E. assert (K * val (br b) <= val (br b))%R by (rewrite <- (Rmult_1_l (val (br b))) at 2; apply Rmult_le_compat_r; lra). lra.
Qed.
(** It is wrong for a rational leaf that is not a double: the leaf enters the filter
    rounded, with radius zero.  Here 1/3 - (1/3 rounded) - 2^-60 is positive. *)
Definition bad_third : list cmd :=
  [MkRat (1 # 3); MkF64 (f64_from_bits 0x3fd5555555555555); Bin OSub 0 1; MkF64 (f64_from_bits 0x3c30000000000000); Bin OSub 2 3].
Theorem C30_sign_refuted : ∃ p h rs i r v,
  run start p = Ok (h, rs) ∧ nth_error rs i = Some r ∧ get (value_run p) i = Some v ∧
  (0 < v)%Q ∧ ∃ h', lz_sign h r = Ok (h', -1).
Proof.
  assert (W : match run start bad_third with Ok (h, rs) => nth_error rs 4 = Some 4%nat ∧ match lz_sign h 4 with Ok (_, s) => s = -1 | _ => False end | _ => False end)
    by (vm_compute; split; reflexivity).
  destruct (run start bad_third) as [[h rs]| |] eqn:E; [|contradiction..]. destruct W as [W1 W2].
  destruct (lz_sign h 4) as [[h' s]| |] eqn:Es; [|contradiction..]. subst s.
  exists bad_third, h, rs, 4%nat, 4%nat. eexists. split; [exact E|]. split; [exact W1|]. split; [vm_compute; reflexivity|]. split; [vm_compute; reflexivity|eauto].
Qed.
(** The same happens with double leaves only, once two of them have been forced: the
    sum 2^53 + 1 is folded into a leaf that the filter rounds to 2^53. *)
Definition bad_fold : list cmd :=
  [MkF64 (f64_from_bits 0x4340000000000000); MkF64 fone; Force 0; Force 1; Bin OAdd 0 1;
   MkF64 (f64_from_bits 0x4340000000000000); Bin OSub 2 3; MkF64 (f64_from_bits 0x3fe0000000000000); Bin OSub 4 5].
Theorem C30_folding_refuted : ∃ p h rs i r v,
  run start p = Ok (h, rs) ∧ nth_error rs i = Some r ∧ get (value_run p) i = Some v ∧
  (v == 1 # 2)%Q ∧ ∃ h', lz_sign h r = Ok (h', -1).
Proof.
  assert (W : match run start bad_fold with Ok (h, rs) => nth_error rs 6 = Some 6%nat ∧ match lz_sign h 6 with Ok (_, s) => s = -1 | _ => False end | _ => False end)
    by (vm_compute; split; reflexivity).
  destruct (run start bad_fold) as [[h rs]| |] eqn:E; [|contradiction..]. destruct W as [W1 W2].
  destruct (lz_sign h 6) as [[h' s]| |] eqn:Es; [|contradiction..]. subst s.
  exists bad_fold, h, rs, 6%nat, 6%nat. eexists. split; [exact E|]. split; [exact W1|]. split; [vm_compute; reflexivity|]. split; [vm_compute; reflexivity|eauto].
Qed.
(** the same program without the two forcings is right *)
Definition good_fold : list cmd :=
  [MkF64 (f64_from_bits 0x4340000000000000); MkF64 fone; Bin OAdd 0 1; MkF64 (f64_from_bits 0x4340000000000000); Bin OSub 2 3; MkF64 (f64_from_bits 0x3fe0000000000000); Bin OSub 4 5].
Example C30_case : Forall additive good_fold ∧
  match run start good_fold with
  | Ok (h, rs) => match lz_sign h 6 with Ok (_, s) => s = 1 | _ => False end
  | _ => False
  end.
Proof. split; [repeat constructor|vm_compute; reflexivity]. Qed.
(** The determinant that orient2d computes, for doubles whose coordinate differences
    are zero or between 2^-500 and 2^500 in magnitude: the sign is that of the exact
    determinant. *)
Theorem C30_determinant_partial ax ay bx by_ cx cy :
  Forall (λ x, fis_finite x = true) [ax; ay; bx; by_; cx; cy] →
  moderate bx ax → moderate cy ay → moderate by_ ay → moderate cx ax →
  ∃ h rs r v h', run start (det_prog ax ay bx by_ cx cy) = Ok (h, rs) ∧ nth_error rs 12 = Some r ∧
    get (value_run (det_prog ax ay bx by_ cx cy)) 12 = Some v ∧
    Q2R v = ((val bx - val ax) * (val cy - val ay) - (val by_ - val ay) * (val cx - val ax))%R ∧
    lz_sign h r = Ok (h', sgnQ v).
Proof.
  intros HF M1 M2 M3 M4. rewrite Forall_forall in HF. cbn in HF.
  assert (F : fin ax ∧ fin ay ∧ fin bx ∧ fin by_ ∧ fin cx ∧ fin cy) by (unfold fin; repeat split; apply HF; tauto).
  destruct F as (Fax & Fay & Fbx & Fby & Fcx & Fcy).
  pose proof (det_run ax ay bx by_ cx cy) as H. destruct (reach _ _ _ H) as [HS _].
  destruct (to_Q_fin ax Fax) as (q0 & E0 & V0). destruct (to_Q_fin ay Fay) as (q1 & E1 & V1). destruct (to_Q_fin bx Fbx) as (q2 & E2 & V2).
  destruct (to_Q_fin by_ Fby) as (q3 & E3 & V3). destruct (to_Q_fin cx Fcx) as (q4 & E4 & V4). destruct (to_Q_fin cy Fcy) as (q5 & E5 & V5).
  assert (Hv : get (value_run (det_prog ax ay bx by_ cx cy)) 12 = Some ((q2 - q0) * (q5 - q1) - (q3 - q1) * (q4 - q0))%Q).
  { unfold value_run, det_prog. cbn [fold_left value_step app]. rewrite E0, E1, E2, E3, E4, E5. reflexivity. }
  destruct (C30_sign_partial _ _ _ 12 12 _ H eq_refl Hv (det_safe ax ay bx by_ cx cy (st_inv _ _ HS) Fax Fay Fbx Fby Fcx Fcy M1 M2 M3 M4)) as (h' & Hs).
  eexists _, _, _, _, h'. split; [exact H|]. split; [reflexivity|]. split; [exact Hv|]. split; [|exact Hs].
  rewrite Q2R_minus, !Q2R_mult, !Q2R_minus. congruence.
Qed.
Example C30_case_determinant : moderate (i64_to_f64 3) (i64_to_f64 1) ∧ moderate (i64_to_f64 3) (i64_to_f64 3).
Proof.
  split; [right|left; reflexivity].
  assert (V : ∀ i, Z.abs i <= 2 ^ 53 → val (i64_to_f64 i) = IZR i) by (intros i Hi; apply i64_to_f64_spec; [apply format_int; assumption|lia]).
  rewrite !V by lia. rewrite <- minus_IZR, <- abs_IZR. cbn [Z.sub Z.abs Z.add Z.opp Z.pos_sub Pos.pred_double].
  split.
  - apply Rle_trans with (bpow radix2 0); [apply bpow_le; lia|cbn; lra].
  - apply Rle_trans with (bpow radix2 1); [cbn; lra|apply bpow_le; lia].
Qed.

(** ** C31: cmp_ref *)
Theorem C31_cmp_ref_partial p h rs i j r s v w :
  run start p = Ok (h, rs) → nth_error rs i = Some r → nth_error rs j = Some s →
  get (value_run p) i = Some v → get (value_run p) j = Some w →
  filter_safe h r → filter_safe h s → ¬ zeros_differ h r s →
  (∃ h', lz_cmp_ref h r s = Ok (h', (v ?= w)%Q)) ∧
  (∃ h' b, lz_eq h r s = Ok (h', b) ∧ (b = true ↔ (v ?= w)%Q = Eq)).
Proof.
  intros H Hr Hs Hv Hw Fr Fs Hz. destruct (reach p h rs H) as [HS HC]. split.
  - apply cmp_safe; [apply (st_inv _ _ HS)|apply (st_reg _ _ HS i r Hr)|apply (st_reg _ _ HS j s Hs)|assumption..|apply (st_val _ _ HS i r v Hr Hv)|apply (st_val _ _ HS j s w Hs Hw)|assumption].
  - destruct (C28_eq p h rs i j r s v w H Hr Hs Hv Hw) as (h' & b & E & B). exists h', b. split; [exact E|]. rewrite B. apply Qeq_alt.
Qed.
(** partial_cmp, min and max after adding and subtracting doubles *)
Theorem C31_additive_partial p h rs i j r s v w :
  Forall additive p → (length p < 1024)%nat →
  run start p = Ok (h, rs) → nth_error rs i = Some r → nth_error rs j = Some s →
  get (value_run p) i = Some v → get (value_run p) j = Some w →
  (∃ h', lz_partial_cmp h r s = Ok (h', Some (v ?= w)%Q)) ∧
  (∃ h', lz_min h r s = Ok (h', if Qle_bool v w then r else s)) ∧
  (∃ h', lz_max h r s = Ok (h', if Qle_bool w v then r else s)).
Proof.
  intros Ha Hl H Hr Hs Hv Hw. destruct (reach p h rs H) as [HS _]. pose proof (st_inv _ _ HS) as HI. cbn in HI.
  pose proof (st_reg _ _ HS i r Hr) as Lr. pose proof (st_reg _ _ HS j s Hs) as Ls. cbn in Lr, Ls.
  pose proof (st_val _ _ HS i r v Hr Hv) as Vr. pose proof (st_val _ _ HS j s w Hs Hw) as Vs. cbn in Vr, Vs.
  assert (HA : Add (0 + length p) h) by (eapply Add_run; [apply Add_start|lia|assumption|exact H]).
  assert (HF : ∀ h1 d, lz_bin h OSub r s = Ok (h1, d) → filter_safe h1 d).
  { intros h1 d E. destruct (sub_node h r s v w HI Lr Ls Vr Vs) as (h2 & d2 & E2 & I2 & _ & L2 & _). rewrite E in E2. injection E2 as <- <-.
    eapply Add_safe; [eassumption| |assumption]. eapply (Add_new _ h (KBin OSub r s)); [exact HA|lia|exact I|exact E]. }
  split; [apply partial_cmp_safe; assumption|]. apply minmax_safe; assumption.
Qed.
(** The two zeros are equal but cmp_ref orders them. *)
Theorem C31_zeros_refuted : ∃ p h rs r s,
  run start p = Ok (h, rs) ∧ nth_error rs 0 = Some r ∧ nth_error rs 1 = Some s ∧
  (∃ h', lz_eq h r s = Ok (h', true)) ∧ lz_cmp_ref h r s = Ok (h, Lt).
Proof.
  exists [MkF64 (fneg fzero); MkF64 fzero]. cbn. eexists _, _, _, _. repeat split. eexists. vm_compute. reflexivity.
Qed.
(** Where the sign is wrong, so is the order: here 1/3 - (1/3 rounded) is above
    2^-60 but compares Less. *)
Theorem C31_order_refuted : ∃ p h rs r s v w,
  run start p = Ok (h, rs) ∧ nth_error rs 2 = Some r ∧ nth_error rs 3 = Some s ∧
  get (value_run p) 2 = Some v ∧ get (value_run p) 3 = Some w ∧
  (w < v)%Q ∧ ∃ h', lz_partial_cmp h r s = Ok (h', Some Lt).
Proof.
  assert (W : match run start bad_third with Ok (h, rs) => nth_error rs 2 = Some 2%nat ∧ nth_error rs 3 = Some 3%nat ∧ match lz_partial_cmp h 2 3 with Ok (_, s) => s = Some Lt | _ => False end | _ => False end)
    by (vm_compute; repeat split; reflexivity).
  destruct (run start bad_third) as [[h rs]| |] eqn:E; [|contradiction..]. destruct W as (W1 & W2 & W3).
  destruct (lz_partial_cmp h 2 3) as [[h' s]| |] eqn:Es; [|contradiction..]. subst s.
  exists bad_third, h, rs, 2%nat, 3%nat. eexists _, _. split; [exact E|]. split; [exact W1|]. split; [exact W2|]. split; [vm_compute; reflexivity|]. split; [vm_compute; reflexivity|]. split; [vm_compute; reflexivity|eauto].
Qed.
Example C31_case : ∃ h rs, run start [MkF64 fone; MkF64 (fneg fone); Bin OSub 0 1] = Ok (h, rs) ∧
  filter_safe h 2 ∧ filter_safe h 0 ∧ ¬ zeros_differ h 2 0.
Proof.
  set (p := [MkF64 fone; MkF64 (fneg fone); Bin OSub 0 1]).
  assert (W : match run start p with Ok (h, rs) => length h = 3%nat ∧ match as_f64_if_exact h 2 with None => True | _ => False end | _ => False end)
    by (vm_compute; split; constructor).
  destruct (run start p) as [[h rs]| |] eqn:E; [|contradiction..]. destruct W as [W1 W2].
  destruct (reach _ _ _ E) as [HS _].
  assert (HA : Add (0 + length p) h) by (eapply Add_run; [apply Add_start|cbn; lia|repeat constructor|exact E]).
  exists h, rs. split; [reflexivity|]. split; [|split].
  - apply (Add_safe _ h (st_inv _ _ HS) HA). lia.
  - apply (Add_safe _ h (st_inv _ _ HS) HA). lia.
  - intros (x & y & Hx & _). rewrite Hx in W2. exact W2.
Qed.

Print Assumptions C28_exact.
Print Assumptions C28_no_panic.
Print Assumptions C28_eq.
Print Assumptions C29_depth.
Print Assumptions C29_stack.
Print Assumptions C29_recorded.
Print Assumptions C29_run.
Print Assumptions C30_sign_partial.
Print Assumptions C30_sign_exact_partial.
Print Assumptions C30_additive_partial.
Print Assumptions C30_enclosure_partial.
Print Assumptions C30_determinant_partial.
Print Assumptions C30_sign_refuted.
Print Assumptions C30_folding_refuted.
Print Assumptions C31_cmp_ref_partial.
Print Assumptions C31_additive_partial.
Print Assumptions C31_zeros_refuted.
Print Assumptions C31_order_refuted.
