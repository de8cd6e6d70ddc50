(** What the tests of the triangulation jobs say about points of the unit square: they are
    computed in doubles, and agree with the exact tests up to their tolerance. *)
From Coq Require Import QArith Qabs Reals Lra Qreals Lia Sorting.Sorted.
From Flocq Require Import Core.
From Verif Require Import F64Model F64Base F64Arith F64Rat DelaunayFloatProofs.
From Verif Require Import BoolPslgSpec.
Local Notation fin := F64Base.fin.
Local Notation f64 := F64Model.f64.
Local Open Scope R_scope.

(** ** Rounded operations on small numbers *)
Notation u := (bpow radix2 (-50)).
Lemma u_val : 0 < u <= / 1000000000000000.
Proof. split; [apply bpow_gt_0|]. change u with (/ 1125899906842624). Lra.lra. Qed.
Lemma rnd_err r : Rabs r <= 8 → Rabs (rnd r - r) <= u.
Proof.
  intros Hr. pose proof (error_le_half_ulp radix2 fexp64 (λ x, negb (Z.even x)) r) as H. change (round radix2 fexp64 (Znearest (λ x, negb (Z.even x))) r) with (rnd r) in H.
  assert (ulp radix2 fexp64 r <= bpow radix2 (-49)) as U.
  { change (bpow radix2 (-49)) with (bpow radix2 (fexp64 (3 + 1))). rewrite <- ulp_bpow. apply ulp_le; [typeclasses eauto..|].
    rewrite (Rabs_pos_eq (bpow radix2 3)) by apply bpow_ge_0. change (bpow radix2 3) with 8. Lra.lra. }
  change (bpow radix2 (-49)) with (/ 562949953421312) in U. change u with (/ 1125899906842624). Lra.lra.
Qed.
Lemma lt_big r e : Rabs r <= 8 → Rabs (rnd r - r) <= e → e <= 1 → ¬ bpow radix2 1024 <= Rabs (rnd r).
Proof.
  intros Hr He H1 Hb. pose proof (bpow_le radix2 4 1024 ltac:(lia)) as H. change (bpow radix2 4) with 16 in H.
  pose proof (Rabs_triang (rnd r - r) r) as T. replace (rnd r - r + r) with (rnd r) in T by ring. Lra.lra.
Qed.

(** x is a number at most e away from r *)
Definition near (x : f64) (r e : R) : Prop := fin x ∧ Rabs (val x - r) <= e.
Lemma near_weak x r e d : near x r e → e <= d → near x r d.
Proof. intros [F H] Hd. split; [exact F|Lra.lra]. Qed.
Lemma near_sub x y r s e d : near x r e → near y s d → Rabs (r - s) + e + d <= 8 → near (fsub x y) (r - s) (e + d + u).
Proof.
  intros [Fx Hx] [Fy Hy] HB. assert (Rabs (val x - val y) <= Rabs (r - s) + e + d) as B.
  { replace (val x - val y) with ((r - s) + ((val x - r) + - (val y - s))) by ring. eapply Rle_trans; [apply Rabs_triang|].
    pose proof (Rabs_triang (val x - r) (- (val y - s))) as T. rewrite Rabs_Ropp in T. Lra.lra. }
  assert (Rabs (val x - val y) <= 8) as B8 by Lra.lra. pose proof (rnd_err _ B8) as E. pose proof u_val.
  destruct (fsub_spec x y Fx Fy) as [[F V]|(sg & _ & _ & Hb)].
  2: { exfalso. eapply lt_big; [exact B8|exact E|Lra.lra|exact Hb]. }
  split; [exact F|]. rewrite V.
  replace (rnd (val x - val y) - (r - s)) with ((rnd (val x - val y) - (val x - val y)) + ((val x - r) + - (val y - s))) by ring.
  eapply Rle_trans; [apply Rabs_triang|]. pose proof (Rabs_triang (val x - r) (- (val y - s))) as T. rewrite Rabs_Ropp in T. Lra.lra.
Qed.
Lemma near_add x y r s e d : near x r e → near y s d → Rabs (r + s) + e + d <= 8 → near (fadd x y) (r + s) (e + d + u).
Proof.
  intros [Fx Hx] [Fy Hy] HB. assert (Rabs (val x + val y) <= Rabs (r + s) + e + d) as B.
  { replace (val x + val y) with ((r + s) + ((val x - r) + (val y - s))) by ring. eapply Rle_trans; [apply Rabs_triang|].
    pose proof (Rabs_triang (val x - r) (val y - s)) as T. Lra.lra. }
  assert (Rabs (val x + val y) <= 8) as B8 by Lra.lra. pose proof (rnd_err _ B8) as E. pose proof u_val.
  destruct (fadd_spec x y Fx Fy) as [[F V]|(sg & _ & _ & Hb)].
  2: { exfalso. eapply lt_big; [exact B8|exact E|Lra.lra|exact Hb]. }
  split; [exact F|]. rewrite V.
  replace (rnd (val x + val y) - (r + s)) with ((rnd (val x + val y) - (val x + val y)) + ((val x - r) + (val y - s))) by ring.
  eapply Rle_trans; [apply Rabs_triang|]. pose proof (Rabs_triang (val x - r) (val y - s)) as T. Lra.lra.
Qed.
Lemma near_mul x y r s e d A B : near x r e → near y s d → Rabs r <= A → Rabs s <= B → A * B + (A * d + B * e + e * d) <= 8 →
  near (fmul x y) (r * s) (A * d + B * e + e * d + u).
Proof.
  intros [Fx Hx] [Fy Hy] HA HB H8. assert (Rabs (val x * val y - r * s) <= A * d + B * e + e * d) as D.
  { replace (val x * val y - r * s) with (r * (val y - s) + (s * (val x - r) + (val x - r) * (val y - s))) by ring.
    eapply Rle_trans; [apply Rabs_triang|]. pose proof (Rabs_triang (s * (val x - r)) ((val x - r) * (val y - s))) as T.
    rewrite !Rabs_mult in *. pose proof (Rabs_pos r). pose proof (Rabs_pos s). pose proof (Rabs_pos (val x - r)). pose proof (Rabs_pos (val y - s)).
    assert (Rabs r * Rabs (val y - s) <= A * d) by (apply Rmult_le_compat; assumption).
    assert (Rabs s * Rabs (val x - r) <= B * e) by (apply Rmult_le_compat; assumption).
    assert (Rabs (val x - r) * Rabs (val y - s) <= e * d) by (apply Rmult_le_compat; assumption). Lra.lra. }
  assert (Rabs (r * s) <= A * B) as RS by (rewrite Rabs_mult; apply Rmult_le_compat; auto using Rabs_pos).
  assert (Rabs (val x * val y) <= 8) as B8.
  { replace (val x * val y) with (r * s + (val x * val y - r * s)) by ring. eapply Rle_trans; [apply Rabs_triang|]. Lra.lra. }
  pose proof (rnd_err _ B8) as E. pose proof u_val.
  destruct (fmul_spec x y Fx Fy) as [[F V]|(sg & _ & _ & Hb)].
  2: { exfalso. eapply lt_big; [exact B8|exact E|Lra.lra|exact Hb]. }
  split; [exact F|]. rewrite V.
  replace (rnd (val x * val y) - r * s) with ((rnd (val x * val y) - val x * val y) + (val x * val y - r * s)) by ring.
  eapply Rle_trans; [apply Rabs_triang|]. Lra.lra.
Qed.
Lemma fdiv_near x y : fin x → fin y → val y ≠ 0 → Rabs (val x / val y) <= 8 → near (fdiv x y) (val x / val y) u.
Proof.
  intros Fx Fy Hy B8. pose proof (rnd_err _ B8) as E. pose proof u_val.
  pose proof (Bdiv_correct 53 1024 eq_refl eq_refl binop_nan_pl64 mode_NE x y Hy) as H0.
  change (round radix2 fexp64 (round_mode mode_NE) (val x / val y)) with (rnd (val x / val y)) in H0.
  destruct (Rlt_bool_spec (Rabs (rnd (val x / val y))) (bpow radix2 1024)) as [_|Hb].
  2: { exfalso. eapply lt_big; [exact B8|exact E|Lra.lra|exact Hb]. }
  destruct H0 as (H1 & H2 & _). split.
  - unfold fin, fis_finite, fdiv, b64_div. rewrite H2. exact Fx.
  - unfold fdiv, b64_div. rewrite H1. exact E.
Qed.
Lemma near_abs x r e : near x r e → near (fabs x) (Rabs r) e.
Proof.
  intros [F H]. destruct (fabs_fin x F) as [F' V]. split; [exact F'|]. rewrite V. eapply Rle_trans; [apply Rabs_triang_inv2|]. exact H.
Qed.
Lemma near_bounds x r e : near x r e → r - e <= val x <= r + e.
Proof. intros [_ H]. apply Rabs_le_inv in H. Lra.lra. Qed.

(** ** Constants *)
Lemma EPS_val : / 10000000000 - / 1000000000000000 <= val F64Model.EPS <= / 10000000000 + / 1000000000000000.
Proof.
  destruct (f64_to_Q F64Model.EPS) as [q|] eqn:E; [|discriminate E]. destruct (to_Q_val _ _ E) as [_ V]. rewrite <- V. clear V. vm_compute in E. injection E as <-.
  unfold Q2R. cbn [Qnum Qden]. Lra.lra.
Qed.
Lemma one_val : fin fone ∧ val fone = 1.
Proof.
  split; [reflexivity|]. destruct (f64_to_Q fone) as [q|] eqn:E; [|discriminate E]. destruct (to_Q_val _ _ E) as [_ V]. rewrite <- V. clear V. vm_compute in E. injection E as <-.
  unfold Q2R. cbn [Qnum Qden]. Lra.lra.
Qed.
Lemma fmax_val x y : fin x → fin y → fin (DelaunayFloat.fmax x y) ∧ val (DelaunayFloat.fmax x y) = Rmax (val x) (val y).
Proof.
  intros Fx Fy. unfold DelaunayFloat.fmax. assert (∀ z, fin z → fis_nan z = false) as Hn by (intros [] Hz; try discriminate Hz; reflexivity).
  rewrite !Hn by assumption. destruct (flt x y) eqn:E.
  - split; [exact Fy|]. apply (flt_t x y Fx Fy) in E. rewrite Rmax_right; [reflexivity|Lra.lra].
  - split; [exact Fx|]. apply (flt_f x y Fx Fy) in E. rewrite Rmax_left; [reflexivity|Lra.lra].
Qed.

(** ** Points of the unit square *)
Definition sq (x : uv) : Prop := (0 <= x.1 <= 1)%Q ∧ (0 <= x.2 <= 1)%Q.
Lemma unit_sq x : in_unit x → sq x.
Proof. intros (H1 & H2 & H3). split; split; Lqa.lra. Qed.
Local Notation X x := (Q2R x.1).
Local Notation Y x := (Q2R x.2).
Lemma sq_R x : sq x → 0 <= X x <= 1 ∧ 0 <= Y x <= 1.
Proof.
  intros [[H1 H2] [H3 H4]]. apply Qle_Rle in H1, H2, H3, H4. replace (Q2R 0) with 0 in * by (unfold Q2R; cbn; Lra.lra). replace (Q2R 1) with 1 in * by (unfold Q2R; cbn; Lra.lra). Lra.lra.
Qed.
Lemma near_Q q : Rabs (Q2R q) <= 1 → near (Q_to_f64 q) (Q2R q) u.
Proof.
  intros H1. destruct (Q_to_f64_spec q) as [F HV]. split; [exact F|]. pose proof (to_f64_le q) as L.
  destruct HV as [->|[HV _]].
  - pose proof (trunc64_err (tq q)) as E1. pose proof (tq_err q) as E2. pose proof (tq_le q) as E3.
    replace (trunc64 (tq q) - Q2R q) with ((trunc64 (tq q) - tq q) + (tq q - Q2R q)) by ring.
    eapply Rle_trans; [apply Rabs_triang|]. pose proof (bpow_le radix2 (-1074) (-52) ltac:(lia)) as L1.
    assert (bpow radix2 (-52) * Rabs (tq q) <= bpow radix2 (-52) * 1) as L2 by (apply Rmult_le_compat_l; [apply bpow_ge_0|Lra.lra]).
    change u with (/ 1125899906842624). change (bpow radix2 (-52)) with (/ 4503599627370496) in *. Lra.lra.
  - exfalso. rewrite HV in L. pose proof (bpow_le radix2 971 1023 ltac:(lia)) as L1. change (bpow radix2 1024) with (bpow radix2 (1 + 1023)) in L. rewrite bpow_plus in L.
    change (bpow radix2 1) with 2 in L. pose proof (bpow_le radix2 1 1023 ltac:(lia)) as L2. change (bpow radix2 1) with 2 in L2. Lra.lra.
Qed.
Lemma near_c x : sq x → near (Q_to_f64 x.1) (X x) u ∧ near (Q_to_f64 x.2) (Y x) u.
Proof. intros H. apply sq_R in H as [[? ?] [? ?]]. split; apply near_Q; apply Rabs_le; Lra.lra. Qed.
Lemma abs_diff r s : 0 <= r <= 1 → 0 <= s <= 1 → Rabs (r - s) <= 1.
Proof. intros. apply Rabs_le. Lra.lra. Qed.
Lemma near_diff x y : sq x → sq y → near (fsub (Q_to_f64 y.1) (Q_to_f64 x.1)) (X y - X x) (3 * u) ∧ near (fsub (Q_to_f64 y.2) (Q_to_f64 x.2)) (Y y - Y x) (3 * u).
Proof.
  intros Sx Sy. destruct (near_c x Sx) as [X1 X2], (near_c y Sy) as [Y1 Y2]. apply sq_R in Sx as [? ?], Sy as [? ?]. pose proof u_val.
  split; (eapply near_weak; [apply near_sub; [eassumption..|]|Lra.lra]); match goal with |- Rabs (?a - ?b) + _ + _ <= _ => pose proof (abs_diff a b ltac:(assumption) ltac:(assumption)) end; Lra.lra.
Qed.
Lemma near_prod x y r s : near x r (3 * u) → near y s (3 * u) → Rabs r <= 1 → Rabs s <= 1 → near (fmul x y) (r * s) (8 * u).
Proof.
  intros Nx Ny Hr Hs. pose proof u_val. assert (3 * u * (3 * u) <= u) as Hu by (apply Rle_trans with (3 * u * (/ 3)); [apply Rmult_le_compat_l; Lra.lra|Lra.lra]).
  eapply near_weak; [apply (near_mul x y r s _ _ 1 1 Nx Ny Hr Hs)|]; Lra.lra.
Qed.
Lemma abs_prod r s : Rabs r <= 1 → Rabs s <= 1 → Rabs (r * s) <= 1.
Proof. intros Hr Hs. rewrite Rabs_mult. replace 1 with (1 * 1) by ring. apply Rmult_le_compat; auto using Rabs_pos. Qed.

Local Notation turnR a b p := ((X b - X a) * (Y p - Y a) - (Y b - Y a) * (X p - X a)).
Local Notation alongR a b p := ((X p - X a) * (X b - X a) + (Y p - Y a) * (Y b - Y a)).
Lemma turn_R a b p : Q2R (turn a b p) = turnR a b p.
Proof. unfold turn. rewrite !Q2R_minus, !Q2R_mult, !Q2R_minus. reflexivity. Qed.
Lemma along_R a b p : Q2R (along a b p) = alongR a b p.
Proof. unfold along. rewrite !Q2R_plus, !Q2R_mult, !Q2R_minus. reflexivity. Qed.
Section points.
Context (a b p : uv) (Sa : sq a) (Sb : sq b) (Sp : sq p).
Lemma diffs : Rabs (X b - X a) <= 1 ∧ Rabs (Y b - Y a) <= 1 ∧ Rabs (X p - X a) <= 1 ∧ Rabs (Y p - Y a) <= 1.
Proof. apply sq_R in Sa as [? ?], Sb as [? ?], Sp as [? ?]. repeat split; apply abs_diff; assumption. Qed.
Lemma fcross_near : near (fcross a b p) (turnR a b p) (17 * u).
Proof.
  destruct diffs as (D1 & D2 & D3 & D4). destruct (near_diff a b Sa Sb) as [N1 N2], (near_diff a p Sa Sp) as [N3 N4].
  pose proof u_val. pose proof (abs_prod _ _ D1 D4) as P1. pose proof (abs_prod _ _ D2 D3) as P2. apply Rabs_le_inv in P1, P2.
  assert (Rabs (turnR a b p) <= 2) by (apply Rabs_le; Lra.lra).
  unfold fcross, ctr. eapply near_weak; [apply near_sub; [apply near_prod; eassumption..|Lra.lra]|Lra.lra].
Qed.
Lemma param_near : near (param_t_uv a b p) (alongR a b p) (17 * u).
Proof.
  destruct diffs as (D1 & D2 & D3 & D4). destruct (near_diff a b Sa Sb) as [N1 N2], (near_diff a p Sa Sp) as [N3 N4].
  pose proof u_val. pose proof (abs_prod _ _ D3 D1) as P1. pose proof (abs_prod _ _ D4 D2) as P2. apply Rabs_le_inv in P1, P2.
  assert (Rabs (alongR a b p) <= 2) by (apply Rabs_le; Lra.lra).
  unfold param_t_uv, ctr. eapply near_weak; [apply near_add; [apply near_prod; eassumption..|Lra.lra]|Lra.lra].
Qed.
Lemma feps_val : fin (feps a b) ∧ / 20000000000 <= val (feps a b) <= 3 * / 10000000000.
Proof.
  destruct diffs as (D1 & D2 & _ & _). destruct (near_diff a b Sa Sb) as [N1 N2]. apply near_abs in N1, N2. pose proof u_val.
  unfold feps, ctr. set (s := fadd _ _). assert (near s (Rabs (X b - X a) + Rabs (Y b - Y a)) (7 * u)) as Ns.
  { pose proof (Rabs_pos (X b - X a)). pose proof (Rabs_pos (Y b - Y a)). eapply near_weak; [apply near_add; [eassumption..|]|Lra.lra]. rewrite Rabs_pos_eq; Lra.lra. }
  clearbody s. pose proof (near_bounds _ _ _ Ns) as Bs. destruct Ns as [Fs _]. destruct one_val as [F1 V1]. destruct (fmax_val s fone Fs F1) as [FM VM].
  set (M := DelaunayFloat.fmax s fone) in *. clearbody M. assert (1 <= val M <= 5 / 2) as BM.
  { rewrite VM, V1. split; [apply Rmax_r|]. apply Rmax_lub; Lra.lra. }
  pose proof EPS_val as BE. assert (near (fmul F64Model.EPS M) (val F64Model.EPS * val M) u) as N.
  { eapply near_weak; [apply (near_mul _ _ _ _ 0 0 1 3)|Lra.lra].
    - split; [exact fin_EPS|]. rewrite Rminus_diag_eq, Rabs_R0 by reflexivity. Lra.lra.
    - split; [exact FM|]. rewrite Rminus_diag_eq, Rabs_R0 by reflexivity. Lra.lra.
    - apply Rabs_le. Lra.lra.
    - apply Rabs_le. Lra.lra.
    - Lra.lra. }
  pose proof (near_bounds _ _ _ N) as B. split; [apply N|].
  assert (val F64Model.EPS * 1 <= val F64Model.EPS * val M) by (apply Rmult_le_compat_l; Lra.lra).
  assert (val F64Model.EPS * val M <= val F64Model.EPS * (5 / 2)) by (apply Rmult_le_compat_l; Lra.lra). Lra.lra.
Qed.

(** the test against the line *)
Definition passes : bool := negb (fgt (fabs (fcross a b p)) (feps a b)).
Lemma passes_t : passes = true ↔ Rabs (val (fcross a b p)) <= val (feps a b).
Proof.
  destruct fcross_near as [Fc _]. destruct feps_val as [Fe _]. destruct (fabs_fin _ Fc) as [Fa Va]. unfold passes, fgt. rewrite negb_true_iff, (flt_f _ _ Fe Fa), Va. reflexivity.
Qed.
Lemma passes_sound : passes = true → Rabs (turnR a b p) <= / 1000000000.
Proof.
  rewrite passes_t. intros H. destruct fcross_near as [_ N]. destruct feps_val as [_ B]. pose proof u_val.
  replace (turnR a b p) with (val (fcross a b p) + - (val (fcross a b p) - turnR a b p)) by ring. eapply Rle_trans; [apply Rabs_triang|]. rewrite Rabs_Ropp. Lra.lra.
Qed.
Lemma passes_exact : turnR a b p = 0 → passes = true.
Proof.
  rewrite passes_t. intros E. destruct fcross_near as [_ N]. rewrite E, Rminus_0_r in N. destruct feps_val as [_ B]. pose proof u_val. Lra.lra.
Qed.
(** one side of the box *)
Lemma side_t (x y z : f64) (X0 Y0 Z0 : R) : near x X0 u → near y Y0 u → near z Z0 u → 0 <= X0 <= 1 → 0 <= Y0 <= 1 → 0 <= Z0 <= 1 →
  let '(mn, mx) := if fle x y then (x, y) else (y, x) in
  ((X0 <= Z0 <= Y0 ∨ Y0 <= Z0 <= X0) → fge z (fsub mn (feps a b)) && fle z (fadd mx (feps a b)) = true) ∧
  (fge z (fsub mn (feps a b)) && fle z (fadd mx (feps a b)) = true →
    (X0 - / 1000000000 <= Z0 <= Y0 + / 1000000000) ∨ (Y0 - / 1000000000 <= Z0 <= X0 + / 1000000000)).
Proof.
  intros Nx Ny Nz HX HY HZ. destruct feps_val as [Fe Be]. pose proof u_val.
  assert (∀ g G, near g G u → 0 <= G <= 1 → near (fsub g (feps a b)) (G - val (feps a b)) (2 * u) ∧ near (fadd g (feps a b)) (G + val (feps a b)) (2 * u)) as S.
  { intros g G Ng HG. assert (near (feps a b) (val (feps a b)) 0) as Ne by (split; [exact Fe|]; rewrite Rminus_diag_eq, Rabs_R0 by reflexivity; Lra.lra).
    split; (eapply near_weak; [first [apply near_sub|apply near_add]; [exact Ng|exact Ne|]|Lra.lra]); [assert (Rabs (G - val (feps a b)) <= 2)|assert (Rabs (G + val (feps a b)) <= 2)]; try (apply Rabs_le); Lra.lra. }
  pose proof (near_bounds _ _ _ Nx). pose proof (near_bounds _ _ _ Ny). pose proof (near_bounds _ _ _ Nz).
  destruct (S x X0 Nx HX) as [Sx Ax], (S y Y0 Ny HY) as [Sy Ay]. clear S.
  pose proof (near_bounds _ _ _ Sx). pose proof (near_bounds _ _ _ Ax). pose proof (near_bounds _ _ _ Sy). pose proof (near_bounds _ _ _ Ay).
  destruct (fle x y) eqn:E; [apply (fle_t x y (proj1 Nx) (proj1 Ny)) in E|apply (fle_f x y (proj1 Nx) (proj1 Ny)) in E]; unfold fge;
    rewrite andb_true_iff, !fle_t by first [apply Nz|apply Sx|apply Ax|apply Sy|apply Ay]; split; intros; Lra.lra.
Qed.
Lemma on_segment_passes : on_segment_uv_fast a b p = true → passes = true.
Proof. unfold on_segment_uv_fast, passes, ctr. destruct (fgt _ _); [discriminate|reflexivity]. Qed.
Lemma on_segment_R :
  (turnR a b p = 0 → (X a <= X p <= X b ∨ X b <= X p <= X a) → (Y a <= Y p <= Y b ∨ Y b <= Y p <= Y a) → on_segment_uv_fast a b p = true) ∧
  (on_segment_uv_fast a b p = true → Rabs (turnR a b p) <= / 1000000000 ∧
    ((X a - / 1000000000 <= X p <= X b + / 1000000000) ∨ (X b - / 1000000000 <= X p <= X a + / 1000000000)) ∧
    ((Y a - / 1000000000 <= Y p <= Y b + / 1000000000) ∨ (Y b - / 1000000000 <= Y p <= Y a + / 1000000000))).
Proof.
  destruct (near_c a Sa) as [A1 A2], (near_c b Sb) as [B1 B2], (near_c p Sp) as [P1 P2].
  pose proof (sq_R a Sa) as [? ?]. pose proof (sq_R b Sb) as [? ?]. pose proof (sq_R p Sp) as [? ?].
  pose proof (side_t _ _ _ _ _ _ A1 B1 P1 ltac:(assumption) ltac:(assumption) ltac:(assumption)) as S1.
  pose proof (side_t _ _ _ _ _ _ A2 B2 P2 ltac:(assumption) ltac:(assumption) ltac:(assumption)) as S2.
  split.
  - intros E HX HY. apply passes_exact in E. unfold passes in E. unfold on_segment_uv_fast, ctr. destruct (fgt _ _); [discriminate E|].
    destruct (if fle (Q_to_f64 a.1) (Q_to_f64 b.1) then _ else _) as [mn mx]. destruct (if fle (Q_to_f64 a.2) (Q_to_f64 b.2) then _ else _) as [mn' mx'].
    destruct S1 as [S1 _], S2 as [S2 _]. rewrite <- andb_assoc, S1, S2 by assumption. reflexivity.
  - intros E. split; [apply passes_sound, on_segment_passes, E|]. unfold on_segment_uv_fast, ctr in E. destruct (fgt _ _); [discriminate E|].
    destruct (if fle (Q_to_f64 a.1) (Q_to_f64 b.1) then _ else _) as [mn mx]. destruct (if fle (Q_to_f64 a.2) (Q_to_f64 b.2) then _ else _) as [mn' mx'].
    destruct S1 as [_ S1], S2 as [_ S2]. rewrite <- andb_assoc in E. apply andb_true_iff in E as [E1 E2]. split; [apply S1, E1|apply S2, E2].
Qed.
Lemma Q2R_small : Q2R loose = / 1000000000.
Proof. unfold loose, Q2R. cbn [Qnum Qden]. Lra.lra. Qed.
Lemma between_R d x y z : between d x y z ↔ (Q2R x - Q2R d <= Q2R z <= Q2R y + Q2R d) ∨ (Q2R y - Q2R d <= Q2R z <= Q2R x + Q2R d).
Proof.
  unfold between. rewrite <- !Q2R_minus, <- !Q2R_plus. split; (intros [[H1 H2]|[H1 H2]]; [left|right]); split; first [apply Qle_Rle|apply Rle_Qle]; assumption.
Qed.
Lemma abs_R q d : (Qabs q <= d)%Q ↔ Rabs (Q2R q) <= Q2R d.
Proof. rewrite <- Q2R_abs. split; [apply Qle_Rle|apply Rle_Qle]. Qed.
Lemma Q2R_0 : Q2R 0 = 0.
Proof. unfold Q2R. cbn. Lra.lra. Qed.
Lemma on_segment_complete : on_uv 0 a b p → on_segment_uv_fast a b p = true.
Proof.
  intros (H1 & H2 & H3). apply abs_R in H1. rewrite turn_R, Q2R_0 in H1. apply between_R in H2, H3. rewrite Q2R_0 in H2, H3.
  apply on_segment_R; [|Lra.lra..]. pose proof (Rabs_pos (turnR a b p)). destruct (Req_dec (turnR a b p) 0) as [E|E]; [exact E|]. apply Rabs_pos_lt in E. Lra.lra.
Qed.
Lemma on_segment_sound : on_segment_uv_fast a b p = true → on_uv loose a b p.
Proof.
  intros (H1 & H2 & H3)%on_segment_R. split; [apply abs_R; rewrite turn_R, Q2R_small; exact H1|]. split; apply between_R; rewrite Q2R_small; assumption.
Qed.
Lemma same_uv_close : same_uv a b = true → close_uv loose a b.
Proof.
  unfold same_uv, ctr. rewrite andb_true_iff. destruct (near_diff b a Sb Sa) as [N1 N2]. destruct (near_abs _ _ _ N1) as [F1 _], (near_abs _ _ _ N2) as [F2 _].
  rewrite !flt_t by first [exact fin_EPS|assumption]. intros [H1 H2]. apply near_abs, near_bounds in N1, N2. pose proof EPS_val. pose proof u_val.
  split; apply abs_R; rewrite Q2R_small, Q2R_minus; Lra.lra.
Qed.
Lemma same_uv_far : (1 # 2 <= Qabs (a.1 - b.1))%Q ∨ (1 # 2 <= Qabs (a.2 - b.2))%Q → same_uv a b = false.
Proof.
  intros H. destruct (same_uv a b) eqn:E; [|reflexivity]. exfalso. apply same_uv_close in E as [E1 E2]. unfold loose in *. destruct H; Lqa.lra.
Qed.
(** the test for a side of the face, for a point whose foot on the line lies on the side *)
Lemma on_edge_sound : (on_edge_with_t a b p).1 = true → passes = true.
Proof. unfold on_edge_with_t, passes, ctr. destruct (fgt _ _); [discriminate|reflexivity]. Qed.
Lemma on_edge_complete : passes = true → (1 <= along a b b)%Q → (0 <= along a b p <= along a b b)%Q → (on_edge_with_t a b p).1 = true.
Proof.
  intros Hp Hl [H0 H1]. apply Qle_Rle in Hl, H0, H1. rewrite Q2R_0 in H0. replace (Q2R 1) with 1 in Hl by (unfold Q2R; cbn; Lra.lra). rewrite !along_R in *.
  unfold on_edge_with_t, ctr. unfold passes in Hp. destruct (fgt _ _); [discriminate Hp|].
  destruct diffs as (D1 & D2 & D3 & D4). destruct (near_diff a b Sa Sb) as [N1 N2], (near_diff a p Sa Sp) as [N3 N4]. pose proof u_val.
  set (dot := fadd (fmul _ (fsub (Q_to_f64 p.1) _)) _). set (len2 := fadd _ _).
  assert (near dot (alongR a b p) (17 * u)) as Nd.
  { pose proof (abs_prod _ _ D1 D3) as P1. pose proof (abs_prod _ _ D2 D4) as P2. apply Rabs_le_inv in P1, P2.
    replace (alongR a b p) with ((X b - X a) * (X p - X a) + (Y b - Y a) * (Y p - Y a)) by ring.
    assert (Rabs ((X b - X a) * (X p - X a) + (Y b - Y a) * (Y p - Y a)) <= 2) by (apply Rabs_le; Lra.lra).
    eapply near_weak; [apply near_add; [apply near_prod; eassumption..|Lra.lra]|Lra.lra]. }
  assert (near len2 (alongR a b b) (17 * u) ∧ alongR a b b <= 2) as [Nl Hl2].
  { pose proof (abs_prod _ _ D1 D1) as P1. pose proof (abs_prod _ _ D2 D2) as P2. apply Rabs_le_inv in P1, P2. split; [|Lra.lra].
    assert (Rabs (alongR a b b) <= 2) by (apply Rabs_le; Lra.lra).
    eapply near_weak; [apply near_add; [apply near_prod; eassumption..|Lra.lra]|Lra.lra]. }
  clearbody dot len2. pose proof (near_bounds _ _ _ Nd) as Bd. pose proof (near_bounds _ _ _ Nl) as Bl.
  assert (fle len2 fzero = false) as -> by (apply fle_f; [apply Nl|exact fin_fzero|]; rewrite val_fzero; Lra.lra).
  assert (0 < val len2) as Lp by Lra.lra. assert (- (100 * u) <= val dot / val len2 <= 1 + 100 * u) as Bt.
  { split; (apply Rmult_le_reg_r with (val len2); [exact Lp|]); unfold Rdiv; rewrite Rmult_assoc, Rinv_l, Rmult_1_r by Lra.lra.
    - assert (- (100 * u) * val len2 <= - (100 * u) * (1 / 2)) by (rewrite <- !Ropp_mult_distr_l; apply Ropp_le_contravar, Rmult_le_compat_l; Lra.lra). Lra.lra.
    - assert (100 * u * (1 / 2) <= 100 * u * val len2) by (apply Rmult_le_compat_l; Lra.lra). Lra.lra. }
  assert (near (fdiv dot len2) (val dot / val len2) u) as Nt.
  { apply fdiv_near; [apply Nd|apply Nl|Lra.lra|]. apply Rabs_le. Lra.lra. }
  pose proof (near_bounds _ _ _ Nt) as Bt'. destruct Nt as [Ft _]. pose proof EPS_val. destruct (fneg_fin _ fin_EPS) as [Fn Vn]. destruct one_val as [F1 V1].
  assert (near (fadd fone F64Model.EPS) (1 + val F64Model.EPS) u) as Ne.
  { eapply near_weak; [apply (near_add _ _ _ _ 0 0)|Lra.lra].
    - split; [exact F1|]. rewrite V1, Rminus_diag_eq, Rabs_R0 by reflexivity. Lra.lra.
    - split; [exact fin_EPS|]. rewrite Rminus_diag_eq, Rabs_R0 by reflexivity. Lra.lra.
    - rewrite Rabs_pos_eq; Lra.lra. }
  pose proof (near_bounds _ _ _ Ne) as Be. cbn [fst]. unfold fge. rewrite andb_true_iff, !fle_t by first [exact Ft|exact Fn|apply Ne]. rewrite Vn. Lra.lra.
Qed.
End points.

(** ** Sorting by a key that is a number *)
Lemma put_sorted {A} (key : A → f64) x l : (∀ y, y ∈ x :: l → fin (key y)) → StronglySorted (λ y z, val (key y) <= val (key z)) l →
  StronglySorted (λ y z, val (key y) <= val (key z)) (put key x l).
Proof.
  intros F HS. induction HS as [|y l HS IH HF]; cbn; [repeat constructor|].
  assert (fin (key x)) as Fx by (apply F; left). assert (fin (key y)) as Fy by (apply F; right; left).
  destruct (flt (key y) (key x)) eqn:E.
  - constructor; [apply IH; intros z [->|Hz]%elem_of_cons; [exact Fx|apply F; right; right; exact Hz]|]. apply (flt_t _ _ Fy Fx) in E.
    rewrite Forall_forall. intros z Hz. assert (z ∈ x :: l) as Hz'.
    { clear -Hz. induction l as [|w l IH]; cbn in Hz; [exact Hz|]. destruct (flt (key w) (key x)).
      - apply elem_of_cons in Hz as [->|Hz]; [right; left|]. apply IH in Hz. apply elem_of_cons in Hz as [->|Hz]; [left|right; right; exact Hz].
      - exact Hz. }
    apply elem_of_cons in Hz' as [->|Hz']; [Lra.lra|]. rewrite Forall_forall in HF. apply HF, Hz'.
  - apply (flt_f _ _ Fy Fx) in E. constructor; [constructor; assumption|]. constructor; [exact E|]. rewrite Forall_forall in *. intros z Hz. pose proof (HF z Hz). Lra.lra.
Qed.
Lemma by_key_elem {A} (key : A → f64) l x : x ∈ by_key key l → x ∈ l.
Proof.
  induction l as [|y l IH]; cbn; [done|]. fold (by_key key l). set (l' := by_key key l) in *. clearbody l'. intros Hx. assert (x ∈ y :: l') as Hx'.
  { clear -Hx. induction l' as [|w l' IH]; cbn in Hx; [exact Hx|]. destruct (flt (key w) (key y)); [|exact Hx].
    apply elem_of_cons in Hx as [->|Hx]; [right; left|]. apply IH in Hx. apply elem_of_cons in Hx as [->|Hx]; [left|right; right; exact Hx]. }
  apply elem_of_cons in Hx' as [->|Hx']; [left|right; apply IH, Hx'].
Qed.
Lemma by_key_sorted {A} (key : A → f64) l : (∀ y, y ∈ l → fin (key y)) → StronglySorted (λ y z, val (key y) <= val (key z)) (by_key key l).
Proof.
  induction l as [|x l IH]; intros F; cbn; [constructor|]. fold (by_key key l). apply put_sorted.
  - intros y [->|Hy]%elem_of_cons; [apply F; left|]. apply F. right. eapply by_key_elem, Hy.
  - apply IH. intros y Hy. apply F. right. exact Hy.
Qed.
Lemma along_ordered a b x y : sq a → sq b → sq x → sq y → val (param_t_uv a b x) <= val (param_t_uv a b y) → (along a b x <= along a b y + loose)%Q.
Proof.
  intros Sa Sb Sx Sy H. pose proof (near_bounds _ _ _ (param_near a b x Sa Sb Sx)) as Bx. pose proof (near_bounds _ _ _ (param_near a b y Sa Sb Sy)) as By. pose proof u_val.
  apply Rle_Qle. rewrite Q2R_plus, !along_R, Q2R_small. Lra.lra.
Qed.
