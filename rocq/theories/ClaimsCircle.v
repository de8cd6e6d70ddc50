(** Property C112: the in-circle test of the triangulations (delaunay.rs 340-380).
    Vocabulary: GeomSpec ([d2], [area2]) and the values [val] of doubles. *)
From Coq Require Import Reals Qreals Lra.
From Flocq Require Import Core.
From Verif Require Import ClaimsGeom DelaunayFloat F64Model F64Base F64Arith.
From Coq Require Import Lqa.
Open Scope Q_scope.

Lemma area2_swap a b c : area2 a c b == - area2 a b c.
Proof. unfold area2. destruct a, b, c. cbn. ring. Qed.
Lemma eps_swap a b c p : incircle_eps a c b p == incircle_eps a b c p.
Proof.
  unfold incircle_eps. cbv zeta.
  set (x := Qabs (fst a - fst p)). set (x' := Qabs (snd a - snd p)). set (y := Qabs (fst b - fst p)). set (y' := Qabs (snd b - snd p)).
  set (z := Qabs (fst c - fst p)). set (z' := Qabs (snd c - snd p)).
  assert (∀ u v, u == v → qmax u 1 == qmax v 1) as Hm.
  { intros u v E. unfold qmax. destruct (qlt 1 u) eqn:E1, (qlt 1 v) eqn:E2; qb; lra. }
  rewrite (Hm (x + x' + z + z' + y + y') (x + x' + y + y' + z + z')) by lra. reflexivity.
Qed.
(** C112, exact part: for a triangle of either orientation that is not flat up to the
    threshold of orient2d, with circumcentre [o], a point reported inside is inside the
    circumcircle, and a point reported outside is outside or within the threshold of
    incircle. *)
Theorem C112_circumcircle_partial fl o a b c p :
  d2 o a == d2 o b → d2 o a == d2 o c → ~ orient2d fl a b c == 0 →
  (point_in_circumcircle fl p a b c = true → d2 o p < d2 o a) ∧
  (point_in_circumcircle fl p a b c = false →
     d2 o a <= d2 o p ∨ Qabs (area2 a b c) * (d2 o a - d2 o p) <= incircle_eps a b c p).
Proof.
  intros H1 H2 Ho.
  assert (orient2d fl a b c == area2 a b c) as Ea.
  { destruct (C46_orient2d_partial fl a b c) as [E|[E _]]; [assumption|]. exfalso. apply Ho. rewrite E. reflexivity. }
  unfold point_in_circumcircle.
  assert (∀ x y, 0 < area2 a x y → d2 o a == d2 o x → d2 o a == d2 o y → Qabs (area2 a x y) == Qabs (area2 a b c) → incircle_eps a x y p == incircle_eps a b c p →
     (is_positive (incircle a x y p) = true → d2 o p < d2 o a) ∧
     (is_positive (incircle a x y p) = false → d2 o a <= d2 o p ∨ Qabs (area2 a b c) * (d2 o a - d2 o p) <= incircle_eps a b c p)) as Hx.
  { intros x y HA Hx Hy EA EE. destruct (C46_incircle_partial o a x y p HA Hx Hy) as (C1&C2&C3&C4). split; intros E; qb.
    - apply C1, E.
    - destruct (Qlt_le_dec (incircle a x y p) 0) as [G|G]; [left; apply Qlt_le_weak, C2, G|]. right.
      assert (incircle a x y p == 0) as G0 by lra. specialize (C4 G0). rewrite <- EE, <- EA. rewrite (Qabs_pos (area2 a x y)) by lra.
      apply Qle_trans with (2 := C4). rewrite !(Qmult_comm (area2 a x y)). apply Qmult_le_compat_r; [apply Qle_Qabs|lra]. }
  destruct (is_positive (orient2d fl a b c)) eqn:E; qb.
  - apply Hx; try reflexivity; try assumption. lra.
  - apply Hx; [|assumption..| |apply eps_swap].
    + rewrite area2_swap. assert (~ area2 a b c == 0) by (rewrite <- Ea; assumption).
      destruct (Qlt_le_dec (area2 a b c) 0) as [G|G]; [lra|]. exfalso. apply H. lra.
    + rewrite area2_swap, Qabs_opp. reflexivity.
Qed.
Print Assumptions C112_circumcircle_partial.
(** the two orientations of a triangle *)
Example C112_case : let o := (0, 0) in let a := (1, 0) in let b := (0, 1) in let c := (-1, 0) in
  d2 o a == d2 o b ∧ d2 o a == d2 o c ∧ ~ orient2d rat_fl a b c == 0 ∧ ~ orient2d rat_fl a c b == 0 ∧
  point_in_circumcircle rat_fl (0, 1 # 2) a b c = true ∧ point_in_circumcircle rat_fl (0, 1 # 2) a c b = true ∧
  point_in_circumcircle rat_fl (0, 2) a b c = false ∧ point_in_circumcircle rat_fl (0, 2) a c b = false.
Proof. cbv zeta. repeat split; try (intros H; vm_compute in H; discriminate); vm_compute; reflexivity. Qed.

(** C112, in doubles: the filter that is tried first. With [D] the computed squared
    distance of the point from the computed centre and [r2] the computed squared radius, a
    decided answer is right for a true distance and radius that differ from these by at most
    the tolerance (10^-10) together. *)
Definition computed (ball : p2 → f64 * f64) (p a b c : p2) : option (f64 * f64) :=
  match circumcircle_approx_fast ball a b c with
  | None => None
  | Some (cx, cy, r2) =>
      let dx := fsub (fst (ball p)) cx in
      let dy := fsub (snd (ball p)) cy in
      Some (fadd (fmul dx dx) (fmul dy dy), r2)
  end.
Definition close_by (D r2 : f64) (dist rad : R) : Prop :=
  (Rabs (val D - dist) + Rabs (val r2 - rad) <= val EPS)%R.

Lemma tol_ok r2 tol : fin r2 → tol = fmul EPS (fmax r2 fone) → (fin tol ∧ (val EPS <= val tol)%R) ∨ tol = inf false.
Proof.
  intros Hr ->. assert (fin fone) as H1 by reflexivity. assert (val fone = 1%R) as V1.
  { destruct (f64_to_Q fone) as [q|] eqn:E; [|vm_compute in E; discriminate]. destruct (to_Q_val _ _ E) as [_ <-].
    vm_compute in E. injection E as <-. unfold Q2R. cbn. Lra.lra. }
  assert (fin (fmax r2 fone) ∧ (1 <= val (fmax r2 fone))%R) as [Hf Hm].
  { unfold fmax. assert (fis_nan r2 = false) as -> by (clear -Hr; unfold fin in Hr; destruct r2; cbn in *; congruence).
    change (fis_nan fone) with false. cbn [orb]. destruct (flt r2 fone) eqn:E; [split; [reflexivity|Lra.lra]|].
    apply (flt_f r2 fone) in E; [|assumption..]. split; [assumption|Lra.lra]. }
  pose proof val_EPS_pos as HP.
  assert (val EPS <= val EPS * val (fmax r2 fone))%R as Hle by (rewrite <- (Rmult_1_r (val EPS)) at 1; apply Rmult_le_compat_l; Lra.lra).
  destruct (fmul_spec EPS (fmax r2 fone) fin_EPS Hf) as [[Hfin Hv]|(s&Hi&Hs&_)].
  - left. split; [assumption|]. rewrite Hv, <- (rnd_val EPS) at 1. apply rnd_le. assumption.
  - right. rewrite Hi. destruct s; [Lra.lra|reflexivity].
Qed.
(** adding or subtracting the tolerance rounds, but a double beyond the rounded sum is
    beyond the sum *)
Lemma rnd_small D s : (bpow radix2 1024 <= Rabs (rnd s))%R → (s < 0)%R → (s < val D)%R.
Proof.
  intros Hb Hs. apply Rnot_le_lt. intros Hle%rnd_le. rewrite rnd_val in Hle.
  assert (rnd s <= 0)%R. { rewrite <- rnd_0. apply rnd_le. Lra.lra. }
  rewrite Rabs_left1 in Hb by assumption.
  pose proof (Binary.abs_B2R_lt_emax 53 1024 D) as HD. revert HD. unfold Rabs. destruct (Rcase_abs _); Lra.lra.
Qed.
Lemma above_sum D r t : fin D → fin r → fin t → fgt D (fadd r t) = true → (val r + val t < val D)%R.
Proof.
  intros HD Hr Ht H. unfold fgt in H. destruct (fadd_spec r t Hr Ht) as [[Hf Hv]|(s&Hi&Hs&Hb)].
  - apply flt_t in H; [|assumption..]. rewrite Hv in H. apply Rnot_le_lt. intros Hle.
    apply rnd_le in Hle. rewrite rnd_val in Hle. Lra.lra.
  - rewrite Hi, flt_inf_fin in H by assumption. subst s. apply rnd_small; assumption.
Qed.
Lemma below_diff D r t : fin D → fin r → fin t → flt D (fsub r t) = true → (val D < val r - val t)%R.
Proof.
  intros HD Hr Ht H. destruct (fsub_spec r t Hr Ht) as [[Hf Hv]|(s&Hi&Hs&Hb)].
  - apply flt_t in H; [|assumption..]. rewrite Hv in H. apply Rnot_le_lt. intros Hle.
    apply rnd_le in Hle. rewrite rnd_val in Hle. Lra.lra.
  - rewrite Hi, flt_fin_inf in H by assumption. destruct s; [discriminate|].
    pose proof (rnd_small (fneg D) (- (val r - val t))) as G. rewrite rnd_opp, Rabs_Ropp in G.
    destruct (fneg_fin D HD) as [_ Hn]. rewrite Hn in G. specialize (G Hb). Lra.lra.
Qed.

Lemma add_inf q : fin q → fadd q (inf false) = inf false ∧ fsub q (inf false) = inf true.
Proof. unfold fin. destruct q; intros Hq; try discriminate Hq; split; reflexivity. Qed.

Theorem C112_filter_partial ball p a b c r D r2 dist rad :
  circle_filter ball p a b c = Some r → computed ball p a b c = Some (D, r2) → fin D →
  close_by D r2 dist rad → (if r then dist < rad else rad < dist)%R.
Proof.
  unfold circle_filter, computed, close_by. destruct (circumcircle_approx_fast ball a b c) as [[[cx cy] q]|]; [|discriminate].
  destruct (ball p) as [px py]. cbn [fst snd]. destruct (forallb _ _) eqn:Ef; cbn [negb]; [|discriminate].
  intros H [= <- <-] HD Hc. cbn [forallb] in Ef. rewrite !andb_true_iff in Ef. destruct Ef as (_&_&_&_&Hq&_).
  remember (fmul EPS (fmax q fone)) as tol eqn:Et. cbv zeta in H.
  set (D := fadd _ _) in *.
  assert (∀ x, Rabs x >= x ∧ Rabs x >= - x)%R as Ha. { intros x. unfold Rabs. destruct (Rcase_abs x); split; Lra.lra. }
  pose proof (Ha (val D - dist)%R). pose proof (Ha (val q - rad)%R).
  destruct (tol_ok q tol Hq Et) as [[Hf Hle]| ->].
  - destruct (fgt D (fadd q tol)) eqn:E1.
    + injection H as <-. apply above_sum in E1; [|assumption..]. Lra.lra.
    + destruct (flt D (fsub q tol)) eqn:E2; [|discriminate]. injection H as <-. apply below_diff in E2; [|assumption..]. Lra.lra.
  - destruct (add_inf q Hq) as [E1 E2]. rewrite E1, E2 in H. unfold fgt in H. rewrite flt_inf_fin, flt_fin_inf in H by assumption. discriminate.
Qed.
Print Assumptions C112_filter_partial.
Example C112_filter_case : circle_filter rat_ball (0, 1 # 2) (1, 0) (0, 1) (-1, 0) = Some true ∧
  ∃ D r2, computed rat_ball (0, 1 # 2) (1, 0) (0, 1) (-1, 0) = Some (D, r2) ∧ fin D ∧ close_by D r2 (/ 4) 1.
Proof.
  split; [vm_compute; reflexivity|].
  assert (match computed rat_ball (0, 1 # 2) (1, 0) (0, 1) (-1, 0) with
          | Some (D, r2) => match f64_to_Q D, f64_to_Q r2 with Some x, Some y => Qeq_bool x (1 # 4) && Qeq_bool y 1 | _, _ => false end
          | None => false end = true) as G by (vm_compute; reflexivity).
  revert G. generalize (computed rat_ball (0, 1 # 2) (1, 0) (0, 1) (-1, 0)). intros [[D r2]|] G; [|discriminate].
  exists D, r2. split; [reflexivity|]. destruct (f64_to_Q D) as [x|] eqn:Ex; [|discriminate]. destruct (f64_to_Q r2) as [y|] eqn:Ey; [|discriminate].
  apply andb_true_iff in G as [G1%Qeq_bool_iff%Qeq_eqR G2%Qeq_bool_iff%Qeq_eqR].
  apply to_Q_val in Ex as [HD V1], Ey as [_ V2]. split; [exact HD|]. unfold close_by. rewrite <- V1, <- V2, G1, G2.
  pose proof val_EPS_pos as HP. unfold Q2R. cbn [Qnum Qden].
  match goal with |- (Rabs ?x + Rabs ?y <= _)%R => replace x with 0%R by Lra.lra; replace y with 0%R by Lra.lra end.
  rewrite Rabs_R0. Lra.lra.
Qed.

(** C112 is false for the filter: far from the origin the centre is computed so badly that
    the filter decides wrongly, in both directions. *)
Theorem C112_filter_refuted :
  (∃ o p a b c, 0 < area2 a b c ∧ d2 o a == d2 o b ∧ d2 o a == d2 o c ∧
     d2 o a + 1 < d2 o p ∧ point_in_circumcircle_fast rat_fl rat_filter p (0, 1, 2)%nat [a; b; c] = Some true) ∧
  (∃ o p a b c, 0 < area2 a b c ∧ d2 o a == d2 o b ∧ d2 o a == d2 o c ∧
     d2 o p == 0 ∧ 0 < d2 o a ∧ point_in_circumcircle_fast rat_fl rat_filter p (0, 1, 2)%nat [a; b; c] = Some false).
Proof.
  split.
  - exists (100000001 + (1 # 2), 100000001 + (1 # 2)), (100000001 + (3 # 2), 100000001 + (3 # 2)),
      (100000001, 100000001), (100000002, 100000001), (100000001, 100000002).
    repeat split; vm_compute; reflexivity.
  - exists (1000000001 + (1 # 2), 1000000001 + (1 # 2)), (1000000001 + (1 # 2), 1000000001 + (1 # 2)),
      (1000000001, 1000000001), (1000000002, 1000000001), (1000000001, 1000000002).
    repeat split; vm_compute; reflexivity.
Qed.
Print Assumptions C112_filter_refuted.
