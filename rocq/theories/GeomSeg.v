(** Intersections of segments, rays and triangles. *)
From Verif Require Export GeomTri.

Ltac feed_premise H := match type of H with ?A → _ => let X := fresh in assert A as X; [|specialize (H X); clear X] end.

Definition btw (t x y : Q) : Prop := (x <= t ∧ t <= y) ∨ (y <= t ∧ t <= x).

Lemma mid4 {A} (lt : A → A → bool) (key : A → Q) a b c d :
  (∀ x y, List.In x [a; b; c; d] → List.In y [a; b; c; d] → lt x y = qlt (key x) (key y)) →
  ∃ x0 p q x3, isort lt [a; b; c; d] = [x0; p; q; x3] ∧
    List.In p [a; b; c; d] ∧ List.In q [a; b; c; d] ∧
    ((∃ t, btw t (key a) (key b) ∧ btw t (key c) (key d)) →
     ∀ t, btw t (key p) (key q) ↔ btw t (key a) (key b) ∧ btw t (key c) (key d)).
Proof.
  intros H. cbn [isort insert].
  repeat match goal with
  | |- context [insert lt ?x ?l] => progress cbn [insert]
  | |- context [lt ?x ?y] => rewrite (H x y) by (cbn; tauto); 
      let E := fresh "E" in destruct (qlt (key x) (key y)) eqn:E
  end; eexists _, _, _, _; (split; [reflexivity|]); (split; [cbn; tauto|]); (split; [cbn; tauto|]);
  clear H; qb; intros (t0 & H1 & H2) t; unfold btw in *.
  all: repeat match goal with x := _ |- _ => clear x end.
  all: generalize dependent (key a); intros; generalize dependent (key b); intros; generalize dependent (key c); intros; generalize dependent (key d); intros.
  all: lra.
Qed.

(** the sorted middle points of two collinear segments that meet *)
Lemma overlap {A} (eqv : A → A → Prop) (at_ : Q → A) (on_seg : A → A → A → Prop) (lt : A → A → bool) (key : A → Q) a b c d :
  (∀ r t t', eqv r (at_ t) → eqv r (at_ t') → t == t') →
  (∀ x y r, List.In x [a; b; c; d] → List.In y [a; b; c; d] →
     on_seg x y r ↔ ∃ t, btw t (key x) (key y) ∧ eqv r (at_ t)) →
  (∀ x y, List.In x [a; b; c; d] → List.In y [a; b; c; d] → lt x y = qlt (key x) (key y)) ∨
  (∀ x y, List.In x [a; b; c; d] → List.In y [a; b; c; d] → lt x y = qlt (key y) (key x)) →
  ∃ x0 p q x3, isort lt [a; b; c; d] = [x0; p; q; x3] ∧
   ((∃ r, on_seg a b r ∧ on_seg c d r) → ∀ r, on_seg p q r ↔ on_seg a b r ∧ on_seg c d r).
Proof.
  intros Hinj Hseg Hlt.
  assert (∃ x0 p q x3, isort lt [a; b; c; d] = [x0; p; q; x3] ∧
    List.In p [a; b; c; d] ∧ List.In q [a; b; c; d] ∧
    ((∃ t, btw t (key a) (key b) ∧ btw t (key c) (key d)) →
     ∀ t, btw t (key p) (key q) ↔ btw t (key a) (key b) ∧ btw t (key c) (key d))) as (x0 & p & q & x3 & E & Hp & Hq & Hmid).
  { destruct Hlt as [Hlt|Hlt]; [apply mid4; assumption|].
    destruct (mid4 lt (λ x, - key x) a b c d) as (x0 & p & q & x3 & E & Hp & Hq & Hmid).
    { intros x y Hx Hy. rewrite Hlt by assumption. apply eq_true_iff_eq. rewrite !qlt_t. lra. }
    exists x0, p, q, x3. split; [assumption|]. split; [assumption|]. split; [assumption|]. intros (t & H1 & H2) t'.
    feed_premise Hmid.
    { exists (- t). unfold btw in *. lra. }
    specialize (Hmid (- t')). unfold btw in *. lra. }
  exists x0, p, q, x3. split; [assumption|]. intros (r0 & R1 & R2) r.
  rewrite (Hseg p q), (Hseg a b), (Hseg c d) by (assumption || (cbn; tauto)).
  rewrite (Hseg a b) in R1 by (cbn; tauto). rewrite (Hseg c d) in R2 by (cbn; tauto).
  destruct R1 as (t1 & B1 & E1), R2 as (t2 & B2 & E2).
  assert (t1 == t2) as E12 by (eapply Hinj; eassumption).
  feed_premise Hmid.
  { exists t1. split; [assumption|]. unfold btw in *. rewrite E12. assumption. }
  split.
  - intros (t & B & Er). apply Hmid in B as [Ba Bc]. split; exists t; tauto.
  - intros [(t & Ba & Er) (t' & Bc & Er')]. assert (t == t') as Et by (eapply Hinj; eassumption).
    exists t. split; [|assumption]. apply Hmid. split; [assumption|]. unfold btw in *. rewrite Et. assumption.
Qed.

(** *** the plane *)
Lemma seg_param2 a b p q r s s' : eq2 p (at2 a b s) → eq2 q (at2 a b s') →
  on_seg2 p q r ↔ ∃ t, btw t s s' ∧ eq2 r (at2 a b t).
Proof.
  destruct a as [ax ay], b as [bx by_], p as [px py], q as [qx qy], r as [rx ry].
  unfold on_seg2, eq2, at2, btw. cbn. intros [Hp1 Hp2] [Hq1 Hq2]. split.
  - intros (t & H0 & H1 & Hx & Hy). exists (s + t * (s' - s)). split.
    + destruct (Qlt_le_dec s s'); [left|right]; split; nra.
    + split; [rewrite Hx, Hp1, Hq1|rewrite Hy, Hp2, Hq2]; ring.
  - intros (t & Ht & Hx & Hy). destruct (Qeq_dec s s') as [E|E].
    + exists 0. split; [lra|]. split; [lra|]. assert (t == s) as Et by lra.
      split; [rewrite Hx, Hp1, Et|rewrite Hy, Hp2, Et]; ring.
    + exists ((t - s) / (s' - s)). assert (~ s' - s == 0) as Hne by (intros ?; apply E; lra).
      assert (0 <= (t - s) / (s' - s) ∧ (t - s) / (s' - s) <= 1) as [? ?].
      { set (k := (t - s) / (s' - s)). assert (t - s == k * (s' - s)) as Hk by (unfold k; field; assumption). clearbody k.
        destruct Ht; [assert (s < s') by (apply Qnot_le_lt; intros ?; apply E; lra)|assert (s' < s) by (apply Qnot_le_lt; intros ?; apply E; lra)]; split; nra. }
      split; [assumption|]. split; [assumption|].
      split; [rewrite Hx, Hp1, Hq1|rewrite Hy, Hp2, Hq2]; field; assumption.
Qed.

Lemma lex2_ab a b : ¬ eq2 a b → lex2 a b = false → lex2 b a = true.
Proof.
  unfold eq2, lex2. intros H E. qb. rewrite orb_true_iff, andb_true_iff, !qlt_t, qeqb_t.
  destruct H1; qb; [left; apply Qnot_le_lt; intros ?; apply H1; lra|].
  destruct (Qeq_dec (fst a) (fst b)) as [Ef|Ef].
  - right. split; [lra|]. apply Qnot_le_lt. intros ?. apply H. split; lra.
  - left. apply Qnot_le_lt. intros ?. apply Ef. lra.
Qed.

Lemma lex2_mono a b p q s t : lex2 a b = true → eq2 p (at2 a b s) → eq2 q (at2 a b t) → lex2 p q = qlt s t.
Proof.
  destruct a as [ax ay], b as [bx by_], p as [px py], q as [qx qy]. unfold lex2, eq2, at2. cbn.
  intros H [Hp1 Hp2] [Hq1 Hq2].
  apply eq_true_iff_eq. rewrite orb_true_iff, andb_true_iff, !qlt_t, qeqb_t in *.
  rewrite Hp1, Hp2, Hq1, Hq2. destruct H as [H|[He H]].
  - assert (ax + s * (bx - ax) == ax + t * (bx - ax) → s == t) as Hi.
    { intros E. assert ((s - t) * (bx - ax) == 0) as E0 by lra. apply Qmult_integral in E0 as [E0|E0]; lra. }
    split; [intros [E|[E E']]; [nra|]|intros E; left; nra].
    apply Hi in E. exfalso. rewrite E in E'. lra.
  - assert (bx - ax == 0) as E0 by lra. split.
    + intros [E|[E E']]; [exfalso; rewrite E0 in E; lra|nra].
    + intros E. right. split; [rewrite E0; ring|nra].
Qed.

Lemma at2_swap a b s : eq2 (at2 a b s) (at2 b a (1 - s)).
Proof. destruct a, b. unfold eq2, at2. cbn. split; ring. Qed.
Lemma eq2_trans p q r : eq2 p q → eq2 q r → eq2 p r.
Proof. unfold eq2. intros [? ?] [? ?]. split; etransitivity; eassumption. Qed.

(** collinear segments that meet *)
Lemma overlap_2 a b c d s s' : ¬ eq2 a b → eq2 c (at2 a b s) → eq2 d (at2 a b s') →
  ∃ x0 p q x3, isort lex2 [a; b; c; d] = [x0; p; q; x3] ∧
   ((∃ r, on_seg2 a b r ∧ on_seg2 c d r) → ∀ r, on_seg2 p q r ↔ on_seg2 a b r ∧ on_seg2 c d r).
Proof.
  intros Hne Hc Hd.
  assert (∃ key : p2 → Q, ∀ x, List.In x [a; b; c; d] → eq2 x (at2 a b (key x))) as (key & Hk).
  { destruct a as [ax ay], b as [bx by_]. unfold eq2 in Hne. cbn in Hne.
    set (key := λ p : p2, if Qeq_bool ax bx then (snd p - ay) / (by_ - ay) else (fst p - ax) / (bx - ax)).
    assert (∀ x t, eq2 x (at2 (ax, ay) (bx, by_) t) → key x == t) as Hkey.
    { intros [x y] t [Hx Hy]. unfold key. cbn in *. destruct (Qeq_bool ax bx) eqn:E; qb.
      - rewrite Hy. field. intros ?. apply Hne. split; lra.
      - rewrite Hx. field. intros ?. apply E. lra. }
    assert (∀ x t, eq2 x (at2 (ax, ay) (bx, by_) t) → eq2 x (at2 (ax, ay) (bx, by_) (key x))) as Hkey'.
    { intros x t Hx. pose proof (Hkey x t Hx) as E. unfold eq2, at2 in *. cbn in *. rewrite E. assumption. }
    assert (eq2 (ax, ay) (at2 (ax, ay) (bx, by_) 0)) as H0 by (unfold eq2, at2; cbn; split; ring).
    assert (eq2 (bx, by_) (at2 (ax, ay) (bx, by_) 1)) as H1 by (unfold eq2, at2; cbn; split; ring).
    exists key. intros x [<-|[<-|[<-|[<-|[]]]]]; eapply Hkey'; eassumption. }
  apply (overlap eq2 (at2 a b) on_seg2 lex2 key).
  - clear -Hne. destruct a as [ax ay], b as [bx by_]. intros [x y] t t' [Hx Hy] [Hx' Hy']. unfold eq2, at2 in *. cbn in *.
    destruct (Qeq_dec ax bx) as [E|E].
    + assert (~ by_ - ay == 0) as E' by (intros ?; apply Hne; split; lra). assert ((t - t') * (by_ - ay) == 0) as E0 by lra.
      apply Qmult_integral in E0 as [E0|E0]; [lra|contradiction].
    + assert (~ bx - ax == 0) as E' by (intros ?; apply E; lra). assert ((t - t') * (bx - ax) == 0) as E0 by lra.
      apply Qmult_integral in E0 as [E0|E0]; [lra|contradiction].
  - intros x y r Hx Hy. apply seg_param2; auto.
  - destruct (lex2 a b) eqn:El; [left|right]; intros x y Hx Hy.
    + apply (lex2_mono a b); auto.
    + apply lex2_ab in El; [|assumption].
      rewrite (lex2_mono b a x y (1 - key x) (1 - key y)); [|assumption|eapply eq2_trans; [apply Hk; assumption|apply at2_swap]..].
      apply eq_true_iff_eq. rewrite !qlt_t. lra.
Qed.

Lemma area_rel a b c d : area2 a b d - area2 a b c == (fst b - fst a) * (snd d - snd c) - (snd b - snd a) * (fst d - fst c).
Proof. unfold area2. ring. Qed.

Lemma nz_mult x y : ~ x == 0 → ~ y == 0 → ~ x * y == 0.
Proof. intros H1 H2 H. apply Qmult_integral in H as [?|?]; contradiction. Qed.

Lemma pos_mul_le k x : 0 < k → k * x <= 0 ↔ x <= 0.
Proof. intros H. split; intros; nra. Qed.
Lemma unit_interval x : x * (x - 1) <= 0 ↔ 0 <= x ∧ x <= 1.
Proof. split; [intros H; split; nra|intros [? ?]; nra]. Qed.

(** proper crossing: neither segment vertical, directions independent *)
Lemma seg2_proper a b c d : ~ fst a == fst b → ~ fst c == fst d → ¬ parallel2 a b c d →
  (∃ p, segment_segment_intersection_2 a b c d = IPoint p ∧ on_seg2 a b p ∧ on_seg2 c d p) ∨
  (segment_segment_intersection_2 a b c d = INone ∧ ∀ p, ¬ (on_seg2 a b p ∧ on_seg2 c d p)).
Proof.
  intros Hab Hcd Hpar. unfold segment_segment_intersection_2.
  pose proof (orient_2_ok a b c) as O1. pose proof (orient_2_ok a b d) as O2.
  pose proof (orient_2_ok c d a) as O3. pose proof (orient_2_ok c d b) as O4.
  set (o1 := orient_2 a b c) in *. set (o2 := orient_2 a b d) in *. set (o3 := orient_2 c d a) in *. set (o4 := orient_2 c d b) in *.
  clearbody o1 o2 o3 o4.
  set (A1 := area2 a b c) in *. set (A2 := area2 a b d) in *. set (A3 := area2 c d a) in *. set (A4 := area2 c d b) in *.
  set (W := (fst b - fst a) * (snd d - snd c) - (snd b - snd a) * (fst d - fst c)).
  assert (~ W == 0) as HW by (unfold parallel2 in Hpar; intros ?; apply Hpar; unfold W in *; lra).
  assert (A2 == A1 + W) as R1 by (unfold A2, A1, W, area2; ring).
  assert (A4 == A3 - W) as R2 by (unfold A4, A3, W, area2; ring).
  set (u := fst b - fst a) in *. set (v := fst d - fst c) in *.
  assert (~ u == 0) as Hu by (intros ?; apply Hab; unfold u in *; lra).
  assert (~ v == 0) as Hv by (intros ?; apply Hcd; unfold v in *; lra).
  (* common point <-> parameters in range *)
  set (t := A3 / W). set (s := - A1 / W).
  assert (A3 == t * W) as Et by (unfold t; field; assumption).
  assert (A1 == - (s * W)) as Es by (unfold s; field; assumption).
  assert (∀ p, on_seg2 a b p → on_seg2 c d p → 0 <= t ∧ t <= 1 ∧ 0 <= s ∧ s <= 1) as Hcomp.
  { intros p (t' & T0 & T1 & [Tx Ty]) (s' & S0 & S1 & [Sx Sy]).
    assert (t' == t) as E1.
    { unfold t, A3, W, area2, u, v. destruct a as [ax ay], b as [bx by_], c as [cx cy], d as [dx dy], p as [px py].
      unfold at2 in *. cbn in *. clear -Tx Ty Sx Sy HW. unfold W, u, v in HW. cbn in HW.
      apply Qmult_inj_r with (z := (bx - ax) * (dy - cy) - (by_ - ay) * (dx - cx)); [assumption|].
      transitivity ((dx - cx) * (ay - cy) - (dy - cy) * (ax - cx)); [|field; assumption].
      assert (t' * (bx - ax) == cx + s' * (dx - cx) - ax) as F1 by lra.
      assert (t' * (by_ - ay) == cy + s' * (dy - cy) - ay) as F2 by lra.
      transitivity ((t' * (bx - ax)) * (dy - cy) - (t' * (by_ - ay)) * (dx - cx)); [ring|]. rewrite F1, F2. ring. }
    assert (s' == s) as E2.
    { unfold s, A1, W, area2, u, v. destruct a as [ax ay], b as [bx by_], c as [cx cy], d as [dx dy], p as [px py].
      unfold at2 in *. cbn in *. clear -Tx Ty Sx Sy HW. unfold W, u, v in HW. cbn in HW.
      apply Qmult_inj_r with (z := (bx - ax) * (dy - cy) - (by_ - ay) * (dx - cx)); [assumption|].
      transitivity (- ((bx - ax) * (cy - ay) - (by_ - ay) * (cx - ax))); [|field; assumption].
      assert (s' * (dx - cx) == ax + t' * (bx - ax) - cx) as F1 by lra.
      assert (s' * (dy - cy) == ay + t' * (by_ - ay) - cy) as F2 by lra.
      transitivity ((s' * (dy - cy)) * (bx - ax) - (s' * (dx - cx)) * (by_ - ay)); [ring|]. rewrite F1, F2. ring. }
    rewrite <- E1, <- E2. tauto. }
  assert (0 < u * u) as Hu2 by (pose proof (sq_nonneg u); apply Qnot_le_lt; intros ?; apply Hu, sq0; lra).
  assert (0 < v * v) as Hv2 by (pose proof (sq_nonneg v); apply Qnot_le_lt; intros ?; apply Hv, sq0; lra).
  assert (0 < W * W) as HW2 by (pose proof (sq_nonneg W); apply Qnot_le_lt; intros ?; apply HW, sq0; lra).
  destruct (qle (o1 * o2) 0 && qle (o3 * o4) 0) eqn:Ei.
  - qb. assert (0 <= s ∧ s <= 1) as [S0 S1].
    { assert (u * u * (W * W) * (s * (s - 1)) <= 0) as Hs.
      { assert (o1 * o2 == u * u * (W * W) * (s * (s - 1))) as <- by (rewrite O1, O2, R1, Es; ring). assumption. }
      assert (s * (s - 1) <= 0) as Hs'. { apply pos_mul_le in Hs; [assumption|]. apply Qmult_lt_0_compat; assumption. }
      apply unit_interval. assumption. }
    assert (0 <= t ∧ t <= 1) as [T0 T1].
    { assert (v * v * (W * W) * (t * (t - 1)) <= 0) as Hs.
      { assert (o3 * o4 == v * v * (W * W) * (t * (t - 1))) as <- by (rewrite O3, O4, R2, Et; ring). assumption. }
      assert (t * (t - 1) <= 0) as Hs'. { apply pos_mul_le in Hs; [assumption|]. apply Qmult_lt_0_compat; assumption. }
      apply unit_interval. assumption. }
    assert (is_positive (Qabs o1) || is_positive (Qabs o2) || is_positive (Qabs o3) || is_positive (Qabs o4) = true) as ->.
    { destruct (is_positive (Qabs o1)) eqn:F1; [reflexivity|]. destruct (is_positive (Qabs o2)) eqn:F2; [reflexivity|]. exfalso.
      qb. apply HW. rewrite O1 in F1. rewrite O2 in F2. apply Qmult_integral in F1 as [?|F1]; [contradiction|].
      apply Qmult_integral in F2 as [?|F2]; [contradiction|]. lra. }
    left. destruct a as [ax ay], b as [bx by_], c as [cx cy], d as [dx dy].
    assert ((ax - bx) * (cy - dy) - (ay - by_) * (cx - dx) == W) as EW by (unfold W, u, v; cbn; ring).
    destruct (is_zero _) eqn:Ez; qb; [exfalso; apply HW; rewrite <- EW; assumption|].
    eexists. split; [reflexivity|]. split.
    + exists t. split; [assumption|]. split; [assumption|]. unfold eq2, at2, t, A3, area2, W, u, v in *. cbn in *. split; field; assumption.
    + exists s. split; [assumption|]. split; [assumption|]. unfold eq2, at2, s, A1, area2, W, u, v in *. cbn in *. split; field; assumption.
  - right. split; [reflexivity|]. intros p [P1 P2]. destruct (Hcomp p P1 P2) as (T0 & T1 & S0 & S1).
    qb. destruct Ei as [Ei|Ei]; qb.
    + assert (o1 * o2 == u * u * (W * W) * (s * (s - 1))) as E by (rewrite O1, O2, R1, Es; ring). rewrite E in Ei.
      apply (Qlt_not_le _ _ Ei). apply pos_mul_le; [apply Qmult_lt_0_compat; assumption|]. apply unit_interval. tauto.
    + assert (o3 * o4 == v * v * (W * W) * (t * (t - 1))) as E by (rewrite O3, O4, R2, Et; ring). rewrite E in Ei.
      apply (Qlt_not_le _ _ Ei). apply pos_mul_le; [apply Qmult_lt_0_compat; assumption|]. apply unit_interval. tauto.
Qed.

(** parallel but on different lines, neither vertical *)
Lemma seg2_parallel a b c d : ~ fst a == fst b → ~ fst c == fst d → parallel2 a b c d → ~ area2 a b c == 0 →
  segment_segment_intersection_2 a b c d = INone ∧ ∀ p, ¬ (on_seg2 a b p ∧ on_seg2 c d p).
Proof.
  intros Hab Hcd Hpar HA. unfold segment_segment_intersection_2.
  pose proof (orient_2_ok a b c) as O1. pose proof (orient_2_ok a b d) as O2.
  assert (area2 a b d == area2 a b c) as R1.
  { pose proof (area_rel a b c d). unfold parallel2 in Hpar. lra. }
  set (A := area2 a b c) in *. set (u := fst b - fst a) in *.
  assert (~ u == 0) as Hu by (intros ?; apply Hab; unfold u in *; lra).
  assert (0 < u * u) as Hu2 by (pose proof (sq_nonneg u); apply Qnot_le_lt; intros ?; apply Hu, sq0; lra).
  assert (0 < A * A) as HA2 by (pose proof (sq_nonneg A); apply Qnot_le_lt; intros ?; apply HA, sq0; lra).
  assert (qle (orient_2 a b c * orient_2 a b d) 0 = false) as ->.
  { apply qle_f. rewrite O1, O2, R1. setoid_replace (u * A * (u * A)) with ((u * u) * (A * A)) by ring.
    apply Qmult_lt_0_compat; assumption. }
  split; [reflexivity|]. intros p [(t & _ & _ & [Tx Ty]) (s & _ & _ & [Sx Sy])]. apply HA.
  destruct a as [ax ay], b as [bx by_], c as [cx cy], d as [dx dy], p as [px py].
  unfold A, area2, at2, parallel2 in *. cbn in *. clear -Tx Ty Sx Sy Hpar.
  assert (cx - ax == t * (bx - ax) - s * (dx - cx)) as F1 by lra.
  assert (cy - ay == t * (by_ - ay) - s * (dy - cy)) as F2 by lra.
  rewrite F1, F2. transitivity (- s * ((bx - ax) * (dy - cy) - (by_ - ay) * (dx - cx))); [ring|]. rewrite Hpar. ring.
Qed.

(** on the same line *)
Lemma collinear_2 a b c : ¬ eq2 a b → area2 a b c == 0 → ∃ s, eq2 c (at2 a b s).
Proof.
  destruct a as [ax ay], b as [bx by_], c as [cx cy]. unfold eq2, area2, at2. cbn. intros Hne HA.
  destruct (Qeq_dec ax bx) as [E|E].
  - assert (~ by_ - ay == 0) as Hy by (intros ?; apply Hne; split; lra).
    exists ((cy - ay) / (by_ - ay)). split; [|field; assumption].
    assert ((by_ - ay) * (cx - ax) == 0) as H0 by (setoid_replace (bx - ax) with 0 in HA by lra; lra).
    apply Qmult_integral in H0 as [H0|H0]; [contradiction|]. setoid_replace (bx - ax) with 0 by lra. lra.
  - assert (~ bx - ax == 0) as Hx by (intros ?; apply E; lra).
    exists ((cx - ax) / (bx - ax)). split; [field; assumption|].
    apply Qmult_inj_r with (z := bx - ax); [assumption|].
    transitivity (ay * (bx - ax) + (cx - ax) * (by_ - ay)); [lra|field; assumption].
Qed.
Lemma area_at a b s t u : area2 (at2 a b s) (at2 a b t) (at2 a b u) == 0.
Proof. destruct a, b. unfold area2, at2. cbn. ring. Qed.
Lemma area_ext a b c a' b' c' : eq2 a a' → eq2 b b' → eq2 c c' → area2 a b c == area2 a' b' c'.
Proof. unfold eq2, area2. intros [-> ->] [-> ->] [-> ->]. reflexivity. Qed.
Lemma at2_0 a b : eq2 a (at2 a b 0).
Proof. destruct a, b. unfold eq2, at2. cbn. split; ring. Qed.
Lemma at2_1 a b : eq2 b (at2 a b 1).
Proof. destruct a, b. unfold eq2, at2. cbn. split; ring. Qed.

Lemma seg2_collinear a b c d : ¬ eq2 a b → area2 a b c == 0 → area2 a b d == 0 →
  ∃ p q, segment_segment_intersection_2 a b c d = IOverlap p q ∧
   ((∃ r, on_seg2 a b r ∧ on_seg2 c d r) → ∀ r, on_seg2 p q r ↔ on_seg2 a b r ∧ on_seg2 c d r).
Proof.
  intros Hne H1 H2. destruct (collinear_2 a b c Hne H1) as [s Hs]. destruct (collinear_2 a b d Hne H2) as [s' Hs'].
  assert (area2 c d a == 0) as H3.
  { rewrite (area_ext c d a (at2 a b s) (at2 a b s') (at2 a b 0)); [apply area_at|assumption|assumption|apply at2_0]. }
  assert (area2 c d b == 0) as H4.
  { rewrite (area_ext c d b (at2 a b s) (at2 a b s') (at2 a b 1)); [apply area_at|assumption|assumption|apply at2_1]. }
  unfold segment_segment_intersection_2.
  assert (∀ x y z, area2 x y z == 0 → orient_2 x y z == 0) as Ho by (intros x y z H; rewrite orient_2_ok, H; ring).
  pose proof (Ho _ _ _ H1) as O1. pose proof (Ho _ _ _ H2) as O2. pose proof (Ho _ _ _ H3) as O3. pose proof (Ho _ _ _ H4) as O4.
  assert (qle (orient_2 a b c * orient_2 a b d) 0 = true) as -> by (apply qle_t; rewrite O1; lra).
  assert (qle (orient_2 c d a * orient_2 c d b) 0 = true) as -> by (apply qle_t; rewrite O3; lra). cbn [andb].
  assert (∀ x, x == 0 → is_positive (Qabs x) = false) as Hz by (intros; apply absnz_f; assumption).
  rewrite (Hz _ O1), (Hz _ O2), (Hz _ O3), (Hz _ O4). cbn [orb].
  assert (are_collinear (l2 a) (l2 b) (l2 c) = true) as ->.
  { apply are_collinear_ne; [reflexivity..| |].
    - intros H. apply Hne. inversion H as [|? ? ? ? E1 H']; subst. inversion H' as [|? ? ? ? E2 _]; subst. split; assumption.
    - exists s. destruct a, b, c. destruct Hs as [? ?]. repeat constructor; assumption. }
  destruct (overlap_2 a b c d s s' Hne Hs Hs') as (x0 & p & q & x3 & E & Hov). rewrite E. exists p, q. split; [reflexivity|assumption].
Qed.

(** *** edge_edge_intersection_2 *)
Lemma edge_edge_on_first q1 q2 q3 q4 p : edge_edge_intersection_2 q1 q2 q3 q4 = Some p → on_seg2 q1 q2 p.
Proof.
  unfold edge_edge_intersection_2. destruct (is_zero _); [discriminate|].
  destruct (qle 0 _ && qle _ 1) eqn:E; [|discriminate]. intros H. injection H as <-. qb.
  eexists. split; [eassumption|]. split; [assumption|]. split; reflexivity.
Qed.

(** *** rays *)

Lemma point_u_2 a b p : 
  (∀ u, point_u_on_segment (l2 a) (l2 b) (l2 p) = Some u → 0 <= u ∧ u <= 1 ∧ eq2 p (at2 a b u)) ∧
  (point_u_on_segment (l2 a) (l2 b) (l2 p) = None → ¬ on_seg2 a b p).
Proof.
  assert (∀ x y, peq (l2 x) (l2 y) ↔ eq2 x y) as Hpe.
  { intros x y. split.
    - intros H. inversion H as [|? ? ? ? E1 H']; subst. inversion H' as [|? ? ? ? E2 _]; subst. split; assumption.
    - intros [? ?]. repeat constructor; assumption. }
  assert (∀ t, lerp (l2 a) (l2 b) t = l2 (at2 a b t)) as Hl by reflexivity.
  destruct (peq_dec (l2 a) (l2 b)) as [He|Hne]; [reflexivity| |].
  - destruct (point_u_deg (l2 a) (l2 b) (l2 p)) as [H1 H2]; [reflexivity..|assumption|].
    destruct (peq_dec (l2 p) (l2 a)) as [Hp|Hp]; [reflexivity| |].
    + rewrite H1 by assumption. split; [|discriminate]. intros u Hu. injection Hu as <-.
      split; [lra|]. split; [lra|]. apply Hpe in Hp. eapply eq2_trans; [exact Hp|apply at2_0].
    + rewrite H2 by assumption. split; [discriminate|]. intros _ (t & _ & _ & Ht). apply Hp, Hpe.
      apply Hpe in He. eapply eq2_trans; [exact Ht|]. clear -He. destruct a, b, He as [H1 H2]. unfold eq2, at2. cbn in *.
      rewrite H1, H2. split; ring.
  - destruct (point_u_ok (l2 a) (l2 b) (l2 p)) as [H1 H2]; [reflexivity..|assumption|]. split.
    + intros u Hu. destruct (H1 u Hu) as (? & ? & Hq). rewrite Hl in Hq. apply Hpe in Hq. tauto.
    + intros Hn (t & ? & ? & Ht). apply H2; [assumption|]. exists t. rewrite Hl, Hpe. tauto.
Qed.

Lemma ray_segment_ok o d a b : ¬ eq2 d (0, 0) →
  (∀ t u, ray_segment_intersection_2d o d a b = Some (t, u) →
     0 <= t ∧ 0 <= u ∧ u <= 1 ∧ eq2 (ray2 o d t) (at2 a b u) ∧
     ∀ t', 0 <= t' → on_seg2 a b (ray2 o d t') → t <= t') ∧
  (ray_segment_intersection_2d o d a b = None → ∀ t', 0 <= t' → ¬ on_seg2 a b (ray2 o d t')).
Proof.
  intros Hd. unfold ray_segment_intersection_2d. destruct d as [rx ry].
  assert (~ rx * rx + ry * ry == 0) as Hrr.
  { intros H. apply Hd. pose proof (sq_nonneg rx). pose proof (sq_nonneg ry). split; cbn; apply sq0; lra. }
  destruct (is_zero _) eqn:Ez; qb; [contradiction|]. clear Ez.
  unfold sub2. destruct o as [ox oy], a as [ax ay], b as [bx by_]. cbn [fst snd].
  set (R := rx * (by_ - ay) - ry * (bx - ax)).
  destruct (is_zero R) eqn:ER; qb.
  - (* parallel *)
    set (col := is_zero ((ax - ox) * ry - (ay - oy) * rx) && _ && _).
    assert (col = true ↔ (ax - ox) * ry == (ay - oy) * rx) as Hcol.
    { unfold col. rewrite !andb_true_iff, is_zero_t.
      assert (¬ peq [ox; oy] [ox + rx; oy + ry]) as Hne.
      { intros H. apply Hd. inversion H as [|? ? ? ? E1 H']; subst. inversion H' as [|? ? ? ? E2 _]; subst. split; cbn; lra. }
      unfold l2. cbn [fst snd]. rewrite !are_collinear_ne by (reflexivity || assumption).
      split; [intros [[? _] _]; lra|]. intros H.
      assert (∀ x y, (x - ox) * ry == (y - oy) * rx → on_line [ox; oy] [ox + rx; oy + ry] [x; y]) as Hon.
      { intros x y Hxy. exists (((x - ox) * rx + (y - oy) * ry) / (rx * rx + ry * ry)).
        constructor; [|constructor; [|constructor]]; cbv beta.
        - apply Qmult_inj_r with (z := rx * rx + ry * ry); [assumption|].
          transitivity (ox * (rx * rx + ry * ry) + ((x - ox) * rx + (y - oy) * ry) * rx); [|field; assumption].
          transitivity (ox * (rx * rx + ry * ry) + (x - ox) * rx * rx + ((x - ox) * ry) * ry); [ring|]. rewrite Hxy. ring.
        - apply Qmult_inj_r with (z := rx * rx + ry * ry); [assumption|].
          transitivity (oy * (rx * rx + ry * ry) + ((x - ox) * rx + (y - oy) * ry) * ry); [|field; assumption].
          transitivity (oy * (rx * rx + ry * ry) + (y - oy) * ry * ry + ((y - oy) * rx) * rx); [ring|]. rewrite <- Hxy. ring. }
      split; [split; [lra|]|]; apply Hon; [assumption|]. unfold R in ER. clear -H ER. lra. }
    destruct col eqn:Ec; cbn [negb].
    + assert ((ax - ox) * ry == (ay - oy) * rx) as Hc by (apply Hcol; reflexivity). clear Hcol.
      set (rr := rx * rx + ry * ry) in *. set (t0 := ((ax - ox) * rx + (ay - oy) * ry) / rr).
      set (k := ((bx - ax) * rx + (by_ - ay) * ry) / rr).
      assert (ax == ox + t0 * rx ∧ ay == oy + t0 * ry) as [Ax Ay].
      { split; (apply Qmult_inj_r with (z := rr); [assumption|]).
        - transitivity (ox * rr + ((ax - ox) * rx + (ay - oy) * ry) * rx); [|unfold t0; field; assumption].
          unfold rr. transitivity (ox * (rx * rx + ry * ry) + (ax - ox) * rx * rx + ((ax - ox) * ry) * ry); [ring|]. rewrite Hc. ring.
        - transitivity (oy * rr + ((ax - ox) * rx + (ay - oy) * ry) * ry); [|unfold t0; field; assumption].
          unfold rr. transitivity (oy * (rx * rx + ry * ry) + (ay - oy) * ry * ry + ((ay - oy) * rx) * rx); [ring|]. rewrite <- Hc. ring. }
      assert (bx - ax == k * rx ∧ by_ - ay == k * ry) as [Bx By].
      { assert ((bx - ax) * ry == (by_ - ay) * rx) as Hc' by (unfold R in ER; lra).
        split; (apply Qmult_inj_r with (z := rr); [assumption|]).
        - transitivity (((bx - ax) * rx + (by_ - ay) * ry) * rx); [|unfold k; field; assumption].
          unfold rr. transitivity ((bx - ax) * rx * rx + ((bx - ax) * ry) * ry); [ring|]. rewrite Hc'. ring.
        - transitivity (((bx - ax) * rx + (by_ - ay) * ry) * ry); [|unfold k; field; assumption].
          unfold rr. transitivity ((by_ - ay) * ry * ry + ((by_ - ay) * rx) * rx); [ring|]. rewrite <- Hc'. ring. }
      assert (∀ t', on_seg2 (ax, ay) (bx, by_) (ray2 (ox, oy) (rx, ry) t') → ∃ u, 0 <= u ∧ u <= 1 ∧ t' == t0 + u * k) as Hpar.
      { intros t' (u & U0 & U1 & [Ux Uy]). exists u. split; [assumption|]. split; [assumption|].
        unfold ray2, at2 in *. cbn in *. rewrite Bx in Ux. rewrite By in Uy.
        assert ((t' - t0 - u * k) * rx == 0) as F1 by lra. assert ((t' - t0 - u * k) * ry == 0) as F2 by lra.
        apply Qmult_integral in F1 as [F1|F1]; [lra|]. apply Qmult_integral in F2 as [F2|F2]; [lra|].
        exfalso. apply Hrr. unfold rr. rewrite F1, F2. ring. }
      assert (∀ t' u, t' == t0 + u * k → eq2 (ray2 (ox, oy) (rx, ry) t') (at2 (ax, ay) (bx, by_) u)) as Hpar'.
      { intros t' u E. unfold eq2, ray2, at2. cbn. rewrite Bx, By, E. split; lra. }
      set (tm := if qle t0 (t0 + k) then (t0, t0 + k) else (t0 + k, t0)).
      assert (∃ tmin tmax, tm = (tmin, tmax) ∧ tmin <= tmax ∧ (∀ t', btw t' t0 (t0 + k) ↔ tmin <= t' ∧ t' <= tmax)) as (tmin & tmax & -> & Hle & Hmm).
      { unfold tm. destruct (qle t0 (t0 + k)) eqn:Eq; qb; eexists _, _; (split; [reflexivity|]); (split; [lra|]); intros; unfold btw; lra. }
      assert (∀ t', (∃ u, 0 <= u ∧ u <= 1 ∧ t' == t0 + u * k) ↔ btw t' t0 (t0 + k)) as Hb.
      { intros t'. split.
        - intros (u & U0 & U1 & Eu). unfold btw. clear -U0 U1 Eu. destruct (Qlt_le_dec k 0); [right|left]; split; nra.
        - intros Hb. destruct (Qeq_dec k 0) as [Ek|Ek].
          + exists 0. unfold btw in Hb. split; [lra|]. split; [lra|]. lra.
          + exists ((t' - t0) / k). assert (t' - t0 == (t' - t0) / k * k) as Hk by (field; assumption).
            set (z := (t' - t0) / k) in *. clearbody z. unfold btw in Hb.
            destruct (Qlt_le_dec k 0); [|assert (0 < k) by (apply Qnot_le_lt; intros ?; apply Ek; lra)];
              (split; [nra|split; [nra|lra]]). }
      destruct (qlt tmax 0) eqn:Etm; qb.
      * split; [intros; discriminate|]. intros _ t' T0 Hon. apply Hpar, Hb, Hmm in Hon. lra.
      * set (th := if qle 0 tmin then tmin else 0).
        assert (0 <= th ∧ tmin <= th ∧ th <= tmax ∧ ∀ t', 0 <= t' → tmin <= t' → th <= t') as (T0 & T1 & T2 & Tm).
        { unfold th. destruct (qle 0 tmin) eqn:E0; qb; (split; [lra|]); (split; [lra|]); (split; [lra|]); intros; lra. }
        destruct (point_u_2 (ax, ay) (bx, by_) (ox + rx * th, oy + ry * th)) as [P1 P2].
        unfold l2 in *. cbn [fst snd] in *.
        destruct (point_u_on_segment _ _ _) as [u|] eqn:Eu.
        -- split; [|discriminate]. intros t u' H. injection H as <- <-. destruct (P1 u eq_refl) as (U0 & U1 & [Ux Uy]).
           split; [assumption|]. split; [assumption|]. split; [assumption|]. split.
           { unfold eq2, ray2, at2 in *. cbn in *. lra. }
           intros t' T' Hon. apply Tm; [assumption|]. apply Hpar, Hb, Hmm in Hon. tauto.
        -- exfalso. apply P2; [reflexivity|].
           assert (btw th t0 (t0 + k)) as Hth by (apply Hmm; tauto). apply Hb in Hth as (u & U0 & U1 & Eu').
           exists u. split; [assumption|]. split; [assumption|]. destruct (Hpar' th u Eu') as [X Y].
           unfold eq2, ray2, at2 in *. cbn in *. lra.
    + split; [intros; discriminate|]. intros _ t' T0 (u & _ & _ & [Ux Uy]).
      enough (false = true) by discriminate. apply Hcol. unfold ray2, at2 in *. cbn in *.
      assert (ax - ox == t' * rx - u * (bx - ax)) as F1 by lra. assert (ay - oy == t' * ry - u * (by_ - ay)) as F2 by lra.
      rewrite F1, F2. unfold R in ER.
      transitivity (t' * rx * ry - u * ((bx - ax) * ry)); [ring|]. setoid_replace ((bx - ax) * ry) with ((by_ - ay) * rx) by lra. ring.
  - (* transversal *)
    set (t := ((ax - ox) * (by_ - ay) - (ay - oy) * (bx - ax)) / R). set (u := ((ax - ox) * ry - (ay - oy) * rx) / R).
    assert (∀ t' u', eq2 (ray2 (ox, oy) (rx, ry) t') (at2 (ax, ay) (bx, by_) u') → t' == t ∧ u' == u) as Huniq.
    { intros t' u' [Ux Uy]. unfold ray2, at2 in *. cbn in *.
      assert (ax - ox == t' * rx - u' * (bx - ax)) as F1 by lra. assert (ay - oy == t' * ry - u' * (by_ - ay)) as F2 by lra.
      unfold t, u. rewrite F1, F2. split; unfold R; field; exact ER. }
    assert (eq2 (ray2 (ox, oy) (rx, ry) t) (at2 (ax, ay) (bx, by_) u)) as Hsol.
    { unfold eq2, ray2, at2, t, u, R. cbn. split; field; exact ER. }
    destruct (qlt t 0 || qlt u 0 || qlt 1 u) eqn:E.
    + split; [intros; discriminate|]. intros _ t' T0 (u' & U0 & U1 & Hu). destruct (Huniq t' u' Hu) as [E1 E2].
      qb. destruct E as [E|E]; qb; [destruct E; qb|]; lra.
    + qb. split; [|intros; discriminate]. intros t1 u1 Hsome. injection Hsome as <- <-.
      split; [assumption|]. split; [assumption|]. split; [assumption|]. split; [assumption|].
      intros t' T0 (u' & U0 & U1 & Hu). destruct (Huniq t' u' Hu) as [E1 _]. lra.
Qed.
