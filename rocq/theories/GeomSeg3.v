(** Segments and rays in space. *)
From Verif Require Export GeomSeg.

Lemma eq3_refl p : eq3 p p.
Proof. destruct p as [[? ?] ?]. unfold eq3. repeat split; reflexivity. Qed.
Lemma eq3_sym p q : eq3 p q → eq3 q p.
Proof. destruct p as [[? ?] ?], q as [[? ?] ?]. unfold eq3. intros (? & ? & ?). repeat split; symmetry; assumption. Qed.
Lemma eq3_trans p q r : eq3 p q → eq3 q r → eq3 p r.
Proof.
  destruct p as [[? ?] ?], q as [[? ?] ?], r as [[? ?] ?]. unfold eq3. intros (? & ? & ?) (? & ? & ?).
  repeat split; etransitivity; eassumption.
Qed.
Lemma at3_0 a b : eq3 a (at3 a b 0).
Proof. destruct a as [[? ?] ?], b as [[? ?] ?]. unfold eq3, at3. repeat split; ring. Qed.
Lemma at3_1 a b : eq3 b (at3 a b 1).
Proof. destruct a as [[? ?] ?], b as [[? ?] ?]. unfold eq3, at3. repeat split; ring. Qed.
Lemma at3_ext a b s t : s == t → eq3 (at3 a b s) (at3 a b t).
Proof. destruct a as [[? ?] ?], b as [[? ?] ?]. unfold eq3, at3. intros ->. repeat split; reflexivity. Qed.
Lemma at3_swap a b s : eq3 (at3 a b s) (at3 b a (1 - s)).
Proof. destruct a as [[? ?] ?], b as [[? ?] ?]. unfold eq3, at3. repeat split; ring. Qed.
Lemma peq_l3 p q : peq (l3 p) (l3 q) ↔ eq3 p q.
Proof.
  destruct p as [[? ?] ?], q as [[? ?] ?]. unfold eq3, l3. cbn. split.
  - intros H. apply peq_cons_inv in H as [? H]. apply peq_cons_inv in H as [? H]. apply peq_cons_inv in H as [? _]. tauto.
  - intros (? & ? & ?). repeat constructor; assumption.
Qed.
Lemma l3_at a b t : lerp (l3 a) (l3 b) t = l3 (at3 a b t).
Proof. destruct a as [[? ?] ?], b as [[? ?] ?]. reflexivity. Qed.

Lemma norm3_pos a b : ¬ eq3 a b → 0 < dot3 (sub3 b a) (sub3 b a).
Proof.
  destruct a as [[x y] z], b as [[u v] w]. unfold eq3, dot3, sub3. intros H.
  pose proof (sq_nonneg (u - x)). pose proof (sq_nonneg (v - y)). pose proof (sq_nonneg (w - z)).
  apply Qnot_le_lt. intros ?. apply H.
  assert (u - x == 0) by (apply sq0; lra). assert (v - y == 0) by (apply sq0; lra). assert (w - z == 0) by (apply sq0; lra).
  repeat split; lra.
Qed.

(** the parameter of a point of the line *)
Definition key3 (a b p : p3) : Q := dot3 (sub3 p a) (sub3 b a) / dot3 (sub3 b a) (sub3 b a).
Lemma key3_at a b p t : ¬ eq3 a b → eq3 p (at3 a b t) → key3 a b p == t.
Proof.
  intros Hne. pose proof (norm3_pos a b Hne) as Hn. unfold key3. destruct a as [[x y] z], b as [[u v] w], p as [[px py] pz].
  unfold eq3, at3, dot3, sub3 in *. intros (Ex & Ey & Ez). rewrite Ex, Ey, Ez. field. lra.
Qed.
Lemma at3_inj a b p s t : ¬ eq3 a b → eq3 p (at3 a b s) → eq3 p (at3 a b t) → s == t.
Proof. intros Hne H1 H2. rewrite <- (key3_at a b p s), <- (key3_at a b p t) by assumption. reflexivity. Qed.

Lemma at3_sub a b p q s s' t : eq3 p (at3 a b s) → eq3 q (at3 a b s') → eq3 (at3 p q t) (at3 a b (s + t * (s' - s))).
Proof.
  destruct a as [[ax ay] az], b as [[bx by_] bz], p as [[px py] pz], q as [[qx qy] qz]. unfold eq3, at3.
  intros (-> & -> & ->) (-> & -> & ->). repeat split; ring.
Qed.
Lemma seg_param3 a b p q r s s' : eq3 p (at3 a b s) → eq3 q (at3 a b s') →
  on_seg3 p q r ↔ ∃ t, btw t s s' ∧ eq3 r (at3 a b t).
Proof.
  intros Hp Hq. split.
  - intros (t & H0 & H1 & Hr). exists (s + t * (s' - s)). split.
    + unfold btw. clear -H0 H1. destruct (Qlt_le_dec s s'); [left|right]; split; nra.
    + eapply eq3_trans; [exact Hr|]. apply at3_sub; assumption.
  - intros (t & Ht & Hr). destruct (Qeq_dec s s') as [E|E].
    + exists 0. split; [lra|]. split; [lra|]. eapply eq3_trans; [exact Hr|].
      eapply eq3_trans; [|apply eq3_sym, at3_sub; eassumption]. apply at3_ext. unfold btw in Ht. lra.
    + assert (~ s' - s == 0) as Hne by (intros ?; apply E; lra).
      exists ((t - s) / (s' - s)).
      assert (0 <= (t - s) / (s' - s) ∧ (t - s) / (s' - s) <= 1) as [? ?].
      { set (k := (t - s) / (s' - s)). assert (t - s == k * (s' - s)) as Hk by (unfold k; field; assumption). clearbody k. unfold btw in Ht.
        clear -Ht Hk E. destruct Ht; [assert (s < s') by (apply Qnot_le_lt; intros ?; apply E; lra)|assert (s' < s) by (apply Qnot_le_lt; intros ?; apply E; lra)]; split; nra. }
      split; [assumption|]. split; [assumption|]. eapply eq3_trans; [exact Hr|].
      eapply eq3_trans; [|apply eq3_sym, at3_sub; eassumption]. apply at3_ext. field. assumption.
Qed.

Lemma lex3_t p q : lex3 p q = true ↔
  let '(x, y, z) := p in let '(u, v, w) := q in x < u ∨ (x == u ∧ (y < v ∨ (y == v ∧ z < w))).
Proof.
  destruct p as [[? ?] ?], q as [[? ?] ?]. unfold lex3. rewrite !orb_true_iff, !andb_true_iff, orb_true_iff, andb_true_iff, !qlt_t, !qeqb_t. reflexivity.
Qed.
Lemma lex3_ab a b : ¬ eq3 a b → lex3 a b = false → lex3 b a = true.
Proof.
  intros H E. assert (lex3 a b ≠ true) as E' by congruence. rewrite lex3_t in *. clear E.
  destruct a as [[x y] z], b as [[u v] w]. unfold eq3 in H.
  destruct (Qlt_le_dec x u); [exfalso; tauto|]. destruct (Qeq_dec x u) as [Ex|Ex]; [|left; apply Qnot_le_lt; intros ?; apply Ex; lra].
  right. split; [lra|]. destruct (Qlt_le_dec y v); [exfalso; tauto|]. destruct (Qeq_dec y v) as [Ey|Ey]; [|left; apply Qnot_le_lt; intros ?; apply Ey; lra].
  right. split; [lra|]. apply Qnot_le_lt. intros ?. destruct (Qlt_le_dec z w); [tauto|]. apply H. repeat split; lra.
Qed.
Lemma step_lt x d s t : 0 < d → x + s * d < x + t * d ↔ s < t.
Proof. intros H. split; intros; nra. Qed.
Lemma step_eq x d s t : 0 < d → x + s * d == x + t * d → s == t.
Proof. intros H E. assert ((s - t) * d == 0) as E0 by lra. apply Qmult_integral in E0 as [E0|E0]; lra. Qed.
Lemma lex3_mono a b p q s t : lex3 a b = true → eq3 p (at3 a b s) → eq3 q (at3 a b t) → lex3 p q = qlt s t.
Proof.
  intros H Hp Hq. apply eq_true_iff_eq. rewrite lex3_t, qlt_t in *.
  destruct a as [[ax ay] az], b as [[bx by_] bz], p as [[px py] pz], q as [[qx qy] qz]. unfold eq3, at3 in *.
  destruct Hp as (-> & -> & ->), Hq as (-> & -> & ->).
  assert (∀ x y, x == y → y - x == 0) as Hz by (intros; lra).
  destruct H as [H|[Ex [H|[Ey H]]]].
  - assert (0 < bx - ax) as Hd by lra. rewrite !(step_lt ax) by assumption. split; [|tauto]. intros [?|[E E']]; [assumption|].
    apply step_eq in E; [|assumption]. exfalso. rewrite E in E'. lra.
  - assert (0 < by_ - ay) as Hd by lra. rewrite (Hz _ _ Ex). rewrite !(step_lt ay) by assumption. split.
    + intros [?|[_ [?|[E E']]]]; [lra|assumption|]. apply step_eq in E; [|assumption]. exfalso. rewrite E in E'. lra.
    + intros ?. right. split; [ring|]. tauto.
  - assert (0 < bz - az) as Hd by lra. rewrite (Hz _ _ Ex), (Hz _ _ Ey). rewrite !(step_lt az) by assumption. split.
    + intros [?|[_ [?|[E E']]]]; [lra|lra|]. assumption.
    + intros ?. right. split; [ring|]. right. split; [ring|assumption].
Qed.

Lemma overlap_3 a b c d s s' : ¬ eq3 a b → eq3 c (at3 a b s) → eq3 d (at3 a b s') →
  ∃ x0 p q x3, isort lex3 [a; b; c; d] = [x0; p; q; x3] ∧
   ((∃ r, on_seg3 a b r ∧ on_seg3 c d r) → ∀ r, on_seg3 p q r ↔ on_seg3 a b r ∧ on_seg3 c d r).
Proof.
  intros Hne Hc Hd.
  assert (∀ x, List.In x [a; b; c; d] → eq3 x (at3 a b (key3 a b x))) as Hk.
  { assert (∀ x t, eq3 x (at3 a b t) → eq3 x (at3 a b (key3 a b x))) as Hkey.
    { intros x t Hx. eapply eq3_trans; [exact Hx|]. apply at3_ext. symmetry. apply key3_at; assumption. }
    pose proof (at3_0 a b). pose proof (at3_1 a b).
    intros x [<-|[<-|[<-|[<-|[]]]]]; eapply Hkey; eassumption. }
  apply (overlap eq3 (at3 a b) on_seg3 lex3 (key3 a b)).
  - intros r t t'. apply at3_inj. assumption.
  - intros x y r Hx Hy. apply seg_param3; auto.
  - destruct (lex3 a b) eqn:El; [left|right]; intros x y Hx Hy.
    + apply (lex3_mono a b); auto.
    + apply lex3_ab in El; [|assumption].
      rewrite (lex3_mono b a x y (1 - key3 a b x) (1 - key3 a b y)); [|assumption|eapply eq3_trans; [apply Hk; assumption|apply at3_swap]..].
      apply eq_true_iff_eq. rewrite !qlt_t. lra.
Qed.

(** Lagrange's identity: the denominator vanishes exactly for parallel directions *)
Lemma lagrange q1 q2 r1 r2 :
  let d1 := sub3 q2 q1 in let e1 := sub3 r2 r1 in
  dot3 d1 d1 * dot3 e1 e1 - dot3 d1 e1 * dot3 d1 e1 == 0 ↔ parallel3 q1 q2 r1 r2.
Proof.
  destruct q1 as [[a1 a2] a3], q2 as [[b1 b2] b3], r1 as [[c1 c2] c3], r2 as [[d1 d2] d3].
  unfold parallel3, dot3, sub3. cbv zeta.
  set (x1 := b1 - a1). set (y1 := b2 - a2). set (z1 := b3 - a3). set (x2 := d1 - c1). set (y2 := d2 - c2). set (z2 := d3 - c3).
  clearbody x1 y1 z1 x2 y2 z2.
  setoid_replace ((x1 * x1 + y1 * y1 + z1 * z1) * (x2 * x2 + y2 * y2 + z2 * z2) - (x1 * x2 + y1 * y2 + z1 * z2) * (x1 * x2 + y1 * y2 + z1 * z2))
    with ((y1 * z2 - z1 * y2) * (y1 * z2 - z1 * y2) + (z1 * x2 - x1 * z2) * (z1 * x2 - x1 * z2) + (x1 * y2 - y1 * x2) * (x1 * y2 - y1 * x2)) by ring.
  pose proof (sq_nonneg (y1 * z2 - z1 * y2)). pose proof (sq_nonneg (z1 * x2 - x1 * z2)). pose proof (sq_nonneg (x1 * y2 - y1 * x2)).
  split.
  - intros E. assert (y1 * z2 - z1 * y2 == 0) by (apply sq0; lra). assert (z1 * x2 - x1 * z2 == 0) by (apply sq0; lra).
    assert (x1 * y2 - y1 * x2 == 0) by (apply sq0; lra). repeat split; lra.
  - intros (E1 & E2 & E3). rewrite E1, E2, E3. ring.
Qed.

Lemma clamp01_range s : 0 <= clamp01 s ∧ clamp01 s <= 1.
Proof. unfold clamp01. destruct (qlt s 0) eqn:E; qb; [lra|]. destruct (qlt 1 s) eqn:E'; qb; lra. Qed.
Lemma clamp01_id s t : s == t → 0 <= t → t <= 1 → clamp01 s == t.
Proof. unfold clamp01. intros. destruct (qlt s 0) eqn:E; qb; [lra|]. destruct (qlt 1 s) eqn:E'; qb; lra. Qed.
Lemma along3_at a b s : eq3 (along3 a (sub3 b a) s) (at3 a b s).
Proof. destruct a as [[? ?] ?], b as [[? ?] ?]. unfold eq3, along3, sub3, at3. repeat split; ring. Qed.
Lemma along3_ext a d s t : s == t → eq3 (along3 a d s) (along3 a d t).
Proof. destruct a as [[? ?] ?], d as [[? ?] ?]. unfold eq3, along3. intros ->. repeat split; reflexivity. Qed.
Lemma dist3_zero p q : qle (dot3 (sub3 p q) (sub3 p q)) 0 = true ↔ eq3 p q.
Proof.
  rewrite qle_t. destruct p as [[x y] z], q as [[u v] w]. unfold eq3, dot3, sub3.
  pose proof (sq_nonneg (x - u)). pose proof (sq_nonneg (y - v)). pose proof (sq_nonneg (z - w)). split.
  - intros E. assert (x - u == 0) by (apply sq0; lra). assert (y - v == 0) by (apply sq0; lra). assert (z - w == 0) by (apply sq0; lra).
    repeat split; lra.
  - intros (E1 & E2 & E3). rewrite E1, E2, E3. lra.
Qed.

(** two lines that are not parallel *)
Lemma seg3_proper q1 q2 r1 r2 : ¬ parallel3 q1 q2 r1 r2 →
  (∀ p, segment_segment_intersection_3 q1 q2 r1 r2 = IPoint p →
     on_seg3 q1 q2 p ∧ on_seg3 r1 r2 p ∧ ∀ p', on_seg3 q1 q2 p' → on_seg3 r1 r2 p' → eq3 p' p) ∧
  (segment_segment_intersection_3 q1 q2 r1 r2 = INone → ∀ p, ¬ (on_seg3 q1 q2 p ∧ on_seg3 r1 r2 p)) ∧
  (∀ p q, segment_segment_intersection_3 q1 q2 r1 r2 ≠ IOverlap p q).
Proof.
  intros Hpar. rewrite <- lagrange in Hpar. cbv zeta in Hpar. unfold segment_segment_intersection_3. cbv zeta.
  set (A := dot3 (sub3 q2 q1) (sub3 q2 q1)) in *. set (B := dot3 (sub3 q2 q1) (sub3 r2 r1)) in *. set (C := dot3 (sub3 r2 r1) (sub3 r2 r1)) in *.
  set (D := dot3 (sub3 q2 q1) (sub3 q1 r1)). set (E := dot3 (sub3 r2 r1) (sub3 q1 r1)).
  set (s := (B * E - C * D) / (A * C - B * B)). set (t := (A * E - B * D) / (A * C - B * B)).
  assert (∀ p s' t', eq3 p (at3 q1 q2 s') → eq3 p (at3 r1 r2 t') → s == s' ∧ t == t') as Hsol.
  { intros p s' t' Hs Ht. apply eq3_sym in Hs. pose proof (eq3_trans _ _ _ Hs Ht) as H. clear Hs Ht p.
    assert (D == t' * B - s' * A ∧ E == t' * C - s' * B) as [HD HE].
    { destruct q1 as [[a1 a2] a3], q2 as [[b1 b2] b3], r1 as [[c1 c2] c3], r2 as [[d1 d2] d3].
      unfold D, E, A, B, C, eq3, at3, dot3, sub3 in *. destruct H as (Hx & Hy & Hz).
      assert (a1 - c1 == t' * (d1 - c1) - s' * (b1 - a1)) as -> by lra. assert (a2 - c2 == t' * (d2 - c2) - s' * (b2 - a2)) as -> by lra.
      assert (a3 - c3 == t' * (d3 - c3) - s' * (b3 - a3)) as -> by lra. split; ring. }
    unfold s, t. rewrite HD, HE. split; field; assumption. }
  destruct (is_positive (Qabs (A * C - B * B))) eqn:Ep; qb; [|contradiction].
  set (cp := along3 q1 (sub3 q2 q1) (clamp01 s)). set (cq := along3 r1 (sub3 r2 r1) (clamp01 t)).
  assert (eq3 cp (at3 q1 q2 (clamp01 s))) as Hcp by apply along3_at. assert (eq3 cq (at3 r1 r2 (clamp01 t))) as Hcq by apply along3_at.
  pose proof (clamp01_range s) as Rs. pose proof (clamp01_range t) as Rt.
  assert (∀ p, on_seg3 q1 q2 p → on_seg3 r1 r2 p → eq3 p cp ∧ eq3 p cq) as Hall.
  { intros p (s' & S0 & S1 & Hs) (t' & T0 & T1 & Ht). destruct (Hsol p s' t' Hs Ht) as [Es Et]. split.
    - eapply eq3_trans; [exact Hs|]. eapply eq3_trans; [|apply eq3_sym; exact Hcp]. apply at3_ext. symmetry. apply clamp01_id; assumption.
    - eapply eq3_trans; [exact Ht|]. eapply eq3_trans; [|apply eq3_sym; exact Hcq]. apply at3_ext. symmetry. apply clamp01_id; assumption. }
  destruct (qle (dot3 (sub3 cp cq) (sub3 cp cq)) 0) eqn:Ed.
  - apply dist3_zero in Ed. split; [|split; [discriminate|intros ? ? ?; discriminate]]. intros p Hp. injection Hp as <-.
    split; [exists (clamp01 s); tauto|]. split; [exists (clamp01 t); split; [tauto|]; split; [tauto|]; eapply eq3_trans; eassumption|].
    intros p' H1 H2. apply Hall; assumption.
  - split; [discriminate|]. split; [|intros ? ? ?; discriminate]. intros _ p [H1 H2]. destruct (Hall p H1 H2) as [Ha Hb].
    apply eq3_sym in Ha. pose proof (eq3_trans _ _ _ Ha Hb) as Hab. apply dist3_zero in Hab. congruence.
Qed.

Lemma on_line_3 a b c : ¬ eq3 a b → are_collinear (l3 a) (l3 b) (l3 c) = true ↔ ∃ s, eq3 c (at3 a b s).
Proof.
  intros Hne. rewrite are_collinear_ne.
  - unfold on_line. split; intros [s Hs]; exists s; [rewrite l3_at in Hs|rewrite l3_at]; apply peq_l3; assumption.
  - destruct a as [[? ?] ?], b as [[? ?] ?]. reflexivity.
  - destruct a as [[? ?] ?], c as [[? ?] ?]. reflexivity.
  - rewrite peq_l3. assumption.
Qed.

(** parallel directions, different lines *)
Lemma parallel3_multiple q1 q2 r1 r2 : ¬ eq3 q1 q2 → parallel3 q1 q2 r1 r2 →
  ∃ k, ∀ t, eq3 (at3 r1 r2 t) (along3 r1 (sub3 q2 q1) (k * t)).
Proof.
  intros Hne Hpar. pose proof (norm3_pos _ _ Hne) as Hn.
  exists (dot3 (sub3 r2 r1) (sub3 q2 q1) / dot3 (sub3 q2 q1) (sub3 q2 q1)). intros t.
  destruct q1 as [[a1 a2] a3], q2 as [[b1 b2] b3], r1 as [[c1 c2] c3], r2 as [[d1 d2] d3].
  unfold parallel3, eq3, at3, along3, dot3, sub3 in *. clear Hne.
  set (x1 := b1 - a1) in *. set (y1 := b2 - a2) in *. set (z1 := b3 - a3) in *. set (x2 := d1 - c1) in *. set (y2 := d2 - c2) in *. set (z2 := d3 - c3) in *.
  clearbody x1 y1 z1 x2 y2 z2. destruct Hpar as (P1 & P2 & P3).
  set (k := (x2 * x1 + y2 * y1 + z2 * z1) / (x1 * x1 + y1 * y1 + z1 * z1)).
  assert (x2 == k * x1 ∧ y2 == k * y1 ∧ z2 == k * z1) as (-> & -> & ->); [|repeat split; ring].
  assert (~ x1 * x1 + y1 * y1 + z1 * z1 == 0) as Hn' by lra.
  repeat split; (apply Qmult_inj_r with (z := x1 * x1 + y1 * y1 + z1 * z1); [assumption|]).
  - transitivity ((x2 * x1 + y2 * y1 + z2 * z1) * x1); [|unfold k; field; assumption].
    transitivity (x2 * x1 * x1 + y1 * (y1 * x2) + z1 * (z1 * x2)); [ring|]. rewrite <- P3, P2. ring.
  - transitivity ((x2 * x1 + y2 * y1 + z2 * z1) * y1); [|unfold k; field; assumption].
    transitivity (x1 * (x1 * y2) + y2 * y1 * y1 + z1 * (z1 * y2)); [ring|]. rewrite P3, <- P1. ring.
  - transitivity ((x2 * x1 + y2 * y1 + z2 * z1) * z1); [|unfold k; field; assumption].
    transitivity (x1 * (x1 * z2) + y1 * (y1 * z2) + z2 * z1 * z1); [ring|]. rewrite <- P2, P1. ring.
Qed.
Lemma seg3_parallel q1 q2 r1 r2 : ¬ eq3 q1 q2 → parallel3 q1 q2 r1 r2 → (¬ ∃ s, eq3 r1 (at3 q1 q2 s)) →
  segment_segment_intersection_3 q1 q2 r1 r2 = INone ∧ ∀ p, ¬ (on_seg3 q1 q2 p ∧ on_seg3 r1 r2 p).
Proof.
  intros Hne Hpar Hoff. split.
  - pose proof Hpar as Hp. rewrite <- lagrange in Hp. cbv zeta in Hp. unfold segment_segment_intersection_3. cbv zeta.
    destruct (is_positive _) eqn:Ep; qb; [contradiction|].
    destruct (are_collinear _ _ _) eqn:Ec; [|reflexivity]. apply on_line_3 in Ec; [contradiction|assumption].
  - intros p [(s & _ & _ & Hs) (t & _ & _ & Ht)]. apply Hoff.
    destruct (parallel3_multiple _ _ _ _ Hne Hpar) as [k Hk]. specialize (Hk t). exists (s - k * t).
    pose proof (eq3_trans _ _ _ (eq3_sym _ _ Hs) (eq3_trans _ _ _ Ht Hk)) as H. clear -H.
    destruct q1 as [[a1 a2] a3], q2 as [[b1 b2] b3], r1 as [[c1 c2] c3]. unfold eq3, at3, along3, sub3 in *.
    destruct H as (? & ? & ?). repeat split; lra.
Qed.
(** the same line *)
Lemma seg3_collinear q1 q2 r1 r2 s s' : ¬ eq3 q1 q2 → eq3 r1 (at3 q1 q2 s) → eq3 r2 (at3 q1 q2 s') →
  ∃ p q, segment_segment_intersection_3 q1 q2 r1 r2 = IOverlap p q ∧
   ((∃ r, on_seg3 q1 q2 r ∧ on_seg3 r1 r2 r) → ∀ r, on_seg3 p q r ↔ on_seg3 q1 q2 r ∧ on_seg3 r1 r2 r).
Proof.
  intros Hne Hs Hs'. assert (parallel3 q1 q2 r1 r2) as Hpar.
  { clear Hne. destruct q1 as [[a1 a2] a3], q2 as [[b1 b2] b3], r1 as [[c1 c2] c3], r2 as [[d1 d2] d3].
    unfold parallel3, eq3, at3 in *. destruct Hs as (-> & -> & ->), Hs' as (-> & -> & ->). repeat split; ring. }
  rewrite <- lagrange in Hpar. cbv zeta in Hpar. unfold segment_segment_intersection_3. cbv zeta.
  destruct (is_positive _) eqn:Ep; qb; [contradiction|].
  assert (are_collinear (l3 q1) (l3 q2) (l3 r1) = true) as -> by (apply on_line_3; [assumption|]; exists s; assumption).
  destruct (overlap_3 q1 q2 r1 r2 s s' Hne Hs Hs') as (x0 & p & q & x3 & -> & H). exists p, q. split; [reflexivity|assumption].
Qed.

(** *** rays against triangles *)
Definition det3 (a b c : p3) : Q :=
  let '(a1, a2, a3) := a in let '(b1, b2, b3) := b in let '(c1, c2, c3) := c in
  a1 * (b2 * c3 - b3 * c2) - a2 * (b1 * c3 - b3 * c1) + a3 * (b1 * c2 - b2 * c1).

Lemma ray_triangle_solution o d v0 v1 v2 u v t :
  let det := dot3 (sub3 v1 v0) (cross3 d (sub3 v2 v0)) in ~ det == 0 →
  eq3 (ray3 o d t) (comb3 (1 - u - v) u v v0 v1 v2) ↔
  u == dot3 (sub3 o v0) (cross3 d (sub3 v2 v0)) * (1 / det) ∧
  v == dot3 d (cross3 (sub3 o v0) (sub3 v1 v0)) * (1 / det) ∧
  t == dot3 (sub3 v2 v0) (cross3 (sub3 o v0) (sub3 v1 v0)) * (1 / det).
Proof.
  destruct o as [[o1 o2] o3], d as [[d1 d2] d3], v0 as [[a1 a2] a3], v1 as [[b1 b2] b3], v2 as [[c1 c2] c3].
  unfold ray3, comb3, eq3, sub3, cross3, dot3. cbv zeta. intros Hdet. split.
  - intros (Hx & Hy & Hz).
    assert (o1 - a1 == u * (b1 - a1) + v * (c1 - a1) - t * d1) as Ex by lra.
    assert (o2 - a2 == u * (b2 - a2) + v * (c2 - a2) - t * d2) as Ey by lra.
    assert (o3 - a3 == u * (b3 - a3) + v * (c3 - a3) - t * d3) as Ez by lra.
    clear Hx Hy Hz. rewrite Ex, Ey, Ez. clear Ex Ey Ez o1 o2 o3.
    set (x1 := b1 - a1) in *. set (y1 := b2 - a2) in *. set (z1 := b3 - a3) in *.
    set (x2 := c1 - a1) in *. set (y2 := c2 - a2) in *. set (z2 := c3 - a3) in *. clearbody x1 y1 z1 x2 y2 z2.
    split; [|split]; field; exact Hdet.
  - intros (Eu & Ev & Et). rewrite Eu, Ev, Et.
    split; [|split]; field; exact Hdet.
Qed.

Lemma ray_triangle_ok o d v0 v1 v2 :
  ~ dot3 (sub3 v1 v0) (cross3 d (sub3 v2 v0)) == 0 →
  (∀ t u v, ray_triangle_intersection 0 o d v0 v1 v2 = Some (t, u, v) →
     0 <= t ∧ 0 <= u ∧ 0 <= v ∧ u + v <= 1 ∧ eq3 (ray3 o d t) (comb3 (1 - u - v) u v v0 v1 v2)) ∧
  (ray_triangle_intersection 0 o d v0 v1 v2 = None →
     ∀ t u v, 0 <= t → 0 <= u → 0 <= v → u + v <= 1 → ¬ eq3 (ray3 o d t) (comb3 (1 - u - v) u v v0 v1 v2)).
Proof.
  intros Hdet. pose proof (ray_triangle_solution o d v0 v1 v2) as Hsol. cbv zeta in Hsol.
  unfold ray_triangle_intersection. cbv zeta.
  set (det := dot3 (sub3 v1 v0) (cross3 d (sub3 v2 v0))) in *.
  set (U := dot3 (sub3 o v0) (cross3 d (sub3 v2 v0)) * (1 / det)) in *.
  set (V := dot3 d (cross3 (sub3 o v0) (sub3 v1 v0)) * (1 / det)) in *.
  set (T := dot3 (sub3 v2 v0) (cross3 (sub3 o v0) (sub3 v1 v0)) * (1 / det)) in *.
  assert (qle (Qabs det) 0 = false) as ->. { apply qle_f. apply qabs_pos. assumption. }
  clearbody U V T.
  destruct (is_negative (U + 0) || is_positive (U - (1 + 0))) eqn:E1.
  { split; [discriminate|]. intros _ t u v T0 U0 V0 UV H. apply Hsol in H as (Eu & Ev & Et); [|assumption].
    rewrite orb_true_iff in E1. destruct E1; qb; lra. }
  destruct (is_negative (V + 0) || is_positive (U + V - (1 + 0))) eqn:E2.
  { split; [discriminate|]. intros _ t u v T0 U0 V0 UV H. apply Hsol in H as (Eu & Ev & Et); [|assumption].
    rewrite orb_true_iff in E2. destruct E2; qb; lra. }
  destruct (is_negative (T + 0)) eqn:E3.
  { split; [discriminate|]. intros _ t u v T0 U0 V0 UV H. apply Hsol in H as (Eu & Ev & Et); [|assumption]. qb. lra. }
  split; [|discriminate]. intros t u v H. injection H as <- <- <-. qb.
  assert (is_negative T = false) as -> by (apply is_negative_f; lra).
  split; [lra|]. split; [lra|]. split; [lra|]. split; [lra|]. apply Hsol; [assumption|]. repeat split; reflexivity.
Qed.
Lemma ray_triangle_parallel o d v0 v1 v2 :
  dot3 (sub3 v1 v0) (cross3 d (sub3 v2 v0)) == 0 → ray_triangle_intersection 0 o d v0 v1 v2 = None.
Proof.
  intros H. unfold ray_triangle_intersection. cbv zeta.
  assert (qle (Qabs (dot3 (sub3 v1 v0) (cross3 d (sub3 v2 v0)))) 0 = true) as ->; [|reflexivity].
  apply qle_t. rewrite H. discriminate.
Qed.
