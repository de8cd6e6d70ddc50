(** Lines and segments in any dimension. *)
From Verif Require Export GeomBase.

Lemma peq_refl p : peq p p.
Proof. induction p; constructor; [reflexivity|assumption]. Qed.
Lemma peq_sym p q : peq p q → peq q p.
Proof. induction 1; constructor; [symmetry|]; assumption. Qed.
Lemma peq_trans p q r : peq p q → peq q r → peq p r.
Proof.
  intros H. revert r. induction H; intros r Hr; inversion Hr; subst; constructor.
  - etransitivity; eassumption.
  - apply IHForall2. assumption.
Qed.
Lemma peq_len p q : peq p q → length p = length q.
Proof. induction 1; cbn; congruence. Qed.
Lemma len_map2 {A B C} (f : A → B → C) l k : length l = length k → length (map2 f l k) = length l.
Proof. revert k. induction l; destruct k; cbn; intros; try congruence. f_equal. apply IHl. congruence. Qed.

Lemma are_equal_ok p q : same_dim p q → are_equal p q = true ↔ peq p q.
Proof.
  unfold same_dim. revert q. induction p as [|x p IH]; intros [|y q] E; cbn in E; try discriminate.
  - split; [intros _; constructor|reflexivity].
  - injection E as E. cbn. destruct (is_zero (x - y)) eqn:Ez; cbn; qb.
    + rewrite IH by assumption. split; intros H; [constructor; [lra|assumption]|].
      inversion H; assumption.
    + split; [discriminate|]. intros H. inversion H; subst. exfalso. apply Ez. lra.
Qed.

Lemma proportional_ok r a b c : same_dim a b → same_dim a c →
  proportional r a b c = true ↔ peq c (lerp a b r).
Proof.
  unfold same_dim. revert b c. induction a as [|x a IH]; intros [|y b] [|z c] E1 E2; cbn in E1, E2; try discriminate.
  - split; [intros _; constructor|reflexivity].
  - injection E1 as E1. injection E2 as E2. cbn.
    destruct (is_positive _) eqn:Ez; qb.
    + split; [discriminate|]. intros H. inversion H; subst. exfalso. apply Ez. lra.
    + rewrite IH by assumption. split; intros H; [constructor; [lra|assumption]|]. inversion H; assumption.
Qed.

Lemma lerp_same a b t : peq a b → peq (lerp a b t) a.
Proof.
  induction 1; cbn; constructor; [|assumption]. rewrite H. ring.
Qed.

Lemma are_collinear_ne a b c : same_dim a b → same_dim a c → ¬ peq a b →
  are_collinear a b c = true ↔ on_line a b c.
Proof.
  unfold same_dim. revert b c. induction a as [|x a IH]; intros [|y b] [|z c] E1 E2 Hne; cbn in E1, E2; try discriminate.
  - exfalso. apply Hne. constructor.
  - injection E1 as E1. injection E2 as E2. cbn [are_collinear].
    destruct (is_positive (Qabs (y - x))) eqn:Eu; qb.
    + rewrite proportional_ok by assumption. split.
      * intros H. exists ((z - x) / (y - x)). constructor; [field; assumption|assumption].
      * intros [t H]. inversion H as [|? ? ? ? Hz Hc]; subst.
        assert (t == (z - x) / (y - x)) as Ht by (rewrite Hz; field; assumption).
        apply peq_trans with (1 := Hc). clear -E1 Ht. revert b E1. induction a as [|u a IH]; intros [|v b] E1; cbn in *; try discriminate; constructor.
        -- rewrite <- Ht. reflexivity.
        -- apply IH. congruence.
    + assert (y == x) as Eyx by lra. destruct (is_positive (Qabs (z - x))) eqn:Ev; qb.
      * split; [discriminate|]. intros [t H]. inversion H; subst. exfalso. apply Ev.
        rewrite H3, Eyx. ring.
      * rewrite IH; [|assumption..|].
        2: { intros H. apply Hne. constructor; [lra|assumption]. }
        split; intros [t H]; exists t.
        -- constructor; [|assumption]. rewrite Eyx. lra.
        -- inversion H; assumption.
Qed.

Lemma are_collinear_eq a b c : same_dim a c → peq a b →
  are_collinear a b c = true ↔ peq c a.
Proof.
  unfold same_dim. intros E H. revert c E. induction H as [|x y a b Hxy H IH]; intros [|z c] E; cbn in E; try discriminate.
  - split; [intros _; constructor|reflexivity].
  - injection E as E. cbn [are_collinear]. destruct (is_positive (Qabs (y - x))) eqn:Eu; qb; [exfalso; apply Eu; lra|].
    destruct (is_positive (Qabs (z - x))) eqn:Ev; qb.
    + split; [discriminate|]. intros H'. inversion H'; subst. exfalso. apply Ev. lra.
    + rewrite IH by assumption. split; intros H'; [constructor; [lra|assumption]|]. inversion H'; assumption.
Qed.

(** decidable equality of points *)
Lemma peq_dec a b : same_dim a b → peq a b ∨ ¬ peq a b.
Proof.
  intros E. destruct (are_equal a b) eqn:H; [left|right].
  - apply are_equal_ok; assumption.
  - intros H'. apply are_equal_ok in H'; [congruence|assumption].
Qed.

Lemma sq0 x : x * x == 0 → x == 0.
Proof. intros H. apply Qmult_integral in H as [H|H]; exact H. Qed.
Lemma sq_nonneg x : 0 <= x * x.
Proof. nra. Qed.

(** *** dot products *)
Lemma dot_nonneg u : 0 <= dot u u.
Proof. induction u as [|x u IH]; cbn; [lra|]. nra. Qed.
Lemma dot_zero a b : same_dim a b → dot (psub b a) (psub b a) == 0 ↔ peq a b.
Proof.
  unfold same_dim. revert b. induction a as [|x a IH]; intros [|y b] E; cbn in E; try discriminate.
  - split; [intros _; constructor|reflexivity].
  - injection E as E. cbn. pose proof (dot_nonneg (psub b a)) as H0. split.
    + intros H. pose proof (sq_nonneg (y - x)) as Hs.
      assert ((y - x) * (y - x) == 0) as H1 by (unfold psub in *; lra). apply sq0 in H1.
      constructor; [lra|]. apply IH; [assumption|]. unfold psub in *. lra.
    + intros H. inversion H; subst. apply IH in H6; [|assumption].
      unfold psub in *. rewrite H6, H4. ring.
Qed.
Lemma dot_lerp a b p t : same_dim a b → peq p (lerp a b t) →
  dot (psub p a) (psub b a) == t * dot (psub b a) (psub b a).
Proof.
  unfold same_dim. revert b p. induction a as [|x a IH]; intros [|y b] p E H; cbn in E; try discriminate.
  - inversion H; subst. cbn. ring.
  - injection E as E. inversion H as [|z ? p' ? Hz Hp]; subst. cbn.
    pose proof (IH b p' E Hp) as IH'. unfold psub in IH'. rewrite IH', Hz. ring.
Qed.
Lemma lerp_inj a b t u : same_dim a b → ¬ peq a b → peq (lerp a b t) (lerp a b u) → t == u.
Proof.
  intros E Hne H.
  pose proof (dot_lerp a b (lerp a b t) u E H) as H1.
  rewrite (dot_lerp a b (lerp a b t) t E (peq_refl _)) in H1.
  rewrite <- dot_zero in Hne by assumption. apply Qmult_inj_r in H1; assumption.
Qed.
Lemma len_lerp a b t : same_dim a b → length (lerp a b t) = length a.
Proof. apply len_map2. Qed.
Lemma lerp_proper a b t u : t == u → peq (lerp a b t) (lerp a b u).
Proof.
  intros H. revert b. induction a as [|x a IH]; intros [|y b]; cbn; constructor; [|apply IH].
  rewrite H. reflexivity.
Qed.

(** point_u_on_segment *)
Lemma point_u_ok a b p : same_dim a b → same_dim a p → ¬ peq a b →
  (∀ u, point_u_on_segment a b p = Some u → 0 <= u ∧ u <= 1 ∧ peq p (lerp a b u)) ∧
  (point_u_on_segment a b p = None → ¬ on_segment a b p).
Proof.
  intros E1 E2 Hne. unfold point_u_on_segment.
  assert (~ dot (psub b a) (psub b a) == 0) as Hd by (rewrite dot_zero; assumption).
  destruct (is_zero _) eqn:Ez; qb; [contradiction|]. clear Ez.
  destruct (are_collinear a b p) eqn:Ec; cbn.
  - apply are_collinear_ne in Ec as [t Ht]; try assumption.
    pose proof (dot_lerp a b p t E1 Ht) as Hdot.
    set (u := dot (psub p a) (psub b a) / dot (psub b a) (psub b a)).
    assert (u == t) as Hu by (unfold u; rewrite Hdot; field; assumption).
    clearbody u. destruct (qlt u 0 || qlt 1 u) eqn:Er; qb; split; intros; qb; subst.
    + intros (t' & H0 & H1 & Ht').
      assert (t == t'). { apply (lerp_inj a b); try assumption. apply peq_trans with p; [apply peq_sym|]; assumption. }
      destruct Er; qb; lra.
    + split; [|split]; [lra..|]. apply peq_trans with (1 := Ht). apply lerp_proper. lra.
  - split; intros; qb. intros (t & _ & _ & Ht).
    assert (are_collinear a b p = true) by (apply are_collinear_ne; try assumption; exists t; assumption). congruence.
Qed.
Lemma point_u_deg a b p : same_dim a b → same_dim a p → peq a b →
  (peq p a → point_u_on_segment a b p = Some 0) ∧ (¬ peq p a → point_u_on_segment a b p = None).
Proof.
  intros E1 E2 He. unfold point_u_on_segment.
  destruct (is_zero _) eqn:Ez; qb; [|exfalso; apply Ez, dot_zero; assumption].
  assert (same_dim b p) as E3 by (unfold same_dim in *; congruence).
  split; intros H.
  - replace (are_equal a p) with true; [reflexivity|]. symmetry. apply are_equal_ok, peq_sym; assumption.
  - destruct (are_equal a p) eqn:Ea. { apply are_equal_ok in Ea; [|assumption]. exfalso. apply H, peq_sym, Ea. }
    destruct (are_equal b p) eqn:Eb; [|reflexivity]. apply are_equal_ok in Eb; [|assumption].
    exfalso. apply H, peq_sym. apply peq_trans with b; assumption.
Qed.

(** is_point_on_segment *)
Definition betw (x : Q) (ab : Q * Q) : Prop :=
  (fst ab <= x ∧ x <= snd ab) ∨ (snd ab <= x ∧ x <= fst ab).
Lemma between_axes_ok p a b : same_dim p a → same_dim p b →
  between_axes p a b = true ↔ Forall2 betw p (combine a b).
Proof.
  unfold same_dim. revert a b. induction p as [|x p IH]; intros [|y a] [|z b] E1 E2; cbn in E1, E2; try discriminate.
  - split; [constructor|reflexivity].
  - injection E1 as E1. injection E2 as E2. cbn.
    assert ((let '(mn, mx) := if qle y z then (y, z) else (z, y) in qlt x mn || qlt mx x) = false ↔
      betw x (y, z)) as Hxyz.
    { unfold betw. cbn. destruct (qle y z) eqn:Eyz; qb; rewrite orb_false_iff, !qlt_f; lra. }
    destruct (qle y z).
    all: destruct (qlt _ _ || qlt _ _).
    all: split; intros H; try discriminate.
    all: try (inversion H; subst; intuition congruence).
    all: try (constructor; [tauto|apply IH; assumption]).
    all: apply IH; [assumption..|]; inversion H; assumption.
Qed.

Lemma peq_cons_inv x y p q : peq (x :: p) (y :: q) → x == y ∧ peq p q.
Proof. intros H. inversion H. split; assumption. Qed.

(** membership on the line plus in the box is membership in the segment *)
Lemma box_segment a b p : same_dim p a → same_dim p b → on_line a b p → ¬ peq a b →
  Forall2 betw p (combine a b) ↔ on_segment a b p.
Proof.
  intros E1 E2 [t Ht] Hne. split.
  - intros H. exists t. enough (0 <= t ∧ t <= 1) by (split; [|split]; tauto).
    unfold same_dim in *. revert a b E1 E2 Ht Hne H. induction p as [|x p IH]; intros [|y a] [|z b] E1 E2 Ht Hne H; cbn in E1, E2; try discriminate.
    { exfalso. apply Hne. constructor. }
    apply peq_cons_inv in Ht as [Hx Ht]. inversion H as [|? ? ? ? Hb Hrest]; subst. unfold betw in Hb. cbn in Hb.
    destruct (Qeq_dec y z) as [Eyz|Eyz].
    + apply (IH a b); try congruence; try assumption.
      intros Hab. apply Hne. constructor; assumption.
    + destruct (Qlt_le_dec y z).
      * split; nra.
      * assert (z < y) by (apply Qnot_le_lt; intros ?; apply Eyz; lra). split; nra.
  - intros (t' & H0 & H1 & Ht'). clear t Ht Hne. unfold same_dim in *. revert a b E1 E2 Ht'.
    induction p as [|x p IH]; intros [|y a] [|z b] E1 E2 Ht'; cbn in E1, E2; try discriminate; [constructor|].
    apply peq_cons_inv in Ht' as [Hx Ht']. cbn. constructor; [|apply IH; congruence || assumption]. unfold betw. cbn.
    destruct (Qlt_le_dec y z); [left|right]; split; nra.
Qed.

Lemma lerp_swap a b p t s : same_dim a b → same_dim a p → (1 - t) * s == 1 → peq b (lerp p a t) → peq p (lerp a b s).
Proof.
  unfold same_dim. intros E1 E2 Hs. revert b p E1 E2. induction a as [|x a IH]; intros [|y b] [|z p] E1 E2 H; cbn in E1, E2; try discriminate; [constructor|].
  apply peq_cons_inv in H as [Hy H]. cbn. constructor; [|apply IH; congruence || assumption].
  rewrite Hy. transitivity (x + ((1 - t) * s) * (z - x)); [rewrite Hs|]; ring.
Qed.

Lemma is_point_on_segment_ne p a b : same_dim p a → same_dim p b → ¬ peq p a → ¬ peq a b →
  is_point_on_segment p a b = true ↔ on_segment a b p.
Proof.
  intros E1 E2 Hpa Hab. unfold is_point_on_segment.
  assert (are_collinear p a b = true ↔ on_line a b p) as Hc.
  { rewrite are_collinear_ne by assumption. split; intros [t Ht].
    - assert (~ 1 - t == 0) as Ht1.
      { intros E. apply Hab. apply peq_sym. apply peq_trans with (1 := Ht).
        apply peq_trans with (lerp p a 1); [apply lerp_proper; lra|]. clear -E1. unfold same_dim in E1. revert a E1.
        induction p as [|x p IH]; intros [|y a] E1; cbn in *; try discriminate; constructor; [ring|apply IH; congruence]. }
      exists (/ (1 - t)). apply (lerp_swap a b p t); [unfold same_dim in *; congruence..|field; assumption|assumption].
    - assert (~ t == 0) as Ht0.
      { intros E. apply Hpa. apply peq_trans with (1 := Ht).
        apply peq_trans with (lerp a b 0); [apply lerp_proper; lra|].
        assert (same_dim a b) as E3 by (unfold same_dim in *; congruence). clear -E3. unfold same_dim in E3. revert b E3.
        induction a as [|x p IH]; intros [|y b] E1; cbn in *; try discriminate; constructor; [ring|apply IH; congruence]. }
      exists (1 - / t). apply peq_sym. assert (peq p (lerp a b t)) as Ht' by assumption. clear Ht.
      unfold same_dim in *. clear Hpa Hab. revert a b E1 E2 Ht'.
      induction p as [|x p IH]; intros [|y a] [|z b] E1 E2 Ht'; cbn in E1, E2; try discriminate; [constructor|].
      apply peq_cons_inv in Ht' as [Hx Ht']. cbn. constructor; [|apply IH; congruence || assumption].
      rewrite Hx. field. assumption. }
  destruct (are_collinear p a b) eqn:E; cbn.
  - rewrite between_axes_ok by assumption. apply box_segment; try assumption. apply Hc. reflexivity.
  - split; [discriminate|]. intros (t & _ & _ & Ht). apply Hc. exists t. assumption.
Qed.

Lemma is_point_on_segment_start p a b : same_dim p a → same_dim p b → peq p a →
  is_point_on_segment p a b = true ↔ peq b p.
Proof.
  intros E1 E2 H. unfold is_point_on_segment.
  pose proof (are_collinear_eq p a b E2 H) as Hc. destruct (are_collinear p a b) eqn:E; cbn.
  - rewrite between_axes_ok by assumption. split; [intros _; tauto|]. intros Hb.
    clear -H Hb. revert b Hb. induction H as [|x y p a Hxy H IH]; intros b Hb; inversion Hb; subst; cbn; constructor.
    + left. cbn. lra.
    + apply IH. assumption.
  - split; [discriminate|]. intros Hb. apply Hc in Hb. congruence.
Qed.

Lemma is_point_on_segment_deg p a b : same_dim p a → same_dim p b → ¬ peq p a → peq a b →
  is_point_on_segment p a b = false.
Proof.
  intros E1 E2 Hpa Hab. unfold is_point_on_segment. destruct (are_collinear p a b); [|reflexivity]. cbn.
  destruct (between_axes p a b) eqn:E; [|reflexivity]. apply between_axes_ok in E; [|assumption..].
  exfalso. apply Hpa. clear -E Hab. revert p E. induction Hab as [|x y a b Hxy H IH]; intros p E; cbn in E; inversion E as [|? ? ? ? Hb]; subst; constructor.
  - destruct Hb; cbn in *; lra.
  - apply IH. assumption.
Qed.

(** point_u_on_segment_with_tolerance *)
Lemma dist2_dot p q : dist2 p q == dot (psub p q) (psub p q).
Proof.
  revert q. induction p as [|x p IH]; intros [|y q]; cbn; try reflexivity. rewrite IH. reflexivity.
Qed.
Lemma dist2_lerp a b p t : same_dim a b → same_dim a p →
  dist2 p (lerp a b t) == dot (psub p a) (psub p a) - 2 * t * dot (psub p a) (psub b a)
     + t * t * dot (psub b a) (psub b a).
Proof.
  unfold same_dim. revert b p. induction a as [|x a IH]; intros [|y b] [|z p] E1 E2; cbn in E1, E2; try discriminate.
  - cbn. ring.
  - injection E1 as E1. injection E2 as E2. cbn. pose proof (IH b p E1 E2) as H. unfold psub, lerp in H. rewrite H. ring.
Qed.
Lemma dist2_proper p q q' : peq q q' → dist2 p q == dist2 p q'.
Proof.
  intros H. revert p. induction H as [|x y q q' E H IH]; intros [|z p]; cbn; try reflexivity. rewrite IH, E. reflexivity.
Qed.
Lemma padd_scale a b t : same_dim a b → padd a (scale (psub b a) t) = padd a (map (λ x, x * t) (psub b a)) ∧
  peq (padd a (scale (psub b a) t)) (lerp a b t).
Proof.
  unfold same_dim. intros E. split; [reflexivity|]. revert b E.
  induction a as [|x a IH]; intros [|y b] E; cbn in *; try discriminate; constructor; [ring|]. apply IH. congruence.
Qed.

Lemma point_u_tol_ok a b p tol : same_dim a b → same_dim a p → ¬ peq a b →
  let u := dot (psub p a) (psub b a) / dot (psub b a) (psub b a) in
  (point_u_on_segment_with_tolerance a b p tol = Some u ∨ point_u_on_segment_with_tolerance a b p tol = None) ∧
  (point_u_on_segment_with_tolerance a b p tol = Some u ↔
   ∃ t, 0 <= t ∧ t <= 1 ∧ dist2 p (lerp a b t) <= tol * tol).
Proof.
  intros E1 E2 Hne. cbv zeta. unfold point_u_on_segment_with_tolerance.
  assert (~ dot (psub b a) (psub b a) == 0) as Hd by (rewrite dot_zero; assumption).
  destruct (is_zero _) eqn:Ez; qb; [contradiction|]. clear Ez.
  set (C := dot (psub b a) (psub b a)) in *. set (B := dot (psub p a) (psub b a)).
  set (u := B / C). set (uc := if qlt u 0 then _ else _).
  assert (0 < C) as HC. { pose proof (dot_nonneg (psub b a)). fold C in H. apply Qnot_le_lt. intros H'. apply Hd. lra. }
  assert (B == u * C) as HB by (unfold u; field; assumption).
  set (q := padd a (scale (psub b a) uc)).
  assert (dot (psub p q) (psub p q) == dist2 p (lerp a b uc)) as Hq.
  { rewrite <- dist2_dot. apply dist2_proper. apply padd_scale. assumption. }
  assert (0 <= uc ∧ uc <= 1) as Huc.
  { unfold uc. destruct (qlt u 0) eqn:F1; qb; [lra|]. destruct (qlt 1 u) eqn:F2; qb; lra. }
  assert (∀ t, 0 <= t ∧ t <= 1 → dist2 p (lerp a b uc) <= dist2 p (lerp a b t)) as Hmin.
  { intros t Ht. rewrite !dist2_lerp by assumption. fold B C. rewrite HB.
    assert ((uc - u) * (uc - u) <= (t - u) * (t - u)) as Hs.
    { unfold uc. destruct (qlt u 0) eqn:F1; qb; [nra|]. destruct (qlt 1 u) eqn:F2; qb; [nra|].
      setoid_replace (u - u) with 0 by ring. pose proof (sq_nonneg (t - u)). lra. }
    clear -Hs HC. assert (0 <= C * ((t - u) * (t - u) - (uc - u) * (uc - u))) as H by (apply Qmult_le_0_compat; lra).
    lra || nra. }
  destruct (qle (dot (psub p q) (psub p q)) (tol * tol)) eqn:F; qb.
  - split; [left; reflexivity|]. split; [|reflexivity]. intros _. exists uc. rewrite <- Hq. tauto.
  - split; [right; reflexivity|]. split; [discriminate|]. intros (t & H0 & H1 & Ht).
    specialize (Hmin t (conj H0 H1)). rewrite <- Hq in Hmin. lra.
Qed.

Lemma midpoint_ok a b : same_dim a b → peq (midpoint a b) (lerp a b (1 # 2)).
Proof.
  unfold same_dim. revert b. induction a as [|x a IH]; intros [|y b] E; cbn in *; try discriminate; constructor; [field|].
  apply IH. congruence.
Qed.
Lemma parameter_of_point_ok a b p t : same_dim a b → ¬ peq a b → peq p (lerp a b t) → parameter_of_point a b p == t.
Proof.
  intros E Hne H. unfold parameter_of_point. rewrite <- dot_zero in Hne by assumption.
  destruct (is_zero _) eqn:Ez; qb; [contradiction|]. rewrite (dot_lerp a b p t E H). field. assumption.
Qed.
