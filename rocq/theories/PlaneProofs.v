(** Proofs about planes, canonical edges and edge keys. *)
From Verif Require Import GeomSpec GeomBase GeomLine.
From Verif Require Import PlaneModel.
Local Arguments Qmult : simpl never.
Local Arguments Qplus : simpl never.
Local Arguments Qminus : simpl never.
Local Arguments Qopp : simpl never.
Local Arguments Qdiv : simpl never.

Lemma coords_eq_ok a b : coords_eq a b = true ↔ peq a b.
Proof.
  revert b. induction a as [|x a IH]; intros [|y b]; cbn.
  - split; [constructor|reflexivity].
  - split; [discriminate|intros H; inversion H].
  - split; [discriminate|intros H; inversion H].
  - destruct (Qeq_bool x y) eqn:E; cbn.
    + apply qeqb_t in E. rewrite IH. split; [constructor; assumption|].
      intros H; inversion H; assumption.
    + apply qeqb_f in E. split; [discriminate|]. intros H; inversion H; contradiction.
Qed.
Lemma plane_eq_ok p q : plane_eq p q = true ↔ peq (normal p) (normal q) ∧ offset p == offset q.
Proof.
  unfold plane_eq. rewrite andb_true_iff, coords_eq_ok, qeqb_t. reflexivity.
Qed.

(** ** Linear algebra on lists *)
Lemma dot_proper a a' b b' : peq a a' → peq b b' → dot a b == dot a' b'.
Proof.
  intros H. revert b b'. induction H as [|x x' a a' Hx H IH]; intros b b' Hb; cbn; [reflexivity|].
  destruct Hb as [|y y' b b' Hy Hb]; [reflexivity|]. rewrite Hx, Hy, (IH b b' Hb). reflexivity.
Qed.
Lemma dot_map_l f k a b : (∀ x, f x == k * x) → dot (map f a) b == k * dot a b.
Proof.
  intros Hf. revert b. induction a as [|x a IH]; intros [|y b]; cbn; try ring.
  rewrite IH, Hf. ring.
Qed.
Lemma dot_comm a b : dot a b == dot b a.
Proof. revert b. induction a as [|x a IH]; intros [|y b]; cbn; try reflexivity. rewrite IH. ring. Qed.
Lemma dot_padd_r n a b : same_dim n a → same_dim n b → dot n (padd a b) == dot n a + dot n b.
Proof.
  unfold same_dim, padd. revert a b. induction n as [|x n IH]; intros [|y a] [|z b]; cbn; try discriminate; intros Ha Hb.
  - ring.
  - rewrite IH; [ring|congruence|congruence].
Qed.
Lemma dot_psub_r n a b : same_dim n a → same_dim n b → dot n (psub a b) == dot n a - dot n b.
Proof.
  unfold same_dim, psub. revert a b. induction n as [|x n IH]; intros [|y a] [|z b]; cbn; try discriminate; intros Ha Hb.
  - ring.
  - rewrite IH; [ring|congruence|congruence].
Qed.
Lemma dot_scale_r n a k : dot n (scale a k) == dot n a * k.
Proof. rewrite dot_comm. unfold scale. rewrite (dot_map_l _ k); [|intros; ring]. rewrite (dot_comm a). ring. Qed.
Lemma len_scale a k : length (scale a k) = length a.
Proof. apply map_length. Qed.

Definition zero_vec (n : point) : Prop := Forall (λ x, x == 0) n.
Lemma zero_vec_dot n p : zero_vec n → dot n p == 0.
Proof. intros H. revert p. induction H as [|x n Hx H IH]; intros [|y p]; cbn; try reflexivity. rewrite Hx, IH. ring. Qed.
Lemma dot_self0 n : dot n n == 0 → zero_vec n.
Proof.
  induction n as [|x n IH]; cbn; intros H; [constructor|].
  pose proof (sq_nonneg x). pose proof (dot_nonneg n).
  constructor; [apply sq0; lra|apply IH; lra].
Qed.
Lemma psub_scale_zero m n k : same_dim m n → zero_vec (psub m (scale n k)) → peq m (scale n k).
Proof.
  unfold same_dim, psub, scale. revert n. induction m as [|x m IH]; intros [|y n]; cbn; try discriminate; intros Hl H.
  - constructor.
  - inversion H; subst. constructor; [lra|]. apply IH; [congruence|assumption].
Qed.

(** Two hyperplanes with the same points have proportional equations. *)
Lemma same_points_proportional n d m e :
  same_dim n m → ¬ zero_vec n → ¬ zero_vec m →
  (∀ p, same_dim n p → dot n p + d == 0 ↔ dot m p + e == 0) →
  ∃ k, ¬ k == 0 ∧ peq m (scale n k) ∧ e == d * k.
Proof.
  intros Hl Hn Hm H.
  assert (Hnn : ¬ dot n n == 0) by (intros E; apply Hn, dot_self0, E).
  set (k := dot m n / dot n n).
  set (p0 := scale n (- d / dot n n)).
  assert (Hlp0 : same_dim n p0) by (unfold same_dim, p0; rewrite len_scale; reflexivity).
  assert (Hp0 : dot m p0 + e == 0).
  { apply H; [assumption|]. unfold p0. rewrite dot_scale_r. field. assumption. }
  assert (Hv : ∀ v, same_dim n v → dot m v == k * dot n v).
  { intros v Hlv.
    set (q := padd p0 (psub v (scale n (dot n v / dot n n)))).
    assert (Hl1 : same_dim n (scale n (dot n v / dot n n))) by (unfold same_dim; rewrite len_scale; reflexivity).
    assert (Hl2 : same_dim n (psub v (scale n (dot n v / dot n n)))).
    { unfold same_dim in *. unfold psub. rewrite len_map2; congruence. }
    assert (Hlq : same_dim n q).
    { unfold same_dim in *. unfold q, padd. rewrite len_map2; congruence. }
    assert (Hm1 : ∀ z, same_dim n z → same_dim m z) by (unfold same_dim in *; congruence).
    assert (Hq : dot m q + e == 0).
    { apply H; [assumption|]. unfold q. rewrite dot_padd_r, dot_psub_r, dot_scale_r by auto.
      unfold p0. rewrite dot_scale_r. field. assumption. }
    unfold q in Hq. rewrite dot_padd_r, dot_psub_r, dot_scale_r in Hq by auto.
    assert (E : dot m v == dot m n * (dot n v / dot n n)) by lra.
    rewrite E. unfold k. field. assumption. }
  assert (Hpr : peq m (scale n k)).
  { apply psub_scale_zero; [unfold same_dim in *; congruence|].
    set (w := psub m (scale n k)).
    assert (Hlw : same_dim n w).
    { unfold same_dim in *. unfold w, psub. rewrite len_map2; rewrite ?len_scale; congruence. }
    apply dot_self0. unfold w at 2. rewrite dot_psub_r, dot_scale_r;
      [|unfold same_dim in *; congruence|unfold same_dim in *; rewrite len_scale; congruence].
    rewrite (dot_comm w m), (dot_comm w n), (Hv w Hlw). ring. }
  clearbody k. exists k. split; [|split].
  - intros Hk. apply Hm. clear - Hpr Hk. unfold scale in Hpr.
    assert (G : ∀ m, peq m (map (λ x, x * k) n) → zero_vec m).
    { clear m Hpr. induction n as [|x n IH]; intros m Hpr; inversion Hpr as [|y z m' q Hy Hm']; subst; constructor.
      - rewrite Hy, Hk. ring.
      - apply IH. assumption. }
    apply G. assumption.
  - assumption.
  - rewrite Hv in Hp0 by assumption. unfold p0 in Hp0. rewrite dot_scale_r in Hp0.
    assert (E : dot n n * (- d / dot n n) == - d) by (field; assumption).
    rewrite E in Hp0. lra.
Qed.

(** ** canonicalized *)
Lemma clean_peq n : peq (clean n) n.
Proof.
  induction n as [|x n IH]; cbn; [constructor|]. constructor; [|assumption].
  destruct (is_zero x) eqn:E; [apply is_zero_t in E; lra|reflexivity].
Qed.
Definition lead (n : point) : option Q := find (λ x, negb (is_zero x)) n.
Lemma lead_none n : lead n = None ↔ zero_vec n.
Proof.
  unfold lead. induction n as [|x n IH]; cbn; [split; [constructor|reflexivity]|].
  destruct (is_zero x) eqn:E; cbn.
  - apply is_zero_t in E. rewrite IH. split; [constructor; assumption|intros H; inversion H; assumption].
  - apply is_zero_f in E. split; [discriminate|]. intros H; inversion H; contradiction.
Qed.
Lemma lead_nz n c : lead n = Some c → ¬ c == 0.
Proof.
  intros H. unfold lead in H. apply find_some in H. destruct H as [_ H].
  apply is_zero_f. destruct (is_zero c); [discriminate|reflexivity].
Qed.
Lemma lead_peq n m k : peq m (scale n k) → ¬ k == 0 →
  match lead n, lead m with
  | Some c, Some d => d == c * k
  | None, None => True
  | _, _ => False
  end.
Proof.
  intros H Hk. revert m H. induction n as [|x n IH]; intros m H; unfold scale in H; cbn in H;
    inversion H as [|y z m' q Hy Hm]; subst; cbn; [exact I|].
  unfold lead. cbn. destruct (is_zero x) eqn:Ex; cbn.
  - apply is_zero_t in Ex. assert (Ey : is_zero y = true) by (apply is_zero_t; rewrite Hy, Ex; ring).
    rewrite Ey. cbn. apply IH. assumption.
  - apply is_zero_f in Ex. assert (Ey : is_zero y = false).
    { apply is_zero_f. intros E. rewrite Hy in E. apply Qmult_integral in E. tauto. }
    rewrite Ey. cbn. assumption.
Qed.
Lemma lead_clean n :
  match lead n, lead (clean n) with
  | Some c, Some d => d = c
  | None, None => True
  | _, _ => False
  end.
Proof.
  unfold lead. induction n as [|x n IH]; cbn; [exact I|].
  destruct (is_zero x) eqn:E; cbn; [|rewrite E; reflexivity]. assumption.
Qed.
Lemma peq_map f g n m : peq n m → (∀ x y, x == y → f x == g y) → peq (map f n) (map g m).
Proof. intros H Hf. induction H; cbn; constructor; auto. Qed.

Lemma canonicalized_form p c : lead (normal p) = Some c →
  peq (normal (canonicalized p)) (scale (normal p) (/ c)) ∧ offset (canonicalized p) == offset p * / c.
Proof.
  intros Hc. pose proof (lead_nz _ _ Hc) as Hnz. unfold canonicalized.
  pose proof (lead_clean (normal p)) as Hl. rewrite Hc in Hl. unfold lead in Hl at 1.
  destruct (find _ (clean (normal p))) as [c'|]; [|contradiction]. subst c'.
  assert (Hz : is_zero (Qabs c) = false) by (apply is_zero_f; rewrite abs0; assumption).
  rewrite Hz. cbn. destruct (qlt c 0) eqn:E; cbn.
  - apply qlt_t in E. assert (Ha : Qabs c == - c) by (apply Qabs_neg; lra). split.
    + rewrite map_map. unfold scale. apply peq_map; [apply clean_peq|]. intros x y Hxy. rewrite Hxy, Ha. field. assumption.
    + rewrite Ha. field. assumption.
  - apply qlt_f in E. assert (Ha : Qabs c == c) by (apply Qabs_pos; lra). split.
    + unfold scale. apply peq_map; [apply clean_peq|]. intros x y Hxy. rewrite Hxy, Ha. reflexivity.
    + rewrite Ha. reflexivity.
Qed.
Lemma canonicalized_zero p : lead (normal p) = None →
  peq (normal (canonicalized p)) (normal p) ∧ offset (canonicalized p) == offset p.
Proof.
  intros Hc. unfold canonicalized. pose proof (lead_clean (normal p)) as Hl. rewrite Hc in Hl. unfold lead in Hl.
  destruct (find _ (clean (normal p))); [contradiction|]. cbn. split; [apply clean_peq|reflexivity].
Qed.
Lemma canonicalized_points p q :
  dot (normal (canonicalized p)) q + offset (canonicalized p) == 0 ↔ dot (normal p) q + offset p == 0.
Proof.
  destruct (lead (normal p)) as [c|] eqn:Hc.
  - pose proof (lead_nz _ _ Hc) as Hnz. destruct (canonicalized_form p c Hc) as [Hn Hd].
    rewrite (dot_proper _ _ q q Hn (peq_refl q)), Hd, dot_comm, dot_scale_r, (dot_comm q).
    set (A := dot (normal p) q) in *. set (B := offset p) in *. clearbody A B.
    split; intros H.
    + assert (E : (A * / c + B * / c) * c == A + B) by (field; assumption). rewrite H in E. lra.
    + assert (E : A * / c + B * / c == (A + B) * / c) by ring. rewrite E, H. ring.
  - destruct (canonicalized_zero p Hc) as [Hn Hd].
    rewrite (dot_proper _ _ q q Hn (peq_refl q)), Hd. reflexivity.
Qed.
Lemma canonicalized_proportional p q k : ¬ k == 0 →
  peq (normal q) (scale (normal p) k) → offset q == offset p * k → ¬ zero_vec (normal p) →
  plane_eq (canonicalized p) (canonicalized q) = true.
Proof.
  intros Hk Hn Hd Hz. pose proof (lead_peq _ _ _ Hn Hk) as Hl.
  destruct (lead (normal p)) as [c|] eqn:Hc; [|apply lead_none in Hc; contradiction].
  destruct (lead (normal q)) as [c'|] eqn:Hc'; [|contradiction].
  pose proof (lead_nz _ _ Hc) as Hnz. pose proof (lead_nz _ _ Hc') as Hnz'.
  destruct (canonicalized_form p c Hc) as [Ap Bp]. destruct (canonicalized_form q c' Hc') as [Aq Bq].
  apply plane_eq_ok. split.
  - eapply peq_trans; [exact Ap|]. apply peq_sym. eapply peq_trans; [exact Aq|].
    eapply peq_trans; [apply (peq_map _ (λ x, x * / c') _ _ Hn); intros ? ? E; rewrite E; reflexivity|].
    unfold scale. rewrite map_map. apply peq_map; [apply peq_refl|].
    intros x y Hxy. rewrite Hxy, Hl. field. split; assumption.
  - rewrite Bp, Bq, Hd, Hl. field. split; assumption.
Qed.
Lemma canonical_lead n m c : peq m (scale n (/ c)) → lead n = Some c → ∃ y, lead m = Some y ∧ y == 1.
Proof.
  intros H Hc. pose proof (lead_nz _ _ Hc) as Hnz.
  assert (Hi : ¬ / c == 0).
  { intros E. apply Hnz. assert (E' : c * / c == 1) by (field; assumption). rewrite E in E'. lra. }
  pose proof (lead_peq _ _ _ H Hi) as Hl. rewrite Hc in Hl. destruct (lead m) as [y|]; [|contradiction].
  exists y. split; [reflexivity|]. rewrite Hl. field. assumption.
Qed.

(** ** Planes through points *)
Ltac p3_cases := repeat match goal with p : p3 |- _ => destruct p as [[? ?] ?] | p : p2 |- _ => destruct p as [? ?] end.

Lemma from_points3_contains a b c q : q = a ∨ q = b ∨ q = c →
  dot_p (n3 (from_points3 a b c)) q + d3 (from_points3 a b c) == 0.
Proof. p3_cases. intros [H|[H|H]]; inversion H; subst; cbn; ring. Qed.
Lemma from_points3_vol a b c p :
  dot_p (n3 (from_points3 a b c)) p + d3 (from_points3 a b c) == vol6 a b c p.
Proof. p3_cases. cbn. ring. Qed.

Lemma any_perpendicular_ok v : (¬ eq3 v (0, 0, 0)) →
  dot_p v (any_perpendicular v) == 0 ∧ ¬ eq3 (any_perpendicular v) (0, 0, 0).
Proof.
  destruct v as [[x y] z]. unfold eq3. cbn [fst snd]. intros H. unfold any_perpendicular.
  assert (A : ∀ t, 0 <= Qabs t) by (intros; apply Qabs_nonneg).
  assert (Z : ∀ t, t == 0 → Qabs t == 0) by (intros t; apply abs0).
  destruct (qlt (Qabs x) (Qabs y) && qlt (Qabs x) (Qabs z)) eqn:E1.
  - apply andb_true_iff in E1. rewrite !qlt_t in E1. destruct E1 as [E1 E2]. cbn. split; [ring|].
    intros (_ & E & _). assert (z == 0) as Hz%Z by lra. pose proof (A x). lra.
  - destruct (qlt (Qabs y) (Qabs z)) eqn:E2.
    + apply qlt_t in E2. cbn. split; [ring|].
      intros (E & _ & _). assert (z == 0) as Hz%Z by lra. pose proof (A y). lra.
    + apply qlt_f in E2. cbn. split; [ring|].
      intros (Ey & Ex & _). assert (y == 0) as Hy by lra. assert (x == 0) as Hx by lra.
      apply H. split; [assumption|split; [assumption|]]. apply abs0.
      pose proof (Z _ Hy). pose proof (A z). lra.
Qed.
Lemma nonzero3 x y z : ¬ (x == 0 ∧ y == 0 ∧ z == 0) → 0 < x * x + y * y + z * z.
Proof.
  intros H. pose proof (sq_nonneg x). pose proof (sq_nonneg y). pose proof (sq_nonneg z).
  destruct (Qlt_le_dec 0 (x * x + y * y + z * z)); [assumption|].
  exfalso. apply H. split; [apply sq0; lra|split; apply sq0; lra].
Qed.
Lemma cross_nonzero n u : dot_p n u == 0 → (¬ eq3 n (0, 0, 0)) → (¬ eq3 u (0, 0, 0)) →
  ¬ eq3 (cross_p n u) (0, 0, 0).
Proof.
  destruct n as [[a b] c], u as [[x y] z]. unfold eq3. cbn. intros H Hn Hu (E1 & E2 & E3).
  pose proof (nonzero3 _ _ _ Hn). pose proof (nonzero3 _ _ _ Hu).
  assert (L : (a * a + b * b + c * c) * (x * x + y * y + z * z) ==
    (b * z - c * y) * (b * z - c * y) + (c * x - a * z) * (c * x - a * z) + (a * y - b * x) * (a * y - b * x)
    + (a * x + b * y + c * z) * (a * x + b * y + c * z)) by ring.
  rewrite H, E1, E2, E3 in L.
  assert (0 < (a * a + b * b + c * c) * (x * x + y * y + z * z)) by (apply Qmult_lt_0_compat; assumption).
  lra.
Qed.

(** ** N = 4 *)
Lemma any_perpendicular4_scan a b c d :
  let v := [a; b; c; d] in
  (0 < dot v v) →
  ∃ i, (i < 4)%nat ∧ any_perpendicular4 v = psub (unit4 i) (scale v (dot v (unit4 i) / dot v v)) ∧
    ∀ j, (j < 4)%nat → Qabs (dot v (unit4 i)) <= Qabs (dot v (unit4 j)).
Proof.
  intros v Hv. unfold any_perpendicular4. fold v.
  assert (Hz : is_zero (dot v v) = false) by (apply is_zero_f; lra). rewrite Hz.
  cbn [map fold_left]. cbv zeta.
  assert (Hj : ∀ x, (∀ j, (j < 4)%nat → x <= Qabs (dot v (unit4 j))) ↔
    x <= Qabs (dot v (unit4 0)) ∧ x <= Qabs (dot v (unit4 1)) ∧ x <= Qabs (dot v (unit4 2)) ∧ x <= Qabs (dot v (unit4 3))).
  { intros x. split; [intros H; repeat split; apply H; lia|].
    intros (H0 & H1 & H2 & H3) j Hj. destruct j as [|[|[|[|j]]]]; try assumption; lia. }
  destruct (qlt (Qabs (dot v (unit4 1))) _) eqn:E1; destruct (qlt (Qabs (dot v (unit4 2))) _) eqn:E2;
    destruct (qlt (Qabs (dot v (unit4 3))) _) eqn:E3; cbn [fst];
    rewrite ?qlt_t, ?qlt_f in E1; rewrite ?qlt_t, ?qlt_f in E2; rewrite ?qlt_t, ?qlt_f in E3;
    (match goal with |- ∃ i, _ ∧ psub (unit4 ?k) _ = _ ∧ _ => exists k end);
    (split; [lia|split; [reflexivity|apply Hj; repeat split; lra]]).
Qed.
Lemma any_perpendicular4_ok a b c d : (¬ (a == 0 ∧ b == 0 ∧ c == 0 ∧ d == 0)) →
  dot [a; b; c; d] (any_perpendicular4 [a; b; c; d]) == 0 ∧
  ¬ peq (any_perpendicular4 [a; b; c; d]) [0; 0; 0; 0].
Proof.
  intros H. set (v := [a; b; c; d]).
  assert (Hp : 0 < dot v v).
  { destruct (Qlt_le_dec 0 (dot v v)); [assumption|]. exfalso. apply H.
    pose proof (dot_nonneg v). assert (E : dot v v == 0) by lra. apply dot_self0 in E.
    inversion E as [|? ? E1 F]; subst. inversion F as [|? ? E2 F1]; subst. inversion F1 as [|? ? E3 F2]; subst.
    inversion F2 as [|? ? E4 F3]; subst. tauto. }
  destruct (any_perpendicular4_scan a b c d Hp) as (i & Hi & Hap & Hmin). fold v in Hap, Hmin. rewrite Hap. clear Hap.
  assert (Hlu : same_dim v (unit4 i)) by reflexivity.
  split.
  - rewrite dot_psub_r, dot_scale_r by (first [assumption | unfold same_dim; rewrite len_scale; reflexivity]).
    field. lra.
  - intros Hz.
    assert (Hn : ¬ dot v v == 0) by lra.
    set (s := dot v (unit4 i) / dot v v) in *.
    assert (Hs : s == 0 ∨ ¬ s == 0) by (destruct (Qeq_dec s 0); tauto).
    assert (A : ∀ x, Qabs x <= 0 → x == 0).
    { intros x Hx. apply abs0. pose proof (Qabs_nonneg x). lra. }
    assert (Hd : s * dot v v == dot v (unit4 i)) by (unfold s; field; assumption).
    assert (Hd0 : dot v (unit4 0) == a) by (unfold v; cbn; ring).
    assert (Hd1 : dot v (unit4 1) == b) by (unfold v; cbn; ring).
    assert (Hd2 : dot v (unit4 2) == c) by (unfold v; cbn; ring).
    assert (Hd3 : dot v (unit4 3) == d) by (unfold v; cbn; ring).
    pose proof (Hmin 0%nat ltac:(lia)) as M0. pose proof (Hmin 1%nat ltac:(lia)) as M1.
    pose proof (Hmin 2%nat ltac:(lia)) as M2. pose proof (Hmin 3%nat ltac:(lia)) as M3.
    assert (P : ∀ x, 0 - x * s == 0 → ¬ s == 0 → x == 0).
    { intros x Hx Hns. assert (E : x * s == 0) by lra. apply Qmult_integral in E. tauto. }
    assert (K : ∀ x y, Qabs x <= Qabs y → y == 0 → x == 0).
    { intros x y Hxy Hy. apply A. apply abs0 in Hy. lra. }
    clearbody s.
    inversion Hz as [|? ? ? ? Z0 Zr]; subst; clear Hz; inversion Zr as [|? ? ? ? Z1 Zr1]; subst; clear Zr;
      inversion Zr1 as [|? ? ? ? Z2 Zr2]; subst; clear Zr1; inversion Zr2 as [|? ? ? ? Z3 Zr3]; subst; clear Zr2 Zr3.
    destruct Hs as [Hs|Hs].
    + destruct i as [|[|[|[|i]]]]; cbn in Z0, Z1, Z2, Z3; try lia.
      * rewrite Hs in Z0. lra.
      * rewrite Hs in Z1. lra.
      * rewrite Hs in Z2. lra.
      * rewrite Hs in Z3. lra.
    + assert (N : ¬ dot v (unit4 i) == 0).
      { rewrite <- Hd. intros E. apply Qmult_integral in E. tauto. }
      apply N. destruct i as [|[|[|[|i]]]]; cbn in Z0, Z1, Z2, Z3; try lia.
      * apply (K _ _ M1). rewrite Hd1. apply P; assumption.
      * apply (K _ _ M0). rewrite Hd0. apply P; assumption.
      * apply (K _ _ M0). rewrite Hd0. apply P; assumption.
      * apply (K _ _ M0). rewrite Hd0. apply P; assumption.
Qed.

(** ** Canonical edges *)
Lemma point_cmp_eq a b : same_dim a b → point_cmp a b = Eq ↔ peq a b.
Proof.
  unfold same_dim. revert b. induction a as [|x a IH]; intros [|y b]; cbn; try discriminate; intros Hl.
  - split; [constructor|reflexivity].
  - destruct (x ?= y) eqn:E.
    + apply Qeq_alt in E. rewrite IH by congruence. split; [constructor; assumption|intros H; inversion H; assumption].
    + split; [discriminate|]. intros H; inversion H; subst. rewrite <- Qlt_alt in E. lra.
    + split; [discriminate|]. intros H; inversion H; subst. rewrite <- Qgt_alt in E. lra.
Qed.
Lemma point_cmp_opp a b : same_dim a b → point_cmp b a = CompOpp (point_cmp a b).
Proof.
  unfold same_dim. revert b. induction a as [|x a IH]; intros [|y b]; cbn; try discriminate; intros Hl; [reflexivity|].
  rewrite <- (Qcompare_antisym x y). destruct (x ?= y); cbn; [apply IH; congruence|reflexivity|reflexivity].
Qed.
Lemma point_cmp_trans a b c : same_dim a b → same_dim b c →
  point_cmp a b = Lt → point_cmp b c = Lt → point_cmp a c = Lt.
Proof.
  unfold same_dim. revert b c. induction a as [|x a IH]; intros [|y b] [|z c]; cbn; try discriminate; intros Hl Hl'.
  destruct (x ?= y) eqn:E1; try discriminate; destruct (y ?= z) eqn:E2; try discriminate; intros H1 H2.
  - apply Qeq_alt in E1, E2. assert (E : (x ?= z) = Eq) by (apply Qeq_alt; lra). rewrite E.
    eapply IH; [| |exact H1|exact H2]; congruence.
  - apply Qeq_alt in E1. rewrite <- Qlt_alt in E2. assert (E : (x ?= z) = Lt) by (rewrite <- Qlt_alt; lra). rewrite E. reflexivity.
  - rewrite <- Qlt_alt in E1. apply Qeq_alt in E2. assert (E : (x ?= z) = Lt) by (rewrite <- Qlt_alt; lra). rewrite E. reflexivity.
  - rewrite <- Qlt_alt in E1, E2. assert (E : (x ?= z) = Lt) by (rewrite <- Qlt_alt; lra). rewrite E. reflexivity.
Qed.
Lemma point_cmp_proper a a' b b' : peq a a' → peq b b' → point_cmp a b = point_cmp a' b'.
Proof.
  intros H. revert b b'. induction H as [|x x' a a' Hx H IH]; intros b b' Hb; [reflexivity|].
  destruct Hb as [|y y' b b' Hy Hb]; [reflexivity|]. cbn. rewrite Hx, Hy. rewrite (IH b b' Hb). reflexivity.
Qed.
Lemma canonical_edge_sym a b : same_dim a b →
  canonical_edge_eq (canonical_edge a b) (canonical_edge b a) = true.
Proof.
  intros Hl. unfold canonical_edge_eq, canonical_edge, point_lt. rewrite (point_cmp_opp a b Hl).
  destruct (point_cmp a b) eqn:E; cbn; rewrite andb_true_iff, !coords_eq_ok;
    try (split; apply peq_refl).
  apply point_cmp_eq in E; [|assumption]. split; [apply peq_sym|]; assumption.
Qed.
Lemma canonical_edge_eq_ok a b c d : same_dim a b → same_dim a c → same_dim a d →
  canonical_edge_eq (canonical_edge a b) (canonical_edge c d) = true ↔
  (peq a c ∧ peq b d) ∨ (peq a d ∧ peq b c).
Proof.
  intros Hb Hc Hd. unfold canonical_edge_eq, canonical_edge, point_lt.
  rewrite andb_true_iff, !coords_eq_ok.
  assert (Hcd : same_dim c d) by (unfold same_dim in *; congruence).
  split.
  - destruct (point_cmp a b), (point_cmp c d); cbn; tauto.
  - intros [[H1 H2]|[H1 H2]].
    + rewrite (point_cmp_proper _ _ _ _ H1 H2). destruct (point_cmp c d); cbn; tauto.
    + rewrite (point_cmp_proper _ _ _ _ H1 H2), (point_cmp_opp c d Hcd).
      destruct (point_cmp c d) eqn:E; cbn; try tauto.
      apply point_cmp_eq in E; [|assumption]. split.
      * eapply peq_trans; [exact H2|]. eapply peq_trans; [exact E|]. apply peq_refl.
      * eapply peq_trans; [exact H1|]. apply peq_sym. assumption.
Qed.
