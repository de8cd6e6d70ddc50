(** C144: the exact box of a triangle. *)
From Coq Require Import QArith Lqa Psatz.
From stdpp Require Import prelude.
From Verif Require Import TriBoxModel TriBoxSpec.
From Verif Require GeomModel.
Local Open Scope Q_scope.

Lemma neg_spec x : if GeomModel.is_negative x then x < 0 else 0 <= x.
Proof.
  unfold GeomModel.is_negative. destruct (Qle_bool 0 x) eqn:E; cbn.
  - by apply Qle_bool_iff.
  - apply Qnot_le_lt. intros H. apply Qle_bool_iff in H. congruence.
Qed.
Lemma pos_spec x : if GeomModel.is_positive x then 0 < x else x <= 0.
Proof.
  unfold GeomModel.is_positive. destruct (Qle_bool x 0) eqn:E; cbn.
  - by apply Qle_bool_iff.
  - apply Qnot_le_lt. intros H. apply Qle_bool_iff in H. congruence.
Qed.
Lemma min3_spec a b c : min3 a b c <= a ∧ min3 a b c <= b ∧ min3 a b c <= c ∧ ∀ l, l <= a → l <= b → l <= c → l <= min3 a b c.
Proof.
  unfold min3. pose proof (neg_spec (a - b)) as H. destruct (GeomModel.is_negative (a - b)).
  - pose proof (neg_spec (c - a)) as K. destruct (GeomModel.is_negative (c - a)); repeat split; intros; lra.
  - pose proof (neg_spec (c - b)) as K. destruct (GeomModel.is_negative (c - b)); repeat split; intros; lra.
Qed.
Lemma max3_spec a b c : a <= max3 a b c ∧ b <= max3 a b c ∧ c <= max3 a b c ∧ ∀ l, a <= l → b <= l → c <= l → max3 a b c <= l.
Proof.
  unfold max3. pose proof (pos_spec (a - b)) as H. destruct (GeomModel.is_positive (a - b)).
  - pose proof (pos_spec (c - a)) as K. destruct (GeomModel.is_positive (c - a)); repeat split; intros; lra.
  - pose proof (pos_spec (c - b)) as K. destruct (GeomModel.is_positive (c - b)); repeat split; intros; lra.
Qed.
Lemma map3_lookup f a b c i x y z : a !! i = Some x → b !! i = Some y → c !! i = Some z → map3 f a b c !! i = Some (f x y z).
Proof.
  revert b c i. induction a as [|x' a IH]; intros [|y' b] [|z' c] [|i]; cbn; try discriminate; [|by apply IH]. congruence.
Qed.
Lemma map3_length f a b c : length b = length a → length c = length a → length (map3 f a b c) = length a.
Proof. revert b c. induction a as [|x a IH]; intros [|y b] [|z c]; cbn; try discriminate; intros; [done|]. rewrite IH; congruence. Qed.
Lemma map2_lookup {A B C} (f : A → B → C) a b i x y : a !! i = Some x → b !! i = Some y → map2 f a b !! i = Some (f x y).
Proof. revert b i. induction a as [|x' a IH]; intros [|y' b] [|i]; cbn; try discriminate; [|by apply IH]. congruence. Qed.
Lemma map2_length {A B C} (f : A → B → C) a b : length b = length a → length (map2 f a b) = length a.
Proof. revert b. induction a as [|x a IH]; intros [|y b]; cbn; try discriminate; intros; [done|]. rewrite IH; congruence. Qed.
Lemma min_cmp_eq a b : a <= b → min_by_cmp rat_box a b = a.
Proof.
  intros H. unfold min_by_cmp. cbn. change (rat_cmp_ref a b) with (Qcompare a b). destruct (Qcompare_spec a b) as [| |K]; try done. lra.
Qed.
Lemma max_cmp_eq a b : a <= b → max_by_cmp rat_box a b == b.
Proof.
  intros H. unfold max_by_cmp. cbn. change (rat_cmp_ref a b) with (Qcompare a b). destruct (Qcompare_spec a b) as [K| |K]; try lra.
Qed.

(** C144. compute_triangle_aabb_exact returns a box that contains the closed triangle and is
    part of every box that contains the three corners. *)
Theorem C144_smallest (p0 p1 p2 : list Q) : length p1 = length p0 → length p2 = length p0 →
  let bx := compute_triangle_aabb_exact p0 p1 p2 in
  (∀ p, in_triangle p0 p1 p2 p → in_box (bmin bx) (bmax bx) p) ∧
  ∀ lo hi, in_box lo hi p0 → in_box lo hi p1 → in_box lo hi p2 →
    ∀ q, in_box (bmin bx) (bmax bx) q → in_box lo hi q.
Proof.
  intros E1 E2 bx.
  set (n := length p0) in *.
  assert (length (bmin bx) = n ∧ length (bmax bx) = n) as [Lm LM].
  { unfold bx, compute_triangle_aabb_exact, from_points. cbn [bmin bmax].
    rewrite !map2_length; rewrite ?map3_length; done. }
  assert (∀ i x y z, p0 !! i = Some x → p1 !! i = Some y → p2 !! i = Some z →
    bmin bx !! i = Some (min3 x y z) ∧ ∃ h, bmax bx !! i = Some h ∧ h == max3 x y z) as Hat.
  { intros i x y z Hx Hy Hz. unfold bx, compute_triangle_aabb_exact, from_points. cbn [bmin bmax].
    pose proof (map3_lookup min3 _ _ _ _ _ _ _ Hx Hy Hz) as A. pose proof (map3_lookup max3 _ _ _ _ _ _ _ Hx Hy Hz) as B.
    assert (min3 x y z <= max3 x y z) as K. { pose proof (min3_spec x y z). pose proof (max3_spec x y z). apply Qle_trans with x; tauto. }
    rewrite (map2_lookup _ _ _ _ _ _ A B), (map2_lookup _ _ _ _ _ _ A B).
    rewrite min_cmp_eq by done. split; [done|]. eexists. split; [done|]. by apply max_cmp_eq. }
  assert (∀ i (l : list Q), length l = n → (i < n)%nat → ∃ x, l !! i = Some x) as Hlk.
  { intros i l El Hi. apply lookup_lt_is_Some. lia. }
  split.
  - intros p (L0&L1&L2&u&v&w&Hu&Hv&Hw&Hs&Hp). split; [congruence|]. split; [congruence|].
    intros i t l h Ht Hl Hh.
    assert (i < n)%nat as Hi by (rewrite <- Lm; by eapply lookup_lt_Some).
    destruct (Hlk i p0 eq_refl Hi) as [x Hx], (Hlk i p1 E1 Hi) as [y Hy], (Hlk i p2 E2 Hi) as [z Hz].
    destruct (Hat i x y z Hx Hy Hz) as (A&h'&B&C). rewrite A in Hl. rewrite B in Hh. apply Some_inj in Hl, Hh. subst l h'.
    rewrite C, (Hp i x y z t Hx Hy Hz Ht).
    pose proof (min3_spec x y z) as (A1&A2&A3&_). pose proof (max3_spec x y z) as (B1&B2&B3&_).
    set (mn := min3 x y z) in *. set (mx := max3 x y z) in *.
    assert (mn == u * mn + v * mn + w * mn) as Em. { setoid_replace (u * mn + v * mn + w * mn) with ((u + v + w) * mn) by ring. rewrite Hs. ring. }
    assert (mx == u * mx + v * mx + w * mx) as EM. { setoid_replace (u * mx + v * mx + w * mx) with ((u + v + w) * mx) by ring. rewrite Hs. ring. }
    split; [rewrite Em|rewrite EM]; nra.
  - intros lo hi (L1&M1&H1) (_&_&H2) (_&_&H3) q (Lq&_&Hq). split; [unfold n in *; congruence|]. split; [unfold n in *; congruence|].
    intros i t l h Ht Hl Hh.
    assert (i < n)%nat as Hi by (unfold n; rewrite <- L1; by eapply lookup_lt_Some).
    destruct (Hlk i p0 eq_refl Hi) as [x Hx], (Hlk i p1 E1 Hi) as [y Hy], (Hlk i p2 E2 Hi) as [z Hz].
    destruct (Hat i x y z Hx Hy Hz) as (A&h'&B&C). destruct (Hq i t _ _ Ht A B) as [Q1 Q2].
    destruct (H1 i x l h Hx Hl Hh), (H2 i y l h Hy Hl Hh), (H3 i z l h Hz Hl Hh).
    pose proof (min3_spec x y z) as (_&_&_&A4). pose proof (max3_spec x y z) as (_&_&_&B4). rewrite C in Q2.
    split; [apply Qle_trans with (min3 x y z)|apply Qle_trans with (max3 x y z)]; auto.
Qed.
Print Assumptions C144_smallest.

Example ex_box : compute_triangle_aabb_exact [1; 2; 3] [0; 5; 3] [-(1); 4; 7] = Box [-(1); 2; 3] [1; 5; 7].
Proof. vm_compute. reflexivity. Qed.
Example ex_in : in_triangle [0; 0] [2; 0] [0; 2] [1; 1#2].
Proof.
  split; [done|]. split; [done|]. split; [done|]. exists (1#4), (1#2), (1#4).
  split; [lra|]. split; [lra|]. split; [lra|]. split; [lra|].
  intros [|[|i]] x y z t; cbn; try done; intros [= <-] [= <-] [= <-] [= <-]; lra.
Qed.
