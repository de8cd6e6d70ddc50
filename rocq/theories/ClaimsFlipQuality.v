(** C147: the angle test for edge flips. *)
From Flocq Require Import Core IEEE754.BinarySingleNaN IEEE754.Bits.
From Coq Require Import QArith Qreals Reals Lra Lqa Psatz.
From Verif Require Import MeshRemeshModel MeshRemesh ClaimsMeshRemesh FlipTotal MeshDemo ClaimsCorefine ClaimsFaceFrame FlipQualityModel MeshHistSpec.
From Verif Require Import F64Model F64Base F64Rat FlipQualitySpec.
From Verif Require GeomModel AabbModel.
Local Open Scope Q_scope.

Lemma dist2_nonneg a b : 0 <= dist2 a b.
Proof. unfold dist2, inner3. destruct (from a b) as [[x y] z]. cbn. nra. Qed.
Lemma dist2_sym a b : dist2 a b == dist2 b a.
Proof. unfold dist2, inner3, from. cbn. ring. Qed.
Lemma close_sym a b : too_close a b ↔ too_close b a.
Proof. unfold too_close. by rewrite dist2_sym. Qed.

(** a rational that is not negative becomes 0.0 exactly if it is below the smallest double *)
Lemma to_zero q : 0 <= q → feq (Q_to_f64 q) fzero = true ↔ q < 1 # (2 ^ 1074).
Proof.
  intros Hq. rewrite (feq_t _ _ (proj1 (Q_to_f64_spec q)) (eq_refl : fis_finite fzero = true)).
  assert (val fzero = 0%R) as -> by reflexivity. split.
  - intros E. apply Qnot_le_lt. intros H.
    set (e := f64_from_bits 1).
    assert (fin e) as Fe by reflexivity.
    assert (val e = Q2R (1 # (2 ^ 1074))) as Ve.
    { unfold Q2R. change (Qnum (1 # 2 ^ 1074)) with 1%Z. rewrite Rmult_1_l.
      change (val e) with (F2R (Float radix2 1 (-1074))). unfold F2R. cbn [Fnum Fexp]. rewrite Rmult_1_l.
      change (-1074)%Z with (- (1074))%Z. rewrite bpow_opp. f_equal. }
    apply Qle_Rle in H. apply Qle_Rle in Hq. replace (Q2R 0) with 0%R in Hq by (unfold Q2R; cbn; lra).
    assert (0 < val e)%R. { rewrite Ve. unfold Q2R. cbn [Qnum]. rewrite Rmult_1_l. apply Rinv_0_lt_compat, IZR_lt. reflexivity. }
    pose proof (to_f64_ge e q Fe) as G. rewrite E, Rabs_R0, (Rabs_right (Q2R q)) in G by lra. lra.
  - intros H. destruct (Q_to_f64_spec q) as [_ [->|[_ K]]].
    + assert (tq q = 0%R) as ->; [|apply round_0, _].
      unfold tq. rewrite Z.quot_small; [lra|].
      unfold Qlt, Qle in *. cbn [Qnum Qden] in *. change (Z.pos (2 ^ 1074)) with (2 ^ 1074)%Z in H. lia.
    + exfalso. pose proof (trunc_le_abs (tq q)). pose proof (tq_le q).
      assert (Q2R q <= 1)%R. { replace 1%R with (Q2R 1) by (unfold Q2R; cbn; lra). apply Qle_Rle. apply Qlt_le_weak. eapply Qlt_trans; [exact H|reflexivity]. }
      apply Qle_Rle in Hq. replace (Q2R 0) with 0%R in Hq by (unfold Q2R; cbn; lra).
      rewrite (Rabs_right (Q2R q)) in * by lra.
      assert (bpow radix2 0 < bpow radix2 1024)%R by (apply bpow_lt; lia). cbn [bpow] in *. lra.
Qed.
Lemma dist_zero a b : feq (sq_dist a b) fzero = true ↔ too_close a b.
Proof.
  unfold sq_dist. rewrite sub_from.
  assert (GeomModel.dot3 (from a b) (from a b) = dist2 a b) as ->. { destruct a as [[? ?] ?], b as [[? ?] ?]. reflexivity. }
  apply to_zero, dist2_nonneg.
Qed.
Lemma cos_none a b c : tri_min_angle_cos a b c = None ↔ too_close a b ∨ too_close b c ∨ too_close c a.
Proof.
  unfold tri_min_angle_cos. cbv zeta. rewrite <- !dist_zero.
  destruct (feq (sq_dist a b) fzero), (feq (sq_dist b c) fzero), (feq (sq_dist c a) fzero); cbn; split; try tauto; try discriminate;
    intros [?|[?|?]]; discriminate.
Qed.

(** C147. The test panics exactly if two of the four corners are less than 2^-537 apart. *)
Theorem C147_panics q0 q1 q2 q3 : improves q0 q1 q2 q3 = None ↔
  too_close q0 q1 ∨ too_close q0 q2 ∨ too_close q0 q3 ∨ too_close q1 q2 ∨ too_close q1 q3 ∨ too_close q2 q3.
Proof.
  unfold improves.
  pose proof (cos_none q0 q1 q2) as H1. pose proof (cos_none q1 q0 q3) as H2. pose proof (cos_none q0 q2 q3) as H3. pose proof (cos_none q1 q3 q2) as H4.
  rewrite (close_sym q2 q0) in H1. rewrite (close_sym q1 q0), (close_sym q3 q1) in H2. rewrite (close_sym q3 q0) in H3. rewrite (close_sym q3 q2), (close_sym q2 q1) in H4.
  destruct (tri_min_angle_cos q0 q1 q2); cbn [mbind option_bind]; [|tauto].
  destruct (tri_min_angle_cos q1 q0 q3); cbn [mbind option_bind]; [|tauto].
  destruct (tri_min_angle_cos q0 q2 q3); cbn [mbind option_bind]; [|tauto].
  destruct (tri_min_angle_cos q1 q3 q2); cbn [mbind option_bind]; [|tauto].
  destruct H1 as [_ H1], H2 as [_ H2], H3 as [_ H3], H4 as [_ H4].
  cbv zeta. split; [case_match; discriminate|]. intros H. exfalso.
  assert (∀ x : f64, Some x = None → False) as D by discriminate.
  destruct H as [H|[H|[H|[H|[H|H]]]]]; eapply D; first [apply H1; tauto|apply H2; tauto|apply H3; tauto|apply H4; tauto].
Qed.
Print Assumptions C147_panics.

Lemma area_ok a b c : area_safe a b c = true → proper_tri a b c.
Proof.
  unfold area_safe, proper_tri. rewrite !sub_from. cbv zeta. set (u := from a b). set (v := from a c).
  unfold GeomModel.qlt. intros H%negb_true_iff. intros s t E.
  destruct u as [[x y] z], v as [[x' y'] z']. unfold veq, comb2 in E. cbn in E. destruct E as (E1&E2&E3).
  assert (¬ (y * z' - z * y' == 0 ∧ z * x' - x * z' == 0 ∧ x * y' - y * x' == 0)) as N.
  { intros (N1&N2&N3). apply not_true_iff_false in H. apply H. apply Qle_bool_iff. cbn. rewrite N1, N2, N3. apply Qle_refl. }
  assert (∀ k, k * (y * z' - z * y') == 0 → k * (z * x' - x * z') == 0 → k * (x * y' - y * x') == 0 → k == 0) as K.
  { intros k K1 K2 K3. destruct (Qeq_dec k 0) as [|Hk]; [done|]. destruct N.
    apply Qmult_integral in K1, K2, K3. tauto. }
  split; apply K.
  - setoid_replace (s * (y * z' - z * y')) with (z' * (s * y + t * y') - y' * (s * z + t * z')) by ring. rewrite E2, E3. ring.
  - setoid_replace (s * (z * x' - x * z')) with (x' * (s * z + t * z') - z' * (s * x + t * x')) by ring. rewrite E1, E3. ring.
  - setoid_replace (s * (x * y' - y * x')) with (y' * (s * x + t * x') - x' * (s * y + t * y')) by ring. rewrite E1, E2. ring.
  - setoid_replace (t * (y * z' - z * y')) with (y * (s * z + t * z') - z * (s * y + t * y')) by ring. rewrite E2, E3. ring.
  - setoid_replace (t * (z * x' - x * z')) with (z * (s * x + t * x') - x * (s * z + t * z')) by ring. rewrite E1, E3. ring.
  - setoid_replace (t * (x * y' - y * x')) with (x * (s * y + t * y') - y * (s * x + t * x')) by ring. rewrite E1, E2. ring.
Qed.

(** An accepted flip: the four triangles, old and new, are not flat, and the test has found
    a strictly smaller number for the new pair, with the margin 1e-12. *)
Theorem C147_accepted_partial q0 q1 q2 q3 : improves q0 q1 q2 q3 = Some true →
  proper_tri q0 q1 q2 ∧ proper_tri q1 q0 q3 ∧ proper_tri q0 q2 q3 ∧ proper_tri q1 q3 q2 ∧
  ∃ o1 o2 n1 n2, tri_min_angle_cos q0 q1 q2 = Some o1 ∧ tri_min_angle_cos q1 q0 q3 = Some o2 ∧
    tri_min_angle_cos q0 q2 q3 = Some n1 ∧ tri_min_angle_cos q1 q3 q2 = Some n2 ∧
    fge (fadd (AabbModel.f64_max n1 n2) tiny) (AabbModel.f64_max o1 o2) = false.
Proof.
  unfold improves. intros H.
  destruct (tri_min_angle_cos q0 q1 q2) as [o1|]; cbn [mbind option_bind] in H; [|discriminate].
  destruct (tri_min_angle_cos q1 q0 q3) as [o2|]; cbn [mbind option_bind] in H; [|discriminate].
  destruct (tri_min_angle_cos q0 q2 q3) as [n1|]; cbn [mbind option_bind] in H; [|discriminate].
  destruct (tri_min_angle_cos q1 q3 q2) as [n2|]; cbn [mbind option_bind] in H; [|discriminate].
  cbv zeta in H. destruct (fge _ _) eqn:E; [discriminate|]. apply Some_inj in H.
  apply andb_true_iff in H as [H H4]. apply andb_true_iff in H as [H H3]. apply andb_true_iff in H as [H1 H2].
  split_and!; try by apply area_ok. exists o1, o2, n1, n2. done.
Qed.
Print Assumptions C147_accepted_partial.

Lemma cos_range a2 b2 c2 : flt fone (cos_from a2 b2 c2) = false ∧ flt (cos_from a2 b2 c2) (fneg fone) = false.
Proof.
  unfold cos_from, fgt. cbv zeta. destruct (feq _ _); [split; reflexivity|].
  match goal with |- context [fdiv ?a ?b] => generalize (fdiv a b) end. intros v.
  destruct (flt fone v) eqn:E1; [split; reflexivity|]. destruct (flt v (fneg fone)) eqn:E2; [split; reflexivity|]. done.
Qed.
Lemma max_one x y : AabbModel.f64_max x y = x ∨ AabbModel.f64_max x y = y.
Proof. unfold AabbModel.f64_max. destruct (fis_nan x); [auto|]. destruct (fis_nan y); [auto|]. destruct (flt x y); auto. Qed.
(** the number for a triangle is never above 1 or below -1 *)
Theorem C147_range a b c v : tri_min_angle_cos a b c = Some v → flt fone v = false ∧ flt v (fneg fone) = false.
Proof.
  unfold tri_min_angle_cos. cbv zeta. destruct (_ || _); [discriminate|]. intros <-%Some_inj.
  set (x := cos_from _ _ _). set (y := cos_from (sq_dist c a) _ _). set (z := cos_from (sq_dist a b) _ _).
  destruct (max_one (AabbModel.f64_max x y) z) as [-> | ->]; [destruct (max_one x y) as [-> | ->]|]; apply cos_range.
Qed.
Print Assumptions C147_range.

(** the number for the triangle with the sides 3, 4 and 5 is the double next to 4/5 *)
Example ex_cos : (v ← tri_min_angle_cos (0, 0, 0) (3, 0, 0) (0, 4, 0); f64_to_Q v) = Some (7205759403792794 # 9007199254740992).
Proof. vm_compute. reflexivity. Qed.
(** a flip that helps, and one that does not *)
Example ex_flip : improves (0, 0, 0) (8, 0, 0) (4, 1, 0) (4, -1, 0) = Some true ∧ improves (4, 1, 0) (4, -1, 0) (8, 0, 0) (0, 0, 0) = Some false.
Proof. split; vm_compute; reflexivity. Qed.


(** The test does not ask whether the two triangles form a convex quadrilateral: here the
    pass flips an edge and one of the two new triangles lies upside down on the other. *)
Definition all_counterclockwise (m : mesh vec) : Prop := ∀ f i j k a b c, oriented_face m f i j k →
  vpos <$> verts m !! i = Some a → vpos <$> verts m !! j = Some b → vpos <$> verts m !! k = Some c → counterclockwise a b c.
Definition bent_ops : list (op vec) :=
  map AddVertex [(0, 0, 0); (1, 0, 0); (5, 1, 0); (5, -1, 0)] ++ [AddTriangle 0 1 2; AddTriangle 1 0 3].
Definition no_degen (_ _ _ _ : vec) : bool := false.
Definition bent : mesh vec := default mesh_new (exec_all no_degen mesh_new bent_ops).
Lemma bent_wf : WellFormed bent.
Proof.
  unfold bent. assert (is_Some (exec_all no_degen mesh_new bent_ops)) as [m E].
  { assert (match exec_all no_degen mesh_new bent_ops with Some _ => true | None => false end = true) as H by (vm_compute; reflexivity).
    destruct (exec_all no_degen mesh_new bent_ops); [eauto|discriminate H]. }
  rewrite E. cbn [default]. apply (demo_wf no_degen bent_ops); [vm_compute; reflexivity|vm_compute; discriminate|exact E].
Qed.
Lemma bent_faces f : is_Some (faces bent !! f) → f = 0%N ∨ f = 1%N.
Proof.
  intros [x H]. apply elem_of_map_to_list in H. apply (elem_of_list_fmap_1 fst) in H. change (f ∈ (map_to_list (faces bent)).*1) in H.
  assert ((map_to_list (faces bent)).*1 = [0%N; 1%N]) as E by (vm_compute; reflexivity).
  rewrite E in H. rewrite !elem_of_cons, elem_of_nil in H. tauto.
Qed.
Lemma bent_ccw : all_counterclockwise bent.
Proof.
  intros f i j k a b c Ho A B C. assert (is_Some (faces bent !! f)) as Hf. { destruct Ho as (?&?&?&?&?&?&E&_). eauto. }
  apply read_face_all in Ho. apply bent_faces in Hf as [-> | ->].
  - assert (read_face bent 0 = Some (0, 1, 2)%N) as E by (vm_compute; reflexivity). rewrite E in Ho. injection Ho as <- <- <-.
    assert (vpos <$> verts bent !! 0%N = Some (0, 0, 0)) as E0 by (vm_compute; reflexivity).
    assert (vpos <$> verts bent !! 1%N = Some (1, 0, 0)) as E1 by (vm_compute; reflexivity).
    assert (vpos <$> verts bent !! 2%N = Some (5, 1, 0)) as E2 by (vm_compute; reflexivity).
    pose proof (Some_inj _ _ (eq_trans (eq_sym A) E0)) as ->. pose proof (Some_inj _ _ (eq_trans (eq_sym B) E1)) as ->. pose proof (Some_inj _ _ (eq_trans (eq_sym C) E2)) as ->. unfold counterclockwise. cbn. split_and!; lra.
  - assert (read_face bent 1 = Some (1, 0, 3)%N) as E by (vm_compute; reflexivity). rewrite E in Ho. injection Ho as <- <- <-.
    assert (vpos <$> verts bent !! 1%N = Some (1, 0, 0)) as E0 by (vm_compute; reflexivity).
    assert (vpos <$> verts bent !! 0%N = Some (0, 0, 0)) as E1 by (vm_compute; reflexivity).
    assert (vpos <$> verts bent !! 3%N = Some (5, -1, 0)) as E2 by (vm_compute; reflexivity).
    pose proof (Some_inj _ _ (eq_trans (eq_sym A) E0)) as ->. pose proof (Some_inj _ _ (eq_trans (eq_sym B) E1)) as ->. pose proof (Some_inj _ _ (eq_trans (eq_sym C) E2)) as ->. unfold counterclockwise. cbn. split_and!; lra.
Qed.
Theorem C147_folds_refuted : ¬ (∀ m m' n, WellFormed m → all_counterclockwise m →
  flip_edges improves area_guard m = Some (m', n) → all_counterclockwise m').
Proof.
  intros H.
  assert (match flip_edges improves area_guard bent with
    | Some (m', _) => (orientedb m' 1 1 2 3, vpos <$> verts m' !! 1%N, vpos <$> verts m' !! 2%N, vpos <$> verts m' !! 3%N)
    | None => (false, None, None, None) end = (true, Some (1, 0, 0), Some (5, 1, 0), Some (5, -1, 0))) as E.
  { vm_compute. reflexivity. }
  destruct (flip_edges improves area_guard bent) as [[m' n]|] eqn:F; [|discriminate E].
  pose proof (f_equal (λ x, x.1.1.1) E) as E1. pose proof (f_equal (λ x, x.1.1.2) E) as E2.
  pose proof (f_equal (λ x, x.1.2) E) as E3. pose proof (f_equal (λ x, x.2) E) as E4. cbn beta iota delta [fst snd] in E1, E2, E3, E4. apply orientedb_ok in E1.
  destruct (H bent m' n bent_wf bent_ccw F _ _ _ _ _ _ _ E1 E2 E3 E4) as (_&_&_&K). vm_compute in K. discriminate K.
Qed.
Print Assumptions C147_folds_refuted.

(** With two corners at the same place the pass panics. *)
Definition pinched_ops : list (op vec) :=
  map AddVertex [(0, 0, 0); (1, 0, 0); (0, 1, 0); (0, 1, 0)] ++ [AddTriangle 0 1 2; AddTriangle 1 0 3].
Definition pinched : mesh vec := default mesh_new (exec_all no_degen mesh_new pinched_ops).
Lemma pinched_wf : WellFormed pinched.
Proof.
  unfold pinched. assert (is_Some (exec_all no_degen mesh_new pinched_ops)) as [m E].
  { assert (match exec_all no_degen mesh_new pinched_ops with Some _ => true | None => false end = true) as H by (vm_compute; reflexivity).
    destruct (exec_all no_degen mesh_new pinched_ops); [eauto|discriminate H]. }
  rewrite E. cbn [default]. apply (demo_wf no_degen pinched_ops); [vm_compute; reflexivity|vm_compute; discriminate|exact E].
Qed.
Theorem C147_total_refuted : ¬ (∀ m : mesh vec, WellFormed m → flip_edges improves area_guard m ≠ None).
Proof. intros H. apply (H pinched pinched_wf). vm_compute. reflexivity. Qed.
Print Assumptions C147_total_refuted.

(** The pass does not panic if different vertices are at least 2^-537 apart. *)
Theorem C147_total_partial (m : mesh vec) : WellFormed m →
  (∀ i j a b, i ≠ j → vpos <$> verts m !! i = Some a → vpos <$> verts m !! j = Some b → ¬ too_close a b) →
  ∃ m' n, flip_edges improves area_guard m = Some (m', n) ∧ WellFormed m' ∧ same_positions m m'.
Proof.
  intros W H. pose proof (C81_flip_pass improves area_guard m W) as K.
  pose proof (pass_total improves area_guard m W) as T.
  destruct (flip_edges improves area_guard m) as [[m' n]|].
  - exists m', n. destruct K as (K1&_&K2&_). exact (conj eq_refl (conj K1 K2)).
  - exfalso. apply T; [|reflexivity]. clear K T.
    intros a b c d pa pb pc pd (N1&N2&N3&N4&N5&N6) A B C D E. apply C147_panics in E.
    destruct E as [E|[E|[E|[E|[E|E]]]]].
    + exact (H a b pa pb N1 A B E).
    + exact (H a c pa pc N2 A C E).
    + exact (H a d pa pd N3 A D E).
    + exact (H b c pb pc N4 B C E).
    + exact (H b d pb pd N5 B D E).
    + exact (H c d pc pd N6 C D E).
Qed.
Print Assumptions C147_total_partial.
(** the mesh of the refutation meets the hypothesis *)
Example ex_apart i j a b : i ≠ j → vpos <$> verts bent !! i = Some a → vpos <$> verts bent !! j = Some b → ¬ too_close a b.
Proof.
  assert (∀ k p, vpos <$> verts bent !! k = Some p → (k = 0%N ∧ p = (0, 0, 0)) ∨ (k = 1%N ∧ p = (1, 0, 0)) ∨ (k = 2%N ∧ p = (5, 1, 0)) ∨ (k = 3%N ∧ p = (5, -1, 0))) as L.
  { intros k p Hp. destruct (verts bent !! k) as [x|] eqn:E; [|discriminate Hp]. apply Some_inj in Hp. subst p. apply elem_of_map_to_list in E.
    apply (elem_of_list_fmap_1 (λ y, (y.1, vpos y.2))) in E. cbn [fst snd] in E.
    assert ((λ y, (y.1, vpos y.2)) <$> map_to_list (verts bent) = [(0%N, (0, 0, 0)); (1%N, (1, 0, 0)); (3%N, (5, -1, 0)); (2%N, (5, 1, 0))]) as M by (vm_compute; reflexivity).
    pose proof (eq_rect _ (λ l, (k, vpos x) ∈ l) E _ M) as E'. cbn beta in E'. rewrite !elem_of_cons, elem_of_nil in E'.
    destruct E' as [E'|[E'|[E'|[E'|E']]]]; [..|destruct E']; pose proof (conj (f_equal fst E') (f_equal snd E')) as E2; cbn [fst snd] in E2;
      [left; exact E2|right; left; exact E2|right; right; right; exact E2|right; right; left; exact E2]. }
  intros Hij [[-> ->]|[[-> ->]|[[-> ->]|[-> ->]]]]%L [[-> ->]|[[-> ->]|[[-> ->]|[-> ->]]]]%L;
    first [exfalso; apply Hij; reflexivity|vm_compute; discriminate].
Qed.
