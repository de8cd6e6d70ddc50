(** Points on half-edges and faces. *)
From Verif Require Export SideGeomSpec.
From Coq Require Import Sorted.
From Verif Require Import GeomBase GeomLine GeomTri PointLoc FindHalf MeshQuery2 MeshCompact MeshBase MeshInv MeshWF ClaimsGeom.
From Verif Require Import SideGeomSpec.
Local Open Scope Q_scope.

Lemma inner_lerp p a b t : same_dim a b → same_dim a p → inner p (lerp a b t) a b == inner p a a b - t * inner b a a b.
Proof.
  unfold same_dim, lerp. revert b p. induction a as [|x a IH]; intros [|y b] [|z p] E1 E2; cbn in *; try discriminate; [ring|].
  rewrite IH by congruence. ring.
Qed.

Section sides.
Variables (n : nat) (m : mesh point) (p : point).
Hypothesis (W : WellFormed m) (D : in_dim n m) (Dp : length p = n).

Lemma from_to_fun h a b a' b' : from_to m h a b → from_to m h a' b' → a = a' ∧ b = b'.
Proof.
  intros (u&v&(x&y&[Hx _]&[Hy _]&E1&E2)&A&B) (u'&v'&(x'&y'&[Hx' _]&[Hy' _]&E1'&E2')&A'&B').
  assert (x' = x) as -> by congruence. assert (y' = y) as -> by congruence. subst. split; congruence.
Qed.

Lemma segment_ok h a b : from_to m h a b → segment_from_half_edge m h = Some (a, b).
Proof.
  intros (u&v&Hr&A&B). pose proof Hr as (x&y&Hx&Hy&Eu&Ev). destruct (wfs_prev _ W h x u v Hx Hr) as (z&w&Hz&_&_&Hrz).
  destruct Hrz as (z'&y'&Hz'&_&_&Ez). assert (z' = z) as -> by (destruct Hz, Hz'; congruence).
  unfold segment_from_half_edge, getH. rewrite (proj1 Hx). cbn [mbind option_bind]. rewrite (proj1 Hz). cbn [mbind option_bind].
  rewrite Ez, Ev. by rewrite (place_of_ok m _ _ A), (place_of_ok m _ _ B).
Qed.

Lemma on_half_ok h a b : from_to m h a b →
  ∃ r, point_on_half_edge m h p = Some r ∧ (r = None ↔ ¬ lies_on m p h) ∧ ∀ t, r = Some t → on_at m p h t.
Proof.
  intros Hab. destruct (from_to_dims n m p D Dp h a b Hab) as [E1 E2].
  exists (point_u_on_segment a b p). unfold point_on_half_edge. rewrite (segment_ok h a b Hab). split; [done|].
  assert ((∀ t, point_u_on_segment a b p = Some t → 0 <= t ∧ t <= 1 ∧ peq p (lerp a b t)) ∧
    (point_u_on_segment a b p = None → ¬ on_segment a b p)) as [H1 H2].
  { destruct (peq_dec a b E1) as [Hq|Hq]; [|by apply C37_point_u_on_segment].
    destruct (C37_point_u_on_segment_degenerate a b p E1 E2 Hq) as [H1 H2].
    destruct (peq_dec p a ltac:(done)) as [Hpa|Hpa].
    - rewrite (H1 Hpa). split; [|done]. intros t [= <-]. split; [lra|]. split; [lra|].
      eapply GeomLine.peq_trans; [exact Hpa|]. by apply peq_sym, lerp_same.
    - rewrite (H2 Hpa). split; [done|]. intros _ (t&_&_&Ht). apply Hpa. eapply GeomLine.peq_trans; [exact Ht|]. by apply lerp_same. }
  split; [split|].
  - intros E (a'&b'&Hab'&Hs). destruct (from_to_fun h a b a' b' Hab Hab') as [-> ->]. by apply H2.
  - intros Hn. destruct (point_u_on_segment a b p) as [t|] eqn:E; [|done]. destruct (H1 t eq_refl) as (?&?&?).
    destruct Hn. exists a, b. split; [done|]. by exists t.
  - intros t Ht. destruct (H1 t Ht) as (?&?&?). split; [done|]. split; [done|]. by exists a, b.
Qed.

Lemma on_half_tol_ok h a b tol : from_to m h a b → 0 <= tol →
  ∃ r, point_on_half_edge_with_tolerance m h p tol = Some r ∧
    (is_Some r ↔ ∃ t, 0 <= t ∧ t <= 1 ∧ dist2 p (lerp a b t) <= tol * tol) ∧
    ∀ t, r = Some t → ¬ peq a b → inner p (lerp a b t) a b == 0.
Proof.
  intros Hab Ht. destruct (from_to_dims n m p D Dp h a b Hab) as [E1 E2].
  eexists. unfold point_on_half_edge_with_tolerance. rewrite (segment_ok h a b Hab). split; [done|].
  destruct (peq_dec a b E1) as [Hq|Hq].
  - split; [|done]. unfold point_u_on_segment_with_tolerance.
    assert (dot (psub b a) (psub b a) == 0) as Hz. { rewrite <- dist2_dot. apply dist2_peq. by apply peq_sym. }
    assert (is_zero (dot (psub b a) (psub b a)) = true) as -> by (by apply Qeq_bool_iff).
    assert (∀ t, dist2 p (lerp a b t) == dist2 p a) as Hl by (intros t; apply dist2_proper; by apply lerp_same).
    assert (∀ x y : point, same_dim x y → dist2 x y == dist2 y x) as Hc.
    { unfold same_dim. induction x as [|x xs IH]; intros [|y ys] E; cbn in *; try discriminate; [reflexivity|]. rewrite (IH ys) by congruence. ring. }
    assert (∀ q, same_dim q p → are_approx q p tol = true ↔ dist2 p q <= tol * tol) as Ha.
    { intros q Eq. unfold are_approx. rewrite negb_true_iff. rewrite (Hc p q) by done. rewrite (dist2_dot q p). rewrite is_positive_f. lra. }
    destruct (are_approx a p tol) eqn:Ea.
    + split; [|eauto]. intros _. apply Ha in Ea; [|done]. exists 0. rewrite Hl. split_and!; [lra..|done].
    + assert (are_approx b p tol = false) as ->.
      { destruct (are_approx b p tol) eqn:Eb; [|done]. apply Ha in Eb; [|unfold same_dim in *; congruence].
        assert (dist2 p b == dist2 p a) as Hba by (apply dist2_proper; by apply peq_sym). rewrite Hba in Eb. apply Ha in Eb; [congruence|done]. }
      split; [intros [? [=]]|]. intros (t&_&_&Hd). rewrite Hl in Hd. apply Ha in Hd; [congruence|done].
  - destruct (C62_point_u_on_segment_with_tolerance a b p tol E1 E2 Hq) as [H1 H2]. split.
    + rewrite <- H2. destruct H1 as [-> | ->]; split; try done; eauto. by intros [? [=]].
    + intros t Et _. destruct H1 as [H1|H1]; rewrite H1 in Et; [|done]. injection Et as <-.
      rewrite inner_lerp by done. rewrite !inner_dot. field.
      intros Hz. apply Hq, peq_sym, dist2_zero; [done|]. by rewrite dist2_dot.
Qed.

Lemma side_from_to f h i j : is_side m f h i j → ∃ a b, from_to m h a b.
Proof. intros [(x&y&[Hx Hr]&_) _]. by apply (live_from_to m W h x). Qed.

Lemma some_half_ok f : live_face m f →
  ∃ r e0 e1 e2, point_is_on_some_half_edge m f p = Some r ∧ sides_of m f e0 e1 e2 ∧
    match r with
    | None => ¬ lies_on m p e0 ∧ ¬ lies_on m p e1 ∧ ¬ lies_on m p e2
    | Some (h, t) => on_at m p h t ∧
        (h = e0 ∨ (¬ lies_on m p e0 ∧ h = e1) ∨ (¬ lies_on m p e0 ∧ ¬ lies_on m p e1 ∧ h = e2))
    end.
Proof.
  intros Hf. destruct (wfs_face _ W f Hf) as (i&j&k&Ho). apply WF_iff in W as HW.
  destruct (face_half_edges_ok m HW f i j k Ho) as (e0&e1&e2&E&R0&R1&R2&_&Hl&_).
  assert (∀ e u v, e ∈ [e0; e1; e2] → runs m e u v → is_side m f e u v) as Hs.
  { intros e u v He Hr. split; [done|]. apply Hl in He as [HL Hfc]. exists (he m e). split; [by apply L_getH|done]. }
  pose proof (Hs e0 i j ltac:(set_solver) R0) as S0. pose proof (Hs e1 j k ltac:(set_solver) R1) as S1.
  pose proof (Hs e2 k i ltac:(set_solver) R2) as S2.
  destruct (side_from_to _ _ _ _ S0) as (a0&b0&H0). destruct (side_from_to _ _ _ _ S1) as (a1&b1&H1). destruct (side_from_to _ _ _ _ S2) as (a2&b2&H2).
  destruct (on_half_ok e0 a0 b0 H0) as (r0&E0&N0&Y0). destruct (on_half_ok e1 a1 b1 H1) as (r1&E1&N1&Y1). destruct (on_half_ok e2 a2 b2 H2) as (r2&E2&N2&Y2).
  destruct Hf as (x&Hx&Hr). unfold point_is_on_some_half_edge. change (getF m f) with (faces m !! f). rewrite Hx. cbn [mbind option_bind]. rewrite Hr, E. cbn [mbind option_bind first_side].
  assert (sides_of m f e0 e1 e2) as Hso by (by exists i, j, k).
  rewrite E0. cbn [mbind option_bind]. destruct r0 as [u0|].
  { eexists _, e0, e1, e2. split; [done|]. split; [done|]. cbn. split; [by apply Y0|by left]. }
  pose proof (proj1 N0 eq_refl). rewrite E1. cbn [mbind option_bind]. destruct r1 as [u1|].
  { eexists _, e0, e1, e2. split; [done|]. split; [done|]. cbn. split; [by apply Y1|]. by right; left. }
  pose proof (proj1 N1 eq_refl). rewrite E2. cbn [mbind option_bind]. destruct r2 as [u2|].
  { eexists _, e0, e1, e2. split; [done|]. split; [done|]. cbn. split; [by apply Y2|]. by right; right. }
  pose proof (proj1 N2 eq_refl). by eexists _, e0, e1, e2.
Qed.

(** ** Barycentric coordinates *)
Lemma bary_run near f i j k a b c : oriented_face m f i j k → corners_at m f i j k a b c →
  barycentric_coords_on_face near m f p =
    (w ← point_in_or_on_triangle near p a b c; Some (match w with Off => None | _ => barycentric_coords p a b c end)).
Proof.
  intros Ho (_&A&B&C). unfold barycentric_coords_on_face. rewrite (face_vertices_at m f i j k Ho). cbn [mbind option_bind].
  by rewrite (place_of_ok m _ _ A), (place_of_ok m _ _ B), (place_of_ok m _ _ C).
Qed.
End sides.

Lemma flat_2 a b c : flat (l2 a) (l2 b) (l2 c) ↔ area2 a b c == 0.
Proof.
  unfold flat; rewrite <- gram_zero by done. unfold gram, area2, l2. cbn. 
  split; intros H.
  - assert ((area2 a b c) * (area2 a b c) == 0) as H2 by (rewrite <- H; unfold area2; ring).
    apply Qmult_integral in H2. unfold area2 in H2. tauto.
  - transitivity ((area2 a b c) * (area2 a b c)); [unfold area2; ring|]. unfold area2. rewrite H. ring.
Qed.
Lemma flat_3 a b c : flat (l3 a) (l3 b) (l3 c) ↔ eq3 (cross3 (sub3 b a) (sub3 c a)) (0, 0, 0).
Proof.
  unfold flat; rewrite <- gram_zero by (by destruct a as [[? ?] ?], b as [[? ?] ?], c as [[? ?] ?]).
  destruct a as [[a1 a2] a3], b as [[b1 b2] b3], c as [[c1 c2] c3]. unfold gram, eq3, cross3, sub3, l3. cbn.
  set (x := (b2 - a2) * (c3 - a3) - (b3 - a3) * (c2 - a2)). set (y := (b3 - a3) * (c1 - a1) - (b1 - a1) * (c3 - a3)).
  set (z := (b1 - a1) * (c2 - a2) - (b2 - a2) * (c1 - a1)).
  match goal with |- ?g == 0 ↔ _ => assert (g == x * x + y * y + z * z) as -> by (unfold x, y, z; ring) end.
  pose proof (sq_nonneg x). pose proof (sq_nonneg y). pose proof (sq_nonneg z). split.
  - intros H2. assert (x * x == 0) as Hx by lra. assert (y * y == 0) as Hy by lra. assert (z * z == 0) as Hz by lra.
    apply Qmult_integral in Hx, Hy, Hz. tauto.
  - intros (->&->&->). ring.
Qed.

Lemma triangle_pattern near p a b c x y z : (length p = 2 ∨ length p = 3)%nat → same_dim a b → same_dim a c → same_dim a p →
  (∀ x y z, x == 0 ∨ y == 0 ∨ z == 0 → near x y z = true) → ¬ flat a b c → weights p a b c x y z →
  point_in_or_on_triangle near p a b c = Some (pattern x y z).
Proof.
  unfold same_dim. intros Hn E1 E2 E3 Hnear Hf [Hs Hp].
  destruct Hn as [Hn|Hn].
  - destruct p as [|px [|py [|]]]; try done. destruct a as [|ax [|ay [|]]]; try done. destruct b as [|bx [|yb [|]]]; try done. destruct c as [|cx [|cy [|]]]; try done.
    cbn [point_in_or_on_triangle]. f_equal. apply triangle_2_ok; [done| |done|].
    + by rewrite <- (flat_2 (ax, ay) (bx, yb) (cx, cy)).
    + apply peq_cons_inv in Hp as [H1 Hp]. apply peq_cons_inv in Hp as [H2 _]. split; cbn; rewrite ?H1, ?H2; ring.
  - destruct p as [|px [|py [|pz [|]]]]; try done. destruct a as [|ax [|ay [|az [|]]]]; try done. destruct b as [|bx [|yb [|bz [|]]]]; try done. destruct c as [|cx [|cy [|cz [|]]]]; try done.
    cbn [point_in_or_on_triangle]. f_equal. apply triangle_3_ok; [done| |done|].
    + by rewrite <- (flat_3 (ax, ay, az) (bx, yb, bz) (cx, cy, cz)).
    + apply peq_cons_inv in Hp as [H1 Hp]. apply peq_cons_inv in Hp as [H2 Hp]. apply peq_cons_inv in Hp as [H3 _].
      cbn. unfold eq3. split_and!; rewrite ?H1, ?H2, ?H3; ring.
Qed.
Lemma triangle_total near p a b c : (length p = 2 ∨ length p = 3)%nat → same_dim a b → same_dim a c → same_dim a p →
  ∃ r, point_in_or_on_triangle near p a b c = Some r.
Proof.
  unfold same_dim. intros [Hn|Hn] E1 E2 E3.
  - destruct p as [|px [|py [|]]]; try done. destruct a as [|ax [|ay [|]]]; try done. destruct b as [|bx [|yb [|]]]; try done. destruct c as [|cx [|cy [|]]]; try done. eauto.
  - destruct p as [|px [|py [|pz [|]]]]; try done. destruct a as [|ax [|ay [|az [|]]]]; try done. destruct b as [|bx [|yb [|bz [|]]]]; try done. destruct c as [|cx [|cy [|cz [|]]]]; try done. eauto.
Qed.
Lemma pattern_inside x y z : 0 <= x → 0 <= y → 0 <= z → x + y + z == 1 → pattern x y z ≠ Off.
Proof. intros X Y Z S E. pose proof (pattern_says x y z S ltac:(by left)) as H. rewrite E in H. cbn in H. lra. Qed.
Lemma pattern_off x y z : x + y + z == 1 → (¬ x == 0) → (¬ y == 0) → (¬ z == 0) → x < 0 ∨ y < 0 ∨ z < 0 → pattern x y z = Off.
Proof. intros Hs Hx Hy Hz Hn. pose proof (pattern_says x y z Hs ltac:(tauto)) as H. destruct (pattern x y z) eqn:E; cbn in H; try done; exfalso; lra. Qed.

(** ** The area after a move *)
Lemma area_ok m f i j k v p a b c : oriented_face m f i j k → length a = 3%nat → length b = 3%nat → length c = 3%nat →
  moved_to m v p i a → moved_to m v p j b → moved_to m v p k c →
  ∃ q, area2x4_after_move m f v p = Some q ∧ q == area_sq_4 a b c.
Proof.
  intros Ho La Lb Lc Ha Hb Hc. unfold area2x4_after_move. rewrite (face_vertices_at m f i j k Ho). cbn [mbind option_bind].
  assert (∀ u q, moved_to m v p u q → (if (u =? v)%N then Some p else place_of m u) = Some q) as Hm.
  { intros u q [[-> ->]|[Hne Hq]]; [by rewrite N.eqb_refl|]. rewrite (proj2 (N.eqb_neq _ _)) by done. by apply place_of_ok. }
  rewrite (Hm _ _ Ha), (Hm _ _ Hb), (Hm _ _ Hc). cbn [mbind option_bind].
  destruct a as [|ax [|ay [|az [|]]]]; try done. destruct b as [|bx [|yb [|bz [|]]]]; try done. destruct c as [|cx [|cy [|cz [|]]]]; try done.
  eexists. split; [done|]. unfold area_sq_4. cbn. ring.
Qed.
Lemma area_zero a b c : same_dim a b → same_dim a c → area_sq_4 a b c == 0 ↔ flat a b c.
Proof.
  intros E1 E2. unfold flat; rewrite <- gram_zero by done. unfold area_sq_4, gram. rewrite !inner_dot.
  assert (∀ x y : point, same_dim x y → dist2 x y == dist2 y x) as Hc.
  { unfold same_dim. induction x as [|x xs IH]; intros [|y ys] E; cbn in *; try discriminate; [reflexivity|]. rewrite (IH ys) by congruence. ring. }
  rewrite (Hc a b), (Hc a c) by done. rewrite !dist2_dot. reflexivity.
Qed.

(** ** Border vertices *)
Lemma boundary_vertices_ok {P} (m : mesh P) : (∀ v, (v < nverts m)%N → ∃ r : bool, is_boundary_vertex m v = Some r ∧ (r = true ↔ on_border m v)) →
  ∃ l, boundary_vertices m = Some l ∧ StronglySorted N.lt l ∧ ∀ v, v ∈ l ↔ (v < nverts m)%N ∧ on_border m v.
Proof.
  intros H. unfold boundary_vertices.
  assert (∀ r, (∀ v, v ∈ r → (v < nverts m)%N) → StronglySorted N.lt r →
    ∃ bs, mapM (λ v, b ← is_boundary_vertex m v; Some (v, b)) r = Some bs ∧
      StronglySorted N.lt (fst <$> filter (λ vb : N * bool, snd vb = true) bs) ∧
      ∀ v, v ∈ fst <$> filter (λ vb : N * bool, snd vb = true) bs ↔ v ∈ r ∧ on_border m v) as K.
  { induction r as [|v r IH]; intros Hr Hs.
    - exists []. split; [done|]. split; [constructor|]. intros v. cbn. rewrite elem_of_nil. tauto.
    - apply StronglySorted_inv in Hs as [Hs Hv]. destruct IH as (bs&E&S&I); [intros; apply Hr; by right|done|].
      destruct (H v) as (b&Eb&Hb); [apply Hr; left|]. exists ((v, b) :: bs). cbn [mapM]. rewrite Eb. cbn [mbind option_bind]. rewrite E. cbn [mbind option_bind].
      split; [done|]. destruct b.
      + rewrite filter_cons_True by done. cbn [fmap list_fmap fst]. split.
        * constructor; [done|]. apply Forall_forall. intros w Hw. change (list_fmap) with (@fmap list _) in Hw. apply I in Hw as [Hw _]. rewrite Forall_forall in Hv. by apply Hv.
        * intros w. rewrite !elem_of_cons, I. naive_solver.
      + rewrite filter_cons_False by done. split; [done|]. intros w. rewrite elem_of_cons, I. split; [tauto|].
        intros [[->|?] ?]; [|done]. apply Hb in H0. done. }
  destruct (K (range (nverts m))) as (bs&->&S&I); [intros v; by rewrite range_spec|apply range_sorted|].
  eexists. split; [done|]. split; [done|]. intros v. rewrite I, range_spec. done.
Qed.
