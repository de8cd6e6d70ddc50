(** The geometric claims, over an exact scalar: a rational number per coordinate. *)
From Verif Require Export GeomSeg3.

(** ** C35: are_collinear *)
Theorem C35_are_collinear a b c : same_dim a b → same_dim a c → ¬ peq a b →
  are_collinear a b c = true ↔ on_line a b c.
Proof. exact (are_collinear_ne a b c). Qed.
Theorem C35_are_collinear_degenerate a b c : same_dim a c → peq a b →
  are_collinear a b c = true ↔ peq c a.
Proof. exact (are_collinear_eq a b c). Qed.
Example C35_case : are_collinear [0; 0; 1] [1; 2; 3] [3; 6; 7] = true ∧ are_collinear [0; 0; 1] [1; 2; 3] [3; 6; 8] = false ∧
  ¬ peq [0; 0; 1] [1; 2; 3].
Proof. split; [reflexivity|]. split; [reflexivity|]. intros H. apply peq_cons_inv in H as [H _]. discriminate. Qed.
Print Assumptions C35_are_collinear.
Print Assumptions C35_are_collinear_degenerate.

(** ** C36: is_point_on_segment.  False at the start point; right elsewhere. *)
Theorem C36_is_point_on_segment_partial p a b : same_dim p a → same_dim p b → ¬ peq p a → ¬ peq a b →
  is_point_on_segment p a b = true ↔ on_segment a b p.
Proof. exact (is_point_on_segment_ne p a b). Qed.
Theorem C36_is_point_on_segment_start_refuted : ∀ a b, same_dim a b → ¬ peq a b →
  on_segment a b a ∧ is_point_on_segment a a b = false.
Proof.
  intros a b E Hne. split.
  - exists 0. split; [lra|]. split; [lra|]. clear Hne. revert b E. unfold same_dim.
    induction a as [|x a IH]; intros [|y b] E; cbn in E; try discriminate; constructor; [cbn; ring|]. apply IH. congruence.
  - destruct (is_point_on_segment a a b) eqn:H; [|reflexivity]. apply is_point_on_segment_start in H; [|reflexivity|assumption|apply peq_refl].
    exfalso. apply Hne. apply peq_sym. assumption.
Qed.
Example C36_case : is_point_on_segment [1; 1] [0; 0] [2; 2] = true ∧ is_point_on_segment [2; 2] [0; 0] [2; 2] = true ∧
  is_point_on_segment [0; 0] [0; 0] [2; 2] = false ∧ is_point_on_segment [3; 3] [0; 0] [2; 2] = false.
Proof. repeat split. Qed.
Print Assumptions C36_is_point_on_segment_partial.
Print Assumptions C36_is_point_on_segment_start_refuted.

(** ** C37: point_u_on_segment *)
Theorem C37_point_u_on_segment a b p : same_dim a b → same_dim a p → ¬ peq a b →
  (∀ u, point_u_on_segment a b p = Some u → 0 <= u ∧ u <= 1 ∧ peq p (lerp a b u)) ∧
  (point_u_on_segment a b p = None → ¬ on_segment a b p).
Proof. exact (point_u_ok a b p). Qed.
Theorem C37_point_u_on_segment_degenerate a b p : same_dim a b → same_dim a p → peq a b →
  (peq p a → point_u_on_segment a b p = Some 0) ∧ (¬ peq p a → point_u_on_segment a b p = None).
Proof. exact (point_u_deg a b p). Qed.
Theorem C37_parameter_unique a b t u : same_dim a b → ¬ peq a b → peq (lerp a b t) (lerp a b u) → t == u.
Proof. exact (lerp_inj a b t u). Qed.
Theorem C37_midpoint a b : same_dim a b → peq (midpoint a b) (lerp a b (1 # 2)).
Proof. exact (midpoint_ok a b). Qed.
Theorem C37_parameter_of_point a b p t : same_dim a b → ¬ peq a b → peq p (lerp a b t) → parameter_of_point a b p == t.
Proof. exact (parameter_of_point_ok a b p t). Qed.
Example C37_case : (∃ u, point_u_on_segment [0; 0] [4; 2] [1; (1 # 2)] = Some u ∧ u == 1 # 4) ∧ point_u_on_segment [0; 0] [4; 2] [1; 1] = None.
Proof. split; [eexists; split; reflexivity|reflexivity]. Qed.
Print Assumptions C37_point_u_on_segment.
Print Assumptions C37_point_u_on_segment_degenerate.
Print Assumptions C37_parameter_unique.
Print Assumptions C37_midpoint.
Print Assumptions C37_parameter_of_point.

(** ** C62: point_u_on_segment_with_tolerance accepts exactly the points within the
    tolerance of the segment and returns the parameter of the projection *)
Theorem C62_point_u_on_segment_with_tolerance a b p tol : same_dim a b → same_dim a p → ¬ peq a b →
  let u := dot (psub p a) (psub b a) / dot (psub b a) (psub b a) in
  (point_u_on_segment_with_tolerance a b p tol = Some u ∨ point_u_on_segment_with_tolerance a b p tol = None) ∧
  (point_u_on_segment_with_tolerance a b p tol = Some u ↔
   ∃ t, 0 <= t ∧ t <= 1 ∧ dist2 p (lerp a b t) <= tol * tol).
Proof. exact (point_u_tol_ok a b p tol). Qed.
Example C62_case : (∃ u, point_u_on_segment_with_tolerance [0; 0] [4; 0] [1; (1 # 2)] (1 # 2) = Some u ∧ u == 1 # 4) ∧
  point_u_on_segment_with_tolerance [0; 0] [4; 0] [1; (1 # 2)] (1 # 4) = None.
Proof. split; [eexists; split; reflexivity|reflexivity]. Qed.
Print Assumptions C62_point_u_on_segment_with_tolerance.

(** ** C38: orient.  The code multiplies every pivot into the result, so the answer is
    the determinant times a power of the leading minors. *)
Theorem C38_orient_2_partial a b c : orient (l2 a) [l2 b; l2 c] == (fst b - fst a) * area2 a b c.
Proof. exact (orient_2_ok a b c). Qed.
Theorem C38_orient_2_refuted : ∃ a b c, 0 < area2 a b c ∧ orient (l2 a) [l2 b; l2 c] < 0.
Proof. exists (0, 0), (-1, 0), (0, -1). split; reflexivity. Qed.
Theorem C38_orient_2_vertical_refuted : ∃ a b c, 0 < area2 a b c ∧ orient (l2 a) [l2 b; l2 c] == 0.
Proof. exists (0, 0), (0, 1), (-1, 0). split; reflexivity. Qed.
Theorem C38_orient_3_partial x0 y0 z0 x1 y1 z1 x2 y2 z2 d :
  let a := (x0, y0, z0) in let b := (x1, y1, z1) in let c := (x2, y2, z2) in
  let m00 := x1 - x0 in
  let m11 := (y2 - y0) * (x1 - x0) - (x2 - x0) * (y1 - y0) in
  (~ m00 == 0 → ~ m11 == 0 →
   orient (l3 a) [l3 b; l3 c; l3 d] == m00 * m00 * m11 * vol6 a b c d) ∧
  (m00 == 0 ∨ m11 == 0 → orient (l3 a) [l3 b; l3 c; l3 d] == 0).
Proof. exact (orient_3_ok (x0, y0, z0) (x1, y1, z1) (x2, y2, z2) d). Qed.
Theorem C38_orient_3_refuted : ∃ a b c d, 0 < vol6 a b c d ∧ orient (l3 a) [l3 b; l3 c; l3 d] < 0.
Proof. exists (0, 0, 0), (1, 0, 0), (0, -1, 0), (0, 0, -1). split; reflexivity. Qed.
Print Assumptions C38_orient_2_partial.
Print Assumptions C38_orient_2_refuted.
Print Assumptions C38_orient_2_vertical_refuted.
Print Assumptions C38_orient_3_partial.
Print Assumptions C38_orient_3_refuted.

(** ** C39: segments of the plane.  Right for segments that are not vertical and, if
    they lie on one line, have a common point. *)
Theorem C39_segment_segment_2_partial a b c d : ~ fst a == fst b → ~ fst c == fst d →
  (parallel2 a b c d → area2 a b c == 0 → ∃ p, on_seg2 a b p ∧ on_seg2 c d p) →
  right_answer2 a b c d (segment_segment_intersection_2 a b c d).
Proof.
  intros Hab Hcd Hmeet. destruct (Qeq_dec ((fst b - fst a) * (snd d - snd c)) ((snd b - snd a) * (fst d - fst c))) as [Hp|Hp].
  - destruct (Qeq_dec (area2 a b c) 0) as [Ha|Ha].
    + assert (¬ eq2 a b) as Hne by (intros [? _]; contradiction).
      assert (area2 a b d == 0) as Ha' by (pose proof (area_rel a b c d); unfold parallel2 in Hp; lra).
      destruct (seg2_collinear a b c d Hne Ha Ha') as (p & q & -> & H). cbn. intros r. symmetry. apply H. apply Hmeet; assumption.
    + destruct (seg2_parallel a b c d Hab Hcd Hp Ha) as [-> H]. exact H.
  - destruct (seg2_proper a b c d Hab Hcd Hp) as [(p & -> & H1 & H2)|[-> H]]; [|exact H]. cbn. intros r. split.
    + intros [(s & _ & _ & [Sx Sy]) (t & _ & _ & [Tx Ty])]. destruct H1 as (s' & _ & _ & [Sx' Sy']), H2 as (t' & _ & _ & [Tx' Ty']).
      destruct a as [ax ay], b as [bx by_], c as [cx cy], d as [dx dy], r as [rx ry], p as [px py]. unfold eq2, at2 in *. cbn in *.
      assert ((s - s') * (bx - ax) == (t - t') * (dx - cx)) as F1 by lra. assert ((s - s') * (by_ - ay) == (t - t') * (dy - cy)) as F2 by lra.
      assert ((s - s') * ((bx - ax) * (dy - cy) - (by_ - ay) * (dx - cx)) == 0) as F3.
      { transitivity ((s - s') * (bx - ax) * (dy - cy) - (s - s') * (by_ - ay) * (dx - cx)); [ring|]. rewrite F1, F2. ring. }
      apply Qmult_integral in F3 as [F3|F3]; [|exfalso; apply Hp; lra].
      assert (s == s') as Es by lra. rewrite Sx, Sy, Sx', Sy', Es. split; reflexivity.
    + intros E. assert (∀ x y, on_seg2 x y p → on_seg2 x y r) as Hr.
      { intros x y (s & S0 & S1 & Hs). exists s. split; [assumption|]. split; [assumption|]. eapply eq2_trans; eassumption. }
      split; apply Hr; assumption.
Qed.
Theorem C39_vertical_refuted : ∃ a b c d p,
  segment_segment_intersection_2 a b c d = IPoint p ∧ ¬ on_seg2 c d p.
Proof.
  exists (0, -1), (0, 1), (1, 0), (2, 0), (0 # 2, 0 # 2). split; [vm_compute; reflexivity|].
  intros (t & H0 & H1 & [Hx Hy]). cbn in *. lra.
Qed.
Theorem C39_collinear_gap_refuted : ∃ a b c d p q,
  segment_segment_intersection_2 a b c d = IOverlap p q ∧ ∀ r, ¬ (on_seg2 a b r ∧ on_seg2 c d r).
Proof.
  exists (0, 0), (1, 0), (2, 0), (3, 0), (1, 0), (2, 0). split; [reflexivity|].
  intros r [(s & S0 & S1 & [Sx _]) (t & T0 & T1 & [Tx _])]. cbn in *. lra.
Qed.
Example C39_case : ∃ p, segment_segment_intersection_2 (0, 0) (2, 2) (0, 2) (2, 0) = IPoint p ∧ eq2 p (1, 1).
Proof. eexists. split; [reflexivity|]. split; reflexivity. Qed.
Print Assumptions C39_segment_segment_2_partial.
Print Assumptions C39_vertical_refuted.
Print Assumptions C39_collinear_gap_refuted.

(** ** C40: segments of space *)
Theorem C40_segment_segment_3_partial q1 q2 r1 r2 : ¬ eq3 q1 q2 → ¬ eq3 r1 r2 →
  (parallel3 q1 q2 r1 r2 → (∃ s, eq3 r1 (at3 q1 q2 s)) → ∃ p, on_seg3 q1 q2 p ∧ on_seg3 r1 r2 p) →
  right_answer3 q1 q2 r1 r2 (segment_segment_intersection_3 q1 q2 r1 r2).
Proof.
  intros Hq Hr Hmeet.
  destruct (Qeq_dec (dot3 (sub3 q2 q1) (sub3 q2 q1) * dot3 (sub3 r2 r1) (sub3 r2 r1) - dot3 (sub3 q2 q1) (sub3 r2 r1) * dot3 (sub3 q2 q1) (sub3 r2 r1)) 0) as [Hp|Hp];
    rewrite (lagrange q1 q2 r1 r2) in Hp.
  - destruct (are_collinear (l3 q1) (l3 q2) (l3 r1)) eqn:Ec.
    + apply on_line_3 in Ec; [|assumption]. destruct Ec as [s Hs]. pose proof (Hmeet Hp (ex_intro _ s Hs)) as Hm.
      destruct (parallel3_multiple q1 q2 r1 r2 Hq Hp) as [k Hk]. specialize (Hk 1).
      assert (eq3 r2 (at3 q1 q2 (s + k))) as Hs'.
      { pose proof (eq3_trans _ _ _ (at3_1 r1 r2) Hk) as H. clear -H Hs.
        destruct q1 as [[a1 a2] a3], q2 as [[b1 b2] b3], r1 as [[c1 c2] c3], r2 as [[d1 d2] d3]. unfold eq3, at3, along3, sub3 in *.
        destruct H as (H1 & H2 & H3), Hs as (S1 & S2 & S3). rewrite H1, H2, H3, S1, S2, S3. repeat split; ring. }
      destruct (seg3_collinear q1 q2 r1 r2 s (s + k) Hq Hs Hs') as (p & q & -> & H). cbn. intros r. symmetry. apply H. assumption.
    + assert (¬ ∃ s, eq3 r1 (at3 q1 q2 s)) as Hoff by (intros H; apply (on_line_3 q1 q2 r1 Hq) in H; congruence).
      destruct (seg3_parallel q1 q2 r1 r2 Hq Hp Hoff) as [-> H]. exact H.
  - destruct (seg3_proper q1 q2 r1 r2 Hp) as (H1 & H2 & H3). destruct (segment_segment_intersection_3 q1 q2 r1 r2) as [|p|p q]; cbn.
    + apply H2. reflexivity.
    + destruct (H1 p eq_refl) as (Ha & Hb & Hu). intros r. split; [intros [? ?]; apply Hu; assumption|]. intros E.
      assert (∀ x y, on_seg3 x y p → on_seg3 x y r) as Hr'.
      { intros x y (s & S0 & S1 & Hs). exists s. split; [assumption|]. split; [assumption|]. eapply eq3_trans; eassumption. }
      split; apply Hr'; assumption.
    + exfalso. apply (H3 p q). reflexivity.
Qed.
Theorem C40_not_parallel q1 q2 r1 r2 : ¬ parallel3 q1 q2 r1 r2 →
  right_answer3 q1 q2 r1 r2 (segment_segment_intersection_3 q1 q2 r1 r2).
Proof.
  intros Hp. apply C40_segment_segment_3_partial; [..|intros H; contradiction].
  - intros H. apply Hp. destruct q1 as [[a1 a2] a3], q2 as [[b1 b2] b3], r1 as [[c1 c2] c3], r2 as [[d1 d2] d3]. unfold parallel3, eq3 in *.
    destruct H as (-> & -> & ->). repeat split; ring.
  - intros H. apply Hp. destruct q1 as [[a1 a2] a3], q2 as [[b1 b2] b3], r1 as [[c1 c2] c3], r2 as [[d1 d2] d3]. unfold parallel3, eq3 in *.
    destruct H as (-> & -> & ->). repeat split; ring.
Qed.
Theorem C40_collinear_gap_refuted : ∃ q1 q2 r1 r2 p q,
  segment_segment_intersection_3 q1 q2 r1 r2 = IOverlap p q ∧ ∀ r, ¬ (on_seg3 q1 q2 r ∧ on_seg3 r1 r2 r).
Proof.
  exists (0, 0, 0), (1, 0, 0), (2, 0, 0), (3, 0, 0), (1, 0, 0), (2, 0, 0). split; [reflexivity|].
  intros [[x y] z] [(s & S0 & S1 & (Sx & _)) (t & T0 & T1 & (Tx & _))]. cbn in *. lra.
Qed.
Example C40_case : ∃ p, segment_segment_intersection_3 (0, 0, 1) (2, 2, 1) (0, 2, 1) (2, 0, 1) = IPoint p ∧ eq3 p (1, 1, 1) ∧
  ¬ parallel3 (0, 0, 1) (2, 2, 1) (0, 2, 1) (2, 0, 1).
Proof. eexists. split; [reflexivity|]. split; [repeat split; reflexivity|]. intros (_ & _ & H). discriminate. Qed.
Print Assumptions C40_segment_segment_3_partial.
Print Assumptions C40_not_parallel.
Print Assumptions C40_collinear_gap_refuted.

(** ** C41: edge_edge_intersection_2.  The point is on the first edge only. *)
Theorem C41_edge_edge_first_partial q1 q2 q3 q4 p : edge_edge_intersection_2 q1 q2 q3 q4 = Some p → on_seg2 q1 q2 p.
Proof. exact (edge_edge_on_first q1 q2 q3 q4 p). Qed.
Theorem C41_edge_edge_refuted : ∃ q1 q2 q3 q4 p, edge_edge_intersection_2 q1 q2 q3 q4 = Some p ∧ ¬ on_seg2 q3 q4 p.
Proof.
  exists (0, 0), (2, 0), (-1, -1), (-1, 1), (4 # 4, 0 # 4). split; [vm_compute; reflexivity|].
  intros (t & H0 & H1 & [Hx Hy]). cbn in *. lra.
Qed.
(** edges that cross properly are reported as disjoint *)
Theorem C41_edge_edge_missed_refuted : ∃ q1 q2 q3 q4, edge_edge_intersection_2 q1 q2 q3 q4 = None ∧
  ∃ p, on_seg2 q1 q2 p ∧ on_seg2 q3 q4 p.
Proof.
  exists (0, 0), (2, 0), (1, -1), (1, 1). split; [reflexivity|]. exists (1, 0).
  split; exists (1 # 2); (split; [discriminate|]); (split; [discriminate|]); split; reflexivity.
Qed.
Print Assumptions C41_edge_edge_first_partial.
Print Assumptions C41_edge_edge_refuted.
Print Assumptions C41_edge_edge_missed_refuted.

(** ** C42: rays against segments; the reported hit is the first one *)
Theorem C42_ray_segment o d a b : ¬ eq2 d (0, 0) →
  (∀ t u, ray_segment_intersection_2d o d a b = Some (t, u) →
     0 <= t ∧ 0 <= u ∧ u <= 1 ∧ eq2 (ray2 o d t) (at2 a b u) ∧
     ∀ t', 0 <= t' → on_seg2 a b (ray2 o d t') → t <= t') ∧
  (ray_segment_intersection_2d o d a b = None → ∀ t', 0 <= t' → ¬ on_seg2 a b (ray2 o d t')).
Proof. exact (ray_segment_ok o d a b). Qed.
Example C42_case : (∃ t u, ray_segment_intersection_2d (0, 0) (1, 1) (2, 0) (0, 2) = Some (t, u) ∧ t == 1 ∧ u == 1 # 2) ∧
  (∃ t u, ray_segment_intersection_2d (0, 0) (1, 1) (3, 3) (2, 2) = Some (t, u) ∧ t == 2 ∧ u == 1) ∧
  ray_segment_intersection_2d (0, 0) (1, 1) (2, 0) (3, 1) = None.
Proof.
  split; [eexists _, _; split; [reflexivity|split; reflexivity]|]. split; [eexists _, _; split; [reflexivity|split; reflexivity]|]. reflexivity.
Qed.
Print Assumptions C42_ray_segment.

(** ** C43: rays against triangles; the tolerance of an exact scalar is zero *)
Theorem C43_ray_triangle o d v0 v1 v2 : ~ vol6 v0 v1 v2 (ray3 v0 d 1) == 0 →
  (∀ t u v, ray_triangle_intersection 0 o d v0 v1 v2 = Some (t, u, v) →
     0 <= t ∧ 0 <= u ∧ 0 <= v ∧ u + v <= 1 ∧ eq3 (ray3 o d t) (comb3 (1 - u - v) u v v0 v1 v2)) ∧
  (ray_triangle_intersection 0 o d v0 v1 v2 = None →
     ∀ t u v, 0 <= t → 0 <= u → 0 <= v → u + v <= 1 → ¬ eq3 (ray3 o d t) (comb3 (1 - u - v) u v v0 v1 v2)).
Proof.
  intros H. apply ray_triangle_ok. intros E. apply H. rewrite <- (Qmult_0_r (-1)), <- E.
  destruct v0 as [[a1 a2] a3], v1 as [[b1 b2] b3], v2 as [[c1 c2] c3], d as [[d1 d2] d3]. unfold vol6, ray3, dot3, sub3, cross3. ring.
Qed.
(** a ray in a plane parallel to the triangle is never reported *)
Theorem C43_ray_triangle_parallel o d v0 v1 v2 : vol6 v0 v1 v2 (ray3 v0 d 1) == 0 →
  ray_triangle_intersection 0 o d v0 v1 v2 = None.
Proof.
  intros H. apply ray_triangle_parallel. rewrite <- (Qmult_0_r (-1)), <- H.
  destruct v0 as [[a1 a2] a3], v1 as [[b1 b2] b3], v2 as [[c1 c2] c3], d as [[d1 d2] d3]. unfold vol6, ray3, dot3, sub3, cross3. ring.
Qed.
Example C43_case : (∃ t u v, ray_triangle_intersection 0 (1, 1, 5) (0, 0, -1) (0, 0, 0) (4, 0, 0) (0, 4, 0) = Some (t, u, v) ∧ t == 5) ∧
  ray_triangle_intersection 0 (3, 3, 5) (0, 0, -1) (0, 0, 0) (4, 0, 0) (0, 4, 0) = None ∧
  ~ vol6 (0, 0, 0) (4, 0, 0) (0, 4, 0) (ray3 (0, 0, 0) (0, 0, -1) 1) == 0.
Proof. split; [eexists _, _, _; split; reflexivity|]. split; [reflexivity|]. discriminate. Qed.
Print Assumptions C43_ray_triangle.
Print Assumptions C43_ray_triangle_parallel.

(** ** C44: barycentric coordinates, in any dimension *)
Theorem C44_barycentric p a b c : same_dim a b → same_dim a c → same_dim a p →
  (barycentric_coords p a b c = None ↔ peq a b ∨ on_line a b c) ∧
  ∀ u v w, barycentric_coords p a b c = Some (u, v, w) →
    u + v + w == 1 ∧
    (* the weighted sum is the foot of the perpendicular on the plane of the triangle *)
    dot (psub p (comb u v w a b c)) (psub b a) == 0 ∧
    dot (psub p (comb u v w a b c)) (psub c a) == 0 ∧
    (* and the point itself, with unique weights, if it lies in the plane *)
    (∀ x y z, x + y + z == 1 → peq p (comb x y z a b c) → u == x ∧ v == y ∧ w == z ∧ peq p (comb u v w a b c)).
Proof. exact (barycentric_ok p a b c). Qed.
Example C44_case : ∃ u v w, barycentric_coords [1; 1; 7] [0; 0; 0] [4; 0; 0] [0; 4; 0] = Some (u, v, w) ∧
  u == 1 # 2 ∧ v == 1 # 4 ∧ w == 1 # 4.
Proof. eexists _, _, _. split; [reflexivity|]. repeat split; reflexivity. Qed.
Print Assumptions C44_barycentric.

(** ** C45: classification of a point against a triangle.  Right for points of the
    closed triangle and points off the three edge lines; a point of an edge line
    outside the triangle is called "on an edge". *)
Lemma pattern_says u v w : u + v + w == 1 →
  (0 <= u ∧ 0 <= v ∧ 0 <= w) ∨ (~ u == 0 ∧ ~ v == 0 ∧ ~ w == 0) → weights_say (pattern u v w) u v w.
Proof.
  intros Hs H. unfold pattern.
  destruct (is_zero u) eqn:Eu, (is_zero v) eqn:Ev, (is_zero w) eqn:Ew; cbn [orb b2n Nat.add Nat.leb]; qb; unfold weights_say; try lra.
  - destruct (qlt 0 u) eqn:U, (qlt 0 v) eqn:V, (qlt 0 w) eqn:W; cbn [andb]; qb; try lra.
    all: destruct (Qlt_le_dec u 0) as [?|?]; [tauto|]; destruct (Qlt_le_dec v 0) as [?|?]; [tauto|]; destruct (Qlt_le_dec w 0) as [?|?]; [tauto|]; exfalso.
    all: first [apply Eu; lra | apply Ev; lra | apply Ew; lra].
Qed.
Theorem C45_triangle_2_partial near p a b c u v w :
  (∀ x y z, x == 0 ∨ y == 0 ∨ z == 0 → near x y z = true) → ~ area2 a b c == 0 →
  u + v + w == 1 → eq2 p (comb2 u v w a b c) →
  (0 <= u ∧ 0 <= v ∧ 0 <= w) ∨ (~ u == 0 ∧ ~ v == 0 ∧ ~ w == 0) →
  weights_say (point_in_or_on_triangle_2 near p a b c) u v w.
Proof. intros Hn Ha Hs Hp H. rewrite (triangle_2_ok near p a b c u v w) by assumption. apply pattern_says; assumption. Qed.
Theorem C45_weights_exist a b c p : ~ area2 a b c == 0 → ∃ u v w, u + v + w == 1 ∧ eq2 p (comb2 u v w a b c).
Proof. exact (bary_exists a b c p). Qed.
Theorem C45_triangle_2_refuted near : (∀ x y z, x == 0 ∨ y == 0 ∨ z == 0 → near x y z = true) →
  ∃ p a b c u v w, u + v + w == 1 ∧ eq2 p (comb2 u v w a b c) ∧ w < 0 ∧ point_in_or_on_triangle_2 near p a b c = OnEdge.
Proof.
  intros Hn. exists (0, -5), (0, 0), (1, 0), (0, 1), 6, 0, (-5).
  split; [reflexivity|]. split; [split; reflexivity|]. split; [reflexivity|].
  rewrite (triangle_2_ok near _ _ _ _ 6 0 (-5)); [reflexivity|assumption|discriminate|reflexivity|split; reflexivity].
Qed.
Lemma cross3_degenerate a b c : ¬ eq3 a b → (¬ ∃ t, eq3 c (at3 a b t)) → ~ eq3 (cross3 (sub3 b a) (sub3 c a)) (0, 0, 0).
Proof.
  intros Hne Hoff H. apply Hoff. assert (parallel3 a b a c) as Hp.
  { destruct a as [[a1 a2] a3], b as [[b1 b2] b3], c as [[c1 c2] c3]. unfold parallel3, eq3, cross3, sub3 in *. lra. }
  destruct (parallel3_multiple a b a c Hne Hp) as [k Hk]. exists k. specialize (Hk 1).
  pose proof (eq3_trans _ _ _ (at3_1 a c) Hk) as E. eapply eq3_trans; [exact E|]. eapply eq3_trans; [apply along3_at|]. apply at3_ext. ring.
Qed.
Theorem C45_triangle_3_partial near p a b c u v w :
  (∀ x y z, x == 0 ∨ y == 0 ∨ z == 0 → near x y z = true) → ¬ eq3 a b → (¬ ∃ t, eq3 c (at3 a b t)) →
  u + v + w == 1 → eq3 p (comb3 u v w a b c) →
  (0 <= u ∧ 0 <= v ∧ 0 <= w) ∨ (~ u == 0 ∧ ~ v == 0 ∧ ~ w == 0) →
  weights_say (point_in_or_on_triangle_3 near p a b c) u v w.
Proof.
  intros Hn Hab Hc Hs Hp H. rewrite (triangle_3_ok near p a b c u v w); try assumption; [apply pattern_says; assumption|].
  apply cross3_degenerate; assumption.
Qed.
(** a point far from the plane of the triangle is "inside" *)
Theorem C45_triangle_3_off_plane_refuted near : ∃ p a b c, point_in_or_on_triangle_3 near p a b c = InTri ∧
  ∀ u v w, u + v + w == 1 → ¬ eq3 p (comb3 u v w a b c).
Proof.
  exists (1, 1, 100), (0, 0, 0), (4, 0, 0), (0, 4, 0). split.
  - cbv. destruct (near _ _ _); reflexivity.
  - intros u v w Hs (_ & _ & H). cbn in H. lra.
Qed.
Example C45_case : ∃ near, (∀ x y z, x == 0 ∨ y == 0 ∨ z == 0 → near x y z = true) ∧
  point_in_or_on_triangle_2 near (1, 1) (0, 0) (4, 0) (0, 4) = InTri ∧ point_in_or_on_triangle_2 near (2, 2) (0, 0) (4, 0) (0, 4) = OnEdge ∧
  point_in_or_on_triangle_2 near (4, 0) (0, 0) (4, 0) (0, 4) = OnVertex ∧ point_in_or_on_triangle_2 near (3, 3) (0, 0) (4, 0) (0, 4) = Off.
Proof. exists (λ _ _ _, true). repeat split. Qed.
Print Assumptions C45_triangle_2_partial.
Print Assumptions C45_weights_exist.
Print Assumptions C45_triangle_2_refuted.
Print Assumptions C45_triangle_3_partial.
Print Assumptions C45_triangle_3_off_plane_refuted.

(** ** C46: orient2d and incircle.  Both return zero below a threshold. *)
Theorem C46_orient2d_partial fl a b c :
  (orient2d fl a b c == area2 a b c) ∨
  (orient2d fl a b c = 0 ∧ Qabs (fl (orient2d_det a b c)) <= orient2d_scale fl a b c).
Proof.
  unfold orient2d. destruct (qle _ _) eqn:E; qb; [right|left; reflexivity]. split; [reflexivity|assumption].
Qed.
Theorem C46_orient2d_refuted : ∃ a b c, 0 < area2 a b c ∧ ∀ fl, rounding fl → orient2d fl a b c = 0.
Proof.
  exists (1024, 1024), (1073741825 # 1048576, 1024), (1024, 1073741825 # 1048576). split; [reflexivity|].
  intros fl [Hmono Hex]. unfold orient2d.
  assert (∀ x y, x == y → fl x == fl y) as Hext.
  { intros x y E. apply Qle_antisym; apply Hmono; rewrite E; apply Qle_refl. }
  assert (fl 1024 == 1024) as F1 by (apply (Hex _ 1024%Z 0%nat); [reflexivity|reflexivity|lia]).
  assert (fl (1073741825 # 1048576) == 1073741825 # 1048576) as F2 by (apply (Hex _ 1073741825%Z 20%nat); [reflexivity|reflexivity|lia]).
  assert (∀ x y z : Q, ∀ m k, x == y → z == inject_Z m * (1 # 2) ^ Z.of_nat k → x == z → (Z.abs m < 2 ^ 53)%Z → (k <= 1022)%nat → fl x == z) as Hst.
  { intros x y z m k _ E1 E2 Hm Hk. rewrite (Hex x m k); [assumption| |assumption|assumption]. rewrite E2. assumption. }
  assert (qle (Qabs (fl (orient2d_det (1024, 1024) (1073741825 # 1048576, 1024) (1024, 1073741825 # 1048576))))
     (orient2d_scale fl (1024, 1024) (1073741825 # 1048576, 1024) (1024, 1073741825 # 1048576)) = true) as ->; [|reflexivity].
  apply qle_t. unfold orient2d_scale, orient2d_det. cbn [fst snd].
  set (det := (_ - _ : Q)). assert (det == 1 # 1099511627776) as Ed by reflexivity.
  assert (fl det == 1 # 1099511627776) as ->.
  { rewrite (Hex det 1%Z 40%nat); [reflexivity|reflexivity|reflexivity|lia]. }
  assert (∀ x y, x == y → Qabs (fl x) == Qabs (fl y)) as _ by (intros; rewrite Hext by eassumption; reflexivity).
  set (q1 := Qabs (fl 1024)). set (q2 := Qabs (fl (1073741825 # 1048576))).
  assert (q1 == 1024) as E1 by (unfold q1; rewrite F1; reflexivity).
  assert (q2 == 1073741825 # 1048576) as E2 by (unfold q2; rewrite F2; reflexivity).
  assert (fl (q1 + q1) == 2048) as G1 by (rewrite (Hex _ 2048%Z 0%nat); [rewrite E1; reflexivity|rewrite E1; reflexivity|reflexivity|lia]).
  assert (fl (fl (q1 + q1) + q2) == 3221225473 # 1048576) as G2.
  { rewrite (Hex _ 3221225473%Z 20%nat); [rewrite G1, E2; reflexivity|rewrite G1, E2; reflexivity|reflexivity|lia]. }
  assert (fl (fl (fl (q1 + q1) + q2) + q1) == 4294967297 # 1048576) as G3.
  { rewrite (Hex _ 4294967297%Z 20%nat); [rewrite G2, E1; reflexivity|rewrite G2, E1; reflexivity|reflexivity|lia]. }
  assert (fl (fl (fl (fl (q1 + q1) + q2) + q1) + q1) == 5368709121 # 1048576) as G4.
  { rewrite (Hex _ 5368709121%Z 20%nat); [rewrite G3, E1; reflexivity|rewrite G3, E1; reflexivity|reflexivity|lia]. }
  assert (fl (fl (fl (fl (fl (q1 + q1) + q2) + q1) + q1) + q2) == 6442450946 # 1048576) as G5.
  { rewrite (Hex _ 6442450946%Z 20%nat); [rewrite G4, E2; reflexivity|rewrite G4, E2; reflexivity|reflexivity|lia]. }
  assert (fl (1 # 1099511627776) == 1 # 1099511627776) as F0 by (apply (Hex _ 1%Z 40%nat); [reflexivity|reflexivity|lia]).
  assert (Qabs (1 # 1099511627776) == fl (1 # 1099511627776)) as -> by (rewrite F0; reflexivity).
  apply Hmono. rewrite G5. discriminate.
Qed.
Theorem C46_incircle_partial o a b c d : 0 < area2 a b c → d2 o a == d2 o b → d2 o a == d2 o c →
  (0 < incircle a b c d → d2 o d < d2 o a) ∧
  (incircle a b c d < 0 → d2 o a < d2 o d) ∧
  (d2 o d == d2 o a → incircle a b c d == 0) ∧
  (incircle a b c d == 0 → area2 a b c * Qabs (d2 o a - d2 o d) <= incircle_eps a b c d).
Proof.
  intros Ha H1 H2. pose proof (incircle_det_ok o a b c d H1 H2) as Hd. unfold incircle. cbv zeta.
  set (A := area2 a b c) in *. set (D := d2 o a - d2 o d) in *.
  assert (Qabs (incircle_det a b c d) == A * Qabs D) as Habs.
  { rewrite Hd, Qabs_Qmult. rewrite (Qabs_pos A) by lra. reflexivity. }
  destruct (is_positive _) eqn:E; cbn [negb]; qb.
  - split; [intros H; rewrite Hd in H; unfold D in *; nra|]. split; [intros H; rewrite Hd in H; unfold D in *; nra|].
    assert (~ A * D == 0) as Hne.
    { intros H. rewrite Hd, H in E. assert (0 <= incircle_eps a b c d) as He; [|change (Qabs 0) with 0 in E; lra].
      unfold incircle_eps. cbv zeta. apply Qmult_le_0_compat; [apply sq_nonneg|discriminate]. }
    split; [intros H; exfalso; apply Hne; unfold D; rewrite H; ring|].
    intros H. exfalso. apply Hne. rewrite <- Hd. assumption.
  - split; [intros H; lra|]. split; [intros H; lra|]. split; [intros _; reflexivity|]. intros _. rewrite <- Habs. lra.
Qed.
Theorem C46_circumcentre_exists a b c : ~ area2 a b c == 0 → ∃ o, d2 o a == d2 o b ∧ d2 o a == d2 o c.
Proof. exact (circumcentre_exists a b c). Qed.
Theorem C46_incircle_refuted : ∃ o a b c d, 0 < area2 a b c ∧ d2 o a == d2 o b ∧ d2 o a == d2 o c ∧
  d2 o d < d2 o a ∧ incircle a b c d == 0.
Proof.
  exists (0, 0), (1 # 1000, 0), (0, 1 # 1000), (-1 # 1000, 0), (0, 0). repeat split; reflexivity.
Qed.
Example C46_case : incircle (1, 0) (0, 1) (-1, 0) (0, 0) == 2 ∧ incircle (1, 0) (0, 1) (-1, 0) (0, -1) == 0 ∧ incircle (1, 0) (0, 1) (-1, 0) (2, 0) < 0 ∧
  0 < area2 (1, 0) (0, 1) (-1, 0).
Proof. repeat split; reflexivity. Qed.
Print Assumptions C46_orient2d_partial.
Print Assumptions C46_orient2d_refuted.
Print Assumptions C46_incircle_partial.
Print Assumptions C46_circumcentre_exists.
Print Assumptions C46_incircle_refuted.

(** ** C49: bounding boxes are tight *)
Definition tight {A} (coord : A → Q) (pts : list A) (lo hi : Q) : Prop :=
  (∀ q, List.In q pts → lo <= coord q ∧ coord q <= hi) ∧
  (∃ q, List.In q pts ∧ coord q = lo) ∧ (∃ q, List.In q pts ∧ coord q = hi).
Lemma tight_fold {A} (f : A → Q) p ps :
  tight f (p :: ps) (fold_left (λ m q, min_step m (f q)) ps (f p)) (fold_left (λ m q, max_step m (f q)) ps (f p)).
Proof.
  destruct (min_fold f (λ m q, min_step m (f q)) (λ _ _, eq_refl) ps (f p)) as ([A1 A2] & A3).
  destruct (max_fold f (λ m q, max_step m (f q)) (λ _ _, eq_refl) ps (f p)) as ([B1 B2] & B3).
  split; [|split].
  - intros q [<-|H]; [split; assumption|]. split; auto.
  - destruct A3 as [->|(q & Hq & ->)]; [exists p|exists q]; cbn; tauto.
  - destruct B3 as [->|(q & Hq & ->)]; [exists p|exists q]; cbn; tauto.
Qed.
Theorem C49_bbox2d pts : pts ≠ [] → ∃ lo hi, bbox2d pts = Some (lo, hi) ∧
  tight fst pts (fst lo) (fst hi) ∧ tight snd pts (snd lo) (snd hi).
Proof.
  destruct pts as [|p ps]; [congruence|]. intros _. eexists _, _. split; [reflexivity|].
  rewrite !fold_fst. cbn [fst snd]. split; apply tight_fold.
Qed.
Theorem C49_bbox3d pts : pts ≠ [] → ∃ lo hi, bbox3d pts = Some (lo, hi) ∧
  tight x3 pts (x3 lo) (x3 hi) ∧ tight y3 pts (y3 lo) (y3 hi) ∧ tight z3 pts (z3 lo) (z3 hi).
Proof.
  destruct pts as [|p ps]; [congruence|]. intros _. eexists _, _. split; [reflexivity|].
  rewrite !fold_3. cbn [x3 y3 z3 fst snd]. split; [|split]; apply tight_fold.
Qed.
Example C49_case : bbox2d [(1, 5); (0, 7); (2, 6)] = Some ((0, 5), (2, 7)).
Proof. reflexivity. Qed.
Print Assumptions C49_bbox2d.
Print Assumptions C49_bbox3d.

(** ** C56: face_area.  Right in the plane; in space the square of the area. *)
Theorem C56_face_area_2 a b c : face_area_2 a b c == Qabs (area2 a b c) / 2.
Proof. reflexivity. Qed.
Definition scale2 (k : Q) (p : p2) : p2 := (k * fst p, k * snd p).
Definition scale3 (k : Q) (p : p3) : p3 := let '(x, y, z) := p in (k * x, k * y, k * z).
Theorem C56_face_area_2_scales k a b c : face_area_2 (scale2 k a) (scale2 k b) (scale2 k c) == k * k * face_area_2 a b c.
Proof.
  unfold face_area_2. rewrite <- (Qabs_pos (k * k)) by apply sq_nonneg. unfold Qdiv. rewrite Qmult_assoc, <- Qabs_Qmult.
  apply Qmult_comp; [|reflexivity]. apply Qabs_wd. unfold cross2, sub2, scale2. cbn. ring.
Qed.
Theorem C56_face_area_3_squared_partial k a b c : face_area_3 (scale3 k a) (scale3 k b) (scale3 k c) == k * k * (k * k) * face_area_3 a b c.
Proof.
  destruct a as [[? ?] ?], b as [[? ?] ?], c as [[? ?] ?]. unfold face_area_3, scale3, cross3, sub3, dot3. field.
Qed.
(** on triangles of the plane z = 0 the value is the square of the area *)
Theorem C56_face_area_3_flat_partial x0 y0 x1 y1 x2 y2 :
  let A := face_area_2 (x0, y0) (x1, y1) (x2, y2) in
  face_area_3 (x0, y0, 0) (x1, y1, 0) (x2, y2, 0) == A * A.
Proof.
  cbv zeta. unfold face_area_2. set (D := cross2 _ _).
  transitivity (D * D / 4).
  - unfold D, face_area_3, cross2, cross3, sub2, sub3, dot3. cbn. field.
  - transitivity (Qabs (D * D) / 4).
    + rewrite Qabs_pos by apply sq_nonneg. reflexivity.
    + rewrite Qabs_Qmult. field.
Qed.
Theorem C56_face_area_3_refuted : ∃ x0 y0 x1 y1 x2 y2,
  ~ face_area_3 (x0, y0, 0) (x1, y1, 0) (x2, y2, 0) == Qabs (area2 (x0, y0) (x1, y1) (x2, y2)) / 2.
Proof. exists 0, 0, 4, 0, 0, 4. discriminate. Qed.
Print Assumptions C56_face_area_2.
Print Assumptions C56_face_area_2_scales.
Print Assumptions C56_face_area_3_squared_partial.
Print Assumptions C56_face_area_3_flat_partial.
Print Assumptions C56_face_area_3_refuted.
