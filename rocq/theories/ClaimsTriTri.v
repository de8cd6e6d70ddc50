(** Properties C91 to C97: the intersection of two triangles of space, the segments and
    hulls of the plane behind it.  Vocabulary: the model TriTriModel and the
    specifications GeomSpec, TriSpec, TriTriSpec. *)
From Verif Require Import TriTriCoplanar F64Model.

(** exact comparison of magnitudes, for the examples *)
Local Open Scope Q_scope.
Definition gtq (x y : Q) : bool := qlt (Qabs y) (Qabs x).
Lemma gtq_tells : tells_zero gtq.
Proof.
  split; intros x y H; unfold gtq in *.
  - apply qlt_t in H. intros E. assert (Qabs x == 0) as Z by (rewrite E; reflexivity). pose proof (Qabs_nonneg y). lra.
  - intros E. apply qlt_t. assert (Qabs y == 0) as Z by (rewrite E; reflexivity). apply qabs_pos in H. lra.
Qed.
(** comparison through doubles (as_f64_fast of CgarRational, numeric/cgar_rational.rs 115-117) *)
Definition gt64 (x y : Q) : bool := fgt (fabs (Q_to_f64 x)) (fabs (Q_to_f64 y)).

(** C91: two triangles of positive area in different planes.  If an edge of one lies in the
    plane of the other, that plane is parallel to two axes.  All three functions report the
    common part: nothing if there is none, and otherwise the segment with the two ends given
    (a point, if it is at most a millionth long). *)
Definition answers_common_part (p q : tri) (r : result) : Prop :=
  match r with
  | RNone => ∀ x, ¬ shared p q x
  | RProper a b | Coplanar a b => common_part p q a b
  | CoplanarPolygon _ => False
  end.
Theorem C91_common_part gt p q :
  tells_zero gt → solid p → solid q → ¬ same_plane p q →
  (edge_in_plane p q → axis_parallel q) → (edge_in_plane q p → axis_parallel p) →
  answers_common_part p q (tri_tri_intersection gt p q) ∧
  answers_common_part p q (tri_tri_intersection_with_precomp gt p q (precomp_new gt p) (precomp_new gt q)).
Proof. intros Hgt Hp Hq. rewrite (plain_precomp gt p q Hp). intros. split; apply with_precomp_ok; assumption. Qed.

(** the same for the function that also reports contacts, and the contacts themselves: each
    says where the end lies on the triangle, for the end or a point at most a millionth away *)
Theorem C93_contacts gt p q :
  tells_zero gt → solid p → solid q → ¬ same_plane p q →
  (edge_in_plane p q → axis_parallel q) → (edge_in_plane q p → axis_parallel p) →
  match tri_tri_intersection_detailed gt p q with
  | DNone => ∀ x, ¬ shared p q x
  | DProper a b => common_part p q (e_point a) (e_point b) ∧ good_end p q a ∧ good_end p q b
  | DCoplanar segs => edge_in_plane p q ∧ ∃ a b, segs = [(a, b)] ∧ common_part p q (e_point a) (e_point b) ∧ good_end p q a ∧ good_end p q b
  end.
Proof.
  intros Hgt Hp Hq NS A1 A2. pose proof (detailed_points gt p q) as SP. pose proof (with_precomp_ok gt Hgt p q Hp Hq NS A1 A2) as R.
  pose proof (detailed_good gt Hgt p q Hp Hq NS A1 A2) as G. pose proof (λ s, coplanar_edge gt p q s Hp Hq NS) as CE. unfold tri_tri_intersection_detailed.
  destruct (tri_tri_intersection_with_precomp_detailed gt p q _ _) as [a b|segs|], (tri_tri_intersection_with_precomp gt p q _ _) as [x y|x y|l|]; cbn in *; try contradiction; try exact R.
  - destruct SP as [<- <-]. tauto.
  - destruct SP as [<- <-]. tauto.
  - destruct segs as [|[? ?] [|? ?]]; contradiction.
  - destruct segs as [|[a b] [|? ?]]; try contradiction. destruct SP as [<- <-]. split; [exact (CE _ eq_refl)|]. exists a, b. inversion G as [|? ? G' _]. tauto.
  - destruct segs as [|[? ?] [|? ?]]; contradiction.
Qed.

(** C92: the three functions report the same points, for every pair of triangles with P of
    positive area (the last equation), and the two with precomputed data for all pairs *)
Theorem C92_same_points gt p q :
  same_points (tri_tri_intersection_detailed gt p q)
    (tri_tri_intersection_with_precomp gt p q (precomp_new gt p) (precomp_new gt q)) ∧
  (solid p → tri_tri_intersection gt p q = tri_tri_intersection_with_precomp gt p q (precomp_new gt p) (precomp_new gt q)).
Proof. split; [apply detailed_points|apply plain_precomp]. Qed.

(** a triangle cutting through another one *)
Definition tri_a : tri := ((0, 0, 0), (4, 0, 0), (0, 4, 0)).
Definition tri_b : tri := ((1, 1, -1), (1, 1, 3), (1, -3, 1)).
Lemma solid_b t : vzero (normal t) = false → solid t.
Proof. apply solid_normal. Qed.
Definition in_planeb (t : tri) (x : p3) : bool := is_zero (vol6 (corner t 0) (corner t 1) (corner t 2) x).
Lemma in_planeb_t t x : in_planeb t x = true ↔ in_plane t x.
Proof. apply is_zero_t. Qed.
Lemma no_edge p q : (in_planeb q (corner p 0) || in_planeb q (corner p 1)) && (in_planeb q (corner p 1) || in_planeb q (corner p 2)) && (in_planeb q (corner p 0) || in_planeb q (corner p 2)) = false →
  ¬ edge_in_plane p q ∧ ¬ same_plane p q.
Proof.
  intros H. assert (¬ edge_in_plane p q) as N.
  { intros (i & j & I & J & A & B). apply in_planeb_t in A, B. destruct i as [|[|i]], j as [|[|[|j]]]; try lia; rewrite A, B in H; destruct (in_planeb q (corner p 0)), (in_planeb q (corner p 1)), (in_planeb q (corner p 2)); discriminate. }
  split; [exact N|]. intros S. apply N. exists 0%nat, 1%nat. repeat split; try lia; apply S; lia.
Qed.
Example C91_example : tells_zero gtq ∧ solid tri_a ∧ solid tri_b ∧ ¬ same_plane tri_a tri_b ∧ ¬ edge_in_plane tri_a tri_b ∧ ¬ edge_in_plane tri_b tri_a ∧
  ∃ a b, tri_tri_intersection gtq tri_a tri_b = RProper a b ∧ eq3 a (1, 0, 0) ∧ eq3 b (1, 1, 0).
Proof.
  split; [exact gtq_tells|]. split; [apply solid_b; reflexivity|]. split; [apply solid_b; reflexivity|].
  destruct (no_edge tri_a tri_b eq_refl) as [A B]. destruct (no_edge tri_b tri_a eq_refl) as [C _]. do 3 (split; [assumption|]).
  eexists _, _. split; [vm_compute; reflexivity|]. repeat split; reflexivity.
Qed.
(** an edge in the plane of the other triangle, parallel to two axes *)
Definition tri_c : tri := ((1, 1, 0), (3, 1, 0), (1, 1, 5)).
Example C91_example_edge : solid tri_c ∧ edge_in_plane tri_c tri_a ∧ axis_parallel tri_a ∧ ¬ same_plane tri_c tri_a ∧ ¬ edge_in_plane tri_a tri_c ∧
  tri_tri_intersection gtq tri_c tri_a = Coplanar (1, 1, 0) (3, 1, 0).
Proof.
  split; [apply solid_b; reflexivity|]. split; [exists 0%nat, 1%nat; repeat split; try lia; reflexivity|]. split; [exists 2%nat; repeat split; try lia; reflexivity|].
  split; [intros H; specialize (H 2%nat ltac:(lia)); discriminate H|]. split; [apply (no_edge tri_a tri_c); reflexivity|]. vm_compute. reflexivity.
Qed.
Example C93_example : ∃ a b, tri_tri_intersection_detailed gtq tri_a tri_b = DProper a b ∧
  (∃ u, on_p a = CEdge 0 1 u ∧ u == 1 # 4) ∧ (∃ u v w, on_q a = CInterior u v w ∧ u == 5 # 8) ∧ (∃ u, on_q b = CEdge 0 1 u ∧ u == 1 # 4).
Proof. eexists _, _. split; [vm_compute; reflexivity|]. cbn. repeat split; repeat eexists; reflexivity. Qed.
Example C93_example_edge : ∃ a b, tri_tri_intersection_detailed gtq tri_c tri_a = DCoplanar [(a, b)] ∧ on_p a = CVertex 0 ∧ on_p b = CVertex 1.
Proof. eexists _, _. split; [vm_compute; reflexivity|]. split; reflexivity. Qed.

(** C91 fails if the magnitudes are compared as doubles and underflow: for triangles with
    sides of 2^-600 the normal has no non-zero double, and a point far outside is reported *)
Theorem C91_underflow_refuted : ∃ p q, solid p ∧ solid q ∧ ¬ same_plane p q ∧ ¬ edge_in_plane p q ∧ ¬ edge_in_plane q p ∧
  (∀ x, ¬ shared p q x) ∧ ∃ a b, tri_tri_intersection gt64 p q = RProper a b.
Proof.
  set (e := 1 # (2 ^ 600)). set (p := (((- e, 5 * e, 5 * e), (e, 5 * e, 5 * e), (e, 6 * e, 5 * e)) : tri)). set (q := (((0, 0, 0), (0, e, 0), (0, 0, e)) : tri)).
  exists p, q. split; [apply solid_b; vm_compute; reflexivity|]. split; [apply solid_b; vm_compute; reflexivity|].
  assert (¬ edge_in_plane p q ∧ ¬ same_plane p q) as [A B] by (apply no_edge; vm_compute; reflexivity).
  assert (¬ edge_in_plane q p ∧ ¬ same_plane q p) as [C _] by (apply no_edge; vm_compute; reflexivity).
  do 3 (split; [assumption|]). split.
  - intros [[x y] z] [(u & v & w & U & V & W & S & E) (u' & v' & w' & U' & V' & W' & S' & E')]. cbn in E, E'.
    assert (0 < e) as He by reflexivity. clearbody e. clear -E E' U V W S U' V' W' S' He. destruct E as (_ & _ & E), E' as (_ & _ & E').
    assert (z == 5 * e * (u + v + w)) as Z by (rewrite E; ring). rewrite S in Z. assert (z == w' * e) as Z' by (rewrite E'; ring).
    assert (0 <= (1 - w') * e) by (apply Qmult_le_0_compat; lra). lra.
  - assert (match tri_tri_intersection gt64 p q with RProper _ _ => true | _ => false end = true) as H by (vm_compute; reflexivity).
    revert H. clear. generalize (tri_tri_intersection gt64 p q). intros [a b|?|?|]; try discriminate. intros _. exists a, b. reflexivity.
Qed.

(** C92 fails for a triangle P without area: one function sees the needle, the others do not *)
Theorem C92_degenerate_refuted : ∃ p q, solid q ∧ (∃ x, shared p q x) ∧ (∃ a b, tri_tri_intersection gtq p q = RProper a b) ∧
  tri_tri_intersection_with_precomp gtq p q (precomp_new gtq p) (precomp_new gtq q) = RNone.
Proof.
  exists ((1, 1, -1), (1, 1, 0), (1, 1, 1)), tri_a. split; [apply solid_b; reflexivity|]. split.
  - exists (1, 1, 0). split; [exists 0, 1, 0|exists (1 # 2), (1 # 4), (1 # 4)]; cbn; repeat split; try lra; reflexivity.
  - split; [eexists _, _; vm_compute; reflexivity|vm_compute; reflexivity].
Qed.

(** C94: an edge of P in a tilted plane of Q.  The dropped coordinate is copied from the
    first corner of the edge, and an end is reported that lies on neither triangle. *)
Definition tilt : tri := ((0, 0, 0), (4, 0, 4), (0, 4, 0)).
Definition fin : tri := ((1, 1, 1), (2, 1, 2), (1, 1, 5)).
Theorem C94_tilted_edge_refuted : ∃ p q a b, solid p ∧ solid q ∧ ¬ same_plane p q ∧ edge_in_plane p q ∧
  tri_tri_intersection gtq p q = Coplanar a b ∧ tri_tri_intersection gt64 p q = Coplanar a b ∧ ¬ has p b ∧ ¬ has q b.
Proof.
  exists fin, tilt, (1, 1, 1), (2, 1, 1). split; [apply solid_b; reflexivity|]. split; [apply solid_b; reflexivity|].
  split; [intros H; specialize (H 2%nat ltac:(lia)); discriminate H|]. split; [exists 0%nat, 1%nat; repeat split; try lia; reflexivity|].
  split; [vm_compute; reflexivity|]. split; [vm_compute; reflexivity|].
  split; intros (u & v & w & U & V & W & S & E); cbn in E; destruct E as (E1 & E2 & E3); lra.
Qed.
(** the part that holds: a plane parallel to two axes *)
Theorem C94_level_edge_partial gt p q :
  tells_zero gt → solid p → solid q → ¬ same_plane p q → edge_in_plane p q → axis_parallel q → (edge_in_plane q p → axis_parallel p) →
  answers_common_part p q (tri_tri_intersection gt p q).
Proof. intros. apply C91_common_part; auto. Qed.

(** C95: triangles in one plane.  The part that holds: if the plane is parallel to two axes,
    every point reported is shared.  Missing: that nothing else is shared. *)
Theorem C95_level_sound_partial gt p q :
  tells_zero gt → solid p → solid q → same_plane p q → axis_parallel q →
  match tri_tri_intersection gt p q with
  | RNone => True
  | Coplanar a b => shared p q a ∧ shared p q b
  | CoplanarPolygon segs => ∀ s, In s segs → shared p q (fst s) ∧ shared p q (snd s)
  | RProper _ _ => False
  end.
Proof.
  intros Hgt Hp Hq HS HA. pose proof (coplanar_shared gt Hgt q Hq HA p HS) as H.
  assert (tri_tri_intersection gt p q = coplanar_tri_tri_intersection gt p q (normal q)) as ->; [|exact H].
  assert (∀ i, (i < 3)%nat → is_zero (plane_dist (precomp_new gt q) (corner p i)) = true) as Z.
  { intros i Hi. apply is_zero_t. rewrite plane_vol by exact Hq. apply HS, Hi. }
  unfold tri_tri_intersection. replace (degenerate (precomp_new gt q)) with false by (rewrite precomp_ok by exact Hq; reflexivity). cbn zeta.
  pose proof (Z 0%nat ltac:(lia)) as Z0. pose proof (Z 1%nat ltac:(lia)) as Z1. pose proof (Z 2%nat ltac:(lia)) as Z2.
  assert (two_zeros (plane_dist (precomp_new gt q) (corner p 0)) (plane_dist (precomp_new gt q) (corner p 1)) (plane_dist (precomp_new gt q) (corner p 2)) = None) as -> by (unfold two_zeros; rewrite Z0, Z1, Z2; reflexivity).
  assert (one_side (plane_dist (precomp_new gt q) (corner p 0)) (plane_dist (precomp_new gt q) (corner p 1)) (plane_dist (precomp_new gt q) (corner p 2)) = false) as ->.
  { apply is_zero_t in Z0. unfold one_side. replace (is_positive (plane_dist (precomp_new gt q) (corner p 0))) with false by (symmetry; apply is_positive_f; lra).
    replace (is_negative (plane_dist (precomp_new gt q) (corner p 0))) with false by (symmetry; apply is_negative_f; lra). reflexivity. }
  rewrite Z0, Z1, Z2. cbn [andb]. f_equal. rewrite precomp_ok by exact Hq. reflexivity.
Qed.
Example C95_example : ∃ q, solid q ∧ same_plane tri_a q ∧ axis_parallel q ∧ ∃ segs, tri_tri_intersection gtq tri_a q = CoplanarPolygon segs ∧ length segs = 3%nat.
Proof.
  exists ((1, 1, 0), (5, 1, 0), (1, 5, 0)). split; [apply solid_b; reflexivity|]. split; [intros [|[|[|i]]] Hi; [reflexivity..|lia]|].
  split; [exists 2%nat; repeat split; try lia; reflexivity|]. eexists. split; [vm_compute; reflexivity|reflexivity].
Qed.
(** in a tilted plane a corner is reported that lies on neither triangle *)
Theorem C95_tilted_refuted : ∃ p q segs, solid p ∧ solid q ∧ same_plane p q ∧
  tri_tri_intersection gtq p q = CoplanarPolygon segs ∧ tri_tri_intersection gt64 p q = CoplanarPolygon segs ∧
  ∃ s, In s segs ∧ ¬ has p (snd s) ∧ ¬ has q (snd s).
Proof.
  exists ((1, 1, 1), (2, 1, 2), (1, 2, 1)), tilt. eexists. split; [apply solid_b; reflexivity|]. split; [apply solid_b; reflexivity|].
  split; [intros [|[|[|i]]] Hi; [reflexivity..|lia]|]. split; [vm_compute; reflexivity|]. split; [vm_compute; reflexivity|].
  eexists. split; [left; reflexivity|]. split; intros (u & v & w & U & V & W & S & E); cbn in E; destruct E as (E1 & E2 & E3); lra.
Qed.
(** two triangles of a level plane that touch in one corner: no intersection is reported *)
Theorem C95_touch_refuted : ∃ p q x, solid p ∧ solid q ∧ same_plane p q ∧ axis_parallel q ∧ shared p q x ∧
  tri_tri_intersection gtq p q = RNone.
Proof.
  exists tri_a, ((4, 0, 0), (8, 0, 0), (8, 4, 0)), (4, 0, 0). split; [apply solid_b; reflexivity|]. split; [apply solid_b; reflexivity|].
  split; [intros [|[|[|i]]] Hi; [reflexivity..|lia]|]. split; [exists 2%nat; repeat split; try lia; reflexivity|].
  split; [|vm_compute; reflexivity]. split; [exists 0, 1, 0|exists 1, 0, 0]; cbn; repeat split; try lra; reflexivity.
Qed.

(** C96: segment_intersect_2d returns the common part of two segments, if the first is not
    a single point *)
Theorem C96_segments a0 a1 b0 b1 : ¬ eq2 a0 a1 →
  match segment_intersect_2d a0 a1 b0 b1 with
  | Some (x, y) => ∀ p, on_seg2 a0 a1 p ∧ on_seg2 b0 b1 p ↔ on_seg2 x y p
  | None => ∀ p, ¬ (on_seg2 a0 a1 p ∧ on_seg2 b0 b1 p)
  end.
Proof. apply segment_intersect_ok. Qed.
Example C96_example : ¬ eq2 (0, 0) (4, 4) ∧ ∃ x y, segment_intersect_2d (0, 0) (4, 4) (1, 1) (6, 6) = Some (x, y) ∧ eq2 x (1, 1) ∧ eq2 y (4, 4).
Proof. split; [intros [E _]; discriminate E|]. eexists _, _. split; [vm_compute; reflexivity|]. repeat split; reflexivity. Qed.
(** a single point on the second segment is not found *)
Theorem C96_point_refuted : ∃ a b0 b1, on_seg2 b0 b1 a ∧ segment_intersect_2d a a b0 b1 = None.
Proof. exists (1, 1), (0, 0), (2, 2). split; [exists (1 # 2); repeat split; try lra; reflexivity|vm_compute; reflexivity]. Qed.

(** C97: convex_hull_2d_indices returns the corners of the convex hull, counter-clockwise,
    for all lists of points, with repeated and collinear points *)
Theorem C97_hull pts : hull_of pts (convex_hull_2d_indices pts).
Proof. apply convex_hull_ok. Qed.
Example C97_example : convex_hull_2d_indices [(0, 0); (2, 0); (1, 1); (2, 2); (0, 2); (1, 0); (0, 0)] = [0; 1; 3; 4]%nat.
Proof. vm_compute. reflexivity. Qed.

Print Assumptions C91_common_part.
Print Assumptions C91_underflow_refuted.
Print Assumptions C92_same_points.
Print Assumptions C92_degenerate_refuted.
Print Assumptions C93_contacts.
Print Assumptions C94_tilted_edge_refuted.
Print Assumptions C94_level_edge_partial.
Print Assumptions C95_level_sound_partial.
Print Assumptions C95_tilted_refuted.
Print Assumptions C95_touch_refuted.
Print Assumptions C96_segments.
Print Assumptions C96_point_refuted.
Print Assumptions C97_hull.
