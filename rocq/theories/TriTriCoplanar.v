(** Triangles in a common plane parallel to two axes: the points reported are shared. *)
From Verif Require Export TriTriContact TriTriHull.

Lemma segment_intersect_ne a0 a1 b0 b1 s : segment_intersect_2d a0 a1 b0 b1 = Some s → ¬ eq2 a0 a1.
Proof.
  unfold segment_intersect_2d. cbn zeta. intros H [E F]. destruct a0 as [x0 y0], a1 as [x1 y1], b0 as [u0 v0], b1 as [u1 v1]. unfold cross2, sub2 in H. cbn [fst snd] in *.
  assert (x1 - x0 == 0) as X by lra. assert (y1 - y0 == 0) as Y by lra.
  replace (is_zero ((x1 - x0) * (v1 - v0) - (y1 - y0) * (u1 - u0))) with true in H by (symmetry; apply is_zero_t; rewrite X, Y; ring).
  replace (is_positive ((x1 - x0) * (x1 - x0) + (y1 - y0) * (y1 - y0))) with false in H by (symmetry; apply is_positive_f; rewrite X, Y; ring_simplify; lra).
  cbn [negb] in H. destruct (is_zero _) in H; discriminate.
Qed.
Lemma segment_intersect_sound a0 a1 b0 b1 x y : segment_intersect_2d a0 a1 b0 b1 = Some (x, y) → on_seg2 a0 a1 x ∧ on_seg2 b0 b1 x.
Proof.
  intros H. pose proof (segment_intersect_ok a0 a1 b0 b1 (segment_intersect_ne _ _ _ _ _ H)) as K. rewrite H in K. apply K. exists 0. split; [lra|]. split; [lra|]. apply at2_0.
Qed.
Lemma point_in_tri_sound p a b c : point_in_tri_2d p (a, b, c) = true →
  ∃ u v w, 0 <= u ∧ 0 <= v ∧ 0 <= w ∧ u + v + w == 1 ∧ eq2 p (comb2 u v w a b c).
Proof.
  destruct p as [x y], a as [x0 y0], b as [x1 y1], c as [x2 y2]. cbn. destruct (is_zero _) eqn:E; [discriminate|]. apply is_zero_f in E. rewrite !andb_true_iff, !pz_t, nz_t.
  set (D := (y1 - y2) * (x0 - x2) + (x2 - x1) * (y0 - y2)) in *. set (u := (_ + _) / D) at 1 3. set (v := (_ + _) / D) at 1 2. intros [[U V] W].
  exists u, v, (1 - u - v). split; [exact U|]. split; [exact V|]. split; [lra|]. split; [ring|]. unfold u, v, D, eq2, comb2 in *. cbn. split; field; exact E.
Qed.

Section flat.
Context (gt : Q → Q → bool) (Hgt : tells_zero gt) (q : tri) (Hq : solid q) (Aq : axis_parallel q).
Local Notation ax := (coplanar_axes gt (normal q)).
Lemma flat_level a b : in_plane q a → in_plane q b → coord a (dropped gt q) == coord b (dropped gt q).
Proof using All. apply (axis_level gt Hgt q a b Hq Aq). Qed.
(** going down to the plane and back up *)
Lemma back_eq y x r : in_plane q x → in_plane q r → eq2 y (project_to_2d x ax) → eq3 (back_project_to_3d y ax r) x.
Proof using All.
  intros Px Pr. pose proof (flat_level r x Pr Px) as L. unfold dropped in L. destruct y as [y1 y2], x as [[x1 x2] x3], r as [[r1 r2] r3].
  destruct (axes_cases gt (normal q)) as [H |[H | H]]; rewrite H in *; cbn in *; intros [E F]; cbn in *; repeat split; lra.
Qed.
Definition in_plane_tri (t : tri) : Prop := ∀ i, (i < 3)%nat → in_plane q (corner t i).
Lemma has_plane t x : in_plane_tri t → has t x → in_plane q x.
Proof using Hq.
  intros Ht (u & v & w & _ & _ & _ & S & E). apply (in_plane_eq q _ _ (eq3_sym _ _ E)).
  pose proof (Ht 0%nat ltac:(lia)) as T0. pose proof (Ht 1%nat ltac:(lia)) as T1. pose proof (Ht 2%nat ltac:(lia)) as T2. unfold in_plane in T0, T1, T2 |- *.
  destruct (corner q 0) as [[a1 a2] a3], (corner q 1) as [[b1 b2] b3], (corner q 2) as [[c1 c2] c3], (corner t 0) as [[d1 d2] d3], (corner t 1) as [[e1 e2] e3], (corner t 2) as [[f1 f2] f3]. cbn in *.
  assert (u == 1 - v - w) as U by lra.
  match goal with |- ?g == 0 => match type of T0 with ?l0 == 0 => match type of T1 with ?l1 == 0 => match type of T2 with ?l2 == 0 => transitivity ((1 - v - w) * l0 + v * l1 + w * l2); [rewrite U; ring|rewrite T0, T1, T2; ring] end end end end.
Qed.
Lemma q_plane : in_plane_tri q.
Proof using Hq. intros i Hi. apply in_plane_has, has_corner, Hi. Qed.
(** a point of the projected triangle comes from a point of the triangle *)
Definition below_of (t : tri) (y : p2) : Prop := ∃ x, has t x ∧ eq2 y (project_to_2d x ax).
Lemma project_comb t u v w : eq2 (comb2 u v w (project_to_2d (corner t 2) ax) (project_to_2d (corner t 0) ax) (project_to_2d (corner t 1) ax))
  (project_to_2d (comb3 v w u (corner t 0) (corner t 1) (corner t 2)) ax).
Proof using All.
  destruct (corner t 0) as [[a1 a2] a3], (corner t 1) as [[b1 b2] b3], (corner t 2) as [[c1 c2] c3]. destruct (axes_cases gt (normal q)) as [H |[H | H]]; rewrite H; cbn; unfold eq2; cbn; split; ring.
Qed.
Definition rot2 (t : tri) : tri2 := (project_to_2d (corner t 2) ax, project_to_2d (corner t 0) ax, project_to_2d (corner t 1) ax).
Lemma below_point t y : point_in_tri_2d y (rot2 t) = true → below_of t y.
Proof using All.
  intros H. apply point_in_tri_sound in H as (u & v & w & U & V & W & S & E). exists (comb3 v w u (corner t 0) (corner t 1) (corner t 2)). split; [|exact (eq2_trans _ _ _ E (project_comb t u v w))].
  exists v, w, u. repeat split; try assumption; [lra|apply eq3_refl].
Qed.
Lemma below_corner t i : (i < 3)%nat → below_of t (project_to_2d (corner t i) ax).
Proof using All. intros I. exists (corner t i). split; [apply has_corner, I|split; reflexivity]. Qed.
Lemma below_seg t i j y : (i < 3)%nat → (j < 3)%nat → on_seg2 (project_to_2d (corner t i) ax) (project_to_2d (corner t j) ax) y → below_of t y.
Proof using All.
  intros I J (s & S0 & S1 & E). exists (at3 (corner t i) (corner t j) s). split; [apply (has_seg t (corner t i) (corner t j)); [apply has_corner, I|apply has_corner, J|]; exists s; repeat split; try assumption; apply eq3_refl|].
  refine (eq2_trans _ _ _ E _). destruct (corner t i) as [[a1 a2] a3], (corner t j) as [[b1 b2] b3]. destruct (axes_cases gt (normal q)) as [H |[H | H]]; rewrite H; cbn; unfold eq2; cbn; split; ring.
Qed.
Lemma below_edge t e y : In e (edges2 (rot2 t)) → on_seg2 (fst e) (snd e) y → below_of t y.
Proof using All. cbn. intros [<- |[<- |[<- |[]]]]; [apply (below_seg t 2 0)|apply (below_seg t 0 1)|apply (below_seg t 1 2)]; lia. Qed.
Lemma below_back t y r : in_plane_tri t → in_plane q r → below_of t y → has t (back_project_to_3d y ax r).
Proof using All. intros Ht Pr (x & Hx & E). apply (has_eq t x); [apply eq3_sym, back_eq; [exact (has_plane t x Ht Hx)|exact Pr|exact E]|exact Hx]. Qed.

Context (p : tri) (Hs : same_plane p q).
Lemma points_shared x : In x (coplanar_points p q ax) → shared p q x.
Proof using All.
  assert (in_plane_tri p) as Pp by exact Hs. pose proof q_plane as Pq.
  assert (∀ y r, (r = corner p 2 ∨ r = corner q 2) → below_of p y → below_of q y → shared p q (back_project_to_3d y ax r)) as Lift.
  { intros y r Hr B1 B2. assert (in_plane q r) as Pr by (destruct Hr as [-> | ->]; [apply Pp|apply Pq]; lia). split; apply below_back; assumption. }
  unfold coplanar_points. cbn zeta. change (corner2 (project_tri p ax) 2, corner2 (project_tri p ax) 0, corner2 (project_tri p ax) 1) with (rot2 p).
  change (corner2 (project_tri q ax) 2, corner2 (project_tri q ax) 0, corner2 (project_tri q ax) 1) with (rot2 q).
  assert (∀ t y, In y [corner2 (rot2 t) 0; corner2 (rot2 t) 1; corner2 (rot2 t) 2] → below_of t y) as Cor by (intros t y [<- |[<- |[<- |[]]]]; apply below_corner; lia).
  rewrite !in_app_iff. intros [H|[H|H]].
  - apply in_map_iff in H as (y & <- & H). apply filter_In in H as [H1 H2]. apply Lift; [tauto|apply Cor, H1|apply below_point, H2].
  - apply in_map_iff in H as (y & <- & H). apply filter_In in H as [H1 H2]. apply Lift; [tauto|apply below_point, H2|apply Cor, H1].
  - apply in_flat_map in H as (e1 & I1 & H). apply in_flat_map in H as (e2 & I2 & H). destruct (segment_intersect_2d _ _ _ _) as [[y z]|] eqn:E; [|destruct H]. destruct H as [<- |[]].
    apply segment_intersect_sound in E as [E1 E2]. apply Lift; [tauto|exact (below_edge p e1 _ I1 E1)|exact (below_edge q e2 _ I2 E2)].
Qed.
Lemma uniq_in l : ∀ u x, In x (fold_left (λ u x, fst (push_uniq u x)) l u) → In x u ∨ In x l.
Proof.
  induction l as [|y l IH]; intros u x H; [left; exact H|]. cbn in H. apply IH in H as [H|H]; [|right; right; exact H].
  unfold push_uniq in H. destruct (existsb _ _); cbn in H; [left; exact H|]. apply in_app_iff in H as [H|[<- |[]]]; [left; exact H|right; left; reflexivity].
Qed.
Lemma coplanar_shared :
  match coplanar_tri_tri_intersection gt p q (normal q) with
  | RNone => True
  | Coplanar a b => shared p q a ∧ shared p q b
  | CoplanarPolygon segs => ∀ s, In s segs → shared p q (fst s) ∧ shared p q (snd s)
  | RProper _ _ => False
  end.
Proof using All.
  unfold coplanar_tri_tri_intersection. cbn zeta. set (uniq := fold_left _ _ _).
  assert (∀ x, In x uniq → shared p q x) as U by (intros x H; apply uniq_in in H as [[]|H]; apply points_shared, H). clearbody uniq.
  assert (∀ i, (i < length uniq)%nat → shared p q (back_project_to_3d (nth i (map (λ x, project_to_2d x ax) uniq) (0, 0)) ax (corner p 2))) as B.
  { intros i Hi. pose proof (U _ (nth_In uniq (0, 0, 0) Hi)) as S. apply (shared_eq p q (nth i uniq (0, 0, 0))); [|exact S]. apply eq3_sym, back_eq; [apply in_plane_has, S|apply Hs; lia|].
    rewrite (nth_indep _ (0, 0) (project_to_2d (0, 0, 0) ax)) by (rewrite map_length; exact Hi). rewrite (map_nth (λ x, project_to_2d x ax)). split; reflexivity. }
  destruct uniq as [|a [|b [|c l]]]; [exact I..| |].
  - split; apply U; [left|right; left]; reflexivity.
  - set (uniq := a :: b :: c :: l) in *. set (pts := map _ uniq) in *. intros s Hin. apply in_map_iff in Hin as (w & <- & Hw). apply in_seq in Hw.
    pose proof (convex_hull_ok pts) as (_ & Hlt & _). assert (length pts = length uniq) as Lp by (unfold pts; rewrite map_length; reflexivity). rewrite Lp in Hlt.
    split; cbn [fst snd]; apply B, Hlt, nth_In; [lia|]. apply Nat.mod_upper_bound. lia.
Qed.
End flat.
