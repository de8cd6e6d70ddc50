(** Lemmas on triangles and rays, without a mesh. *)
From Verif Require Export TriSpec GeomSeg3.
From Verif Require AabbSpec AabbRat RayModel.

Ltac pts := repeat match goal with p : p3 |- _ => destruct p as [[? ?] ?] end.

Lemma det_vol a b c d : dot3 (sub3 b a) (cross3 d (sub3 c a)) == - vol6 a b c (ray3 a d 1).
Proof. pts. unfold dot3, sub3, cross3, vol6, ray3. ring. Qed.
Lemma transversal_det a b c d : transversal a b c d ↔ ~ dot3 (sub3 b a) (cross3 d (sub3 c a)) == 0.
Proof. unfold transversal. rewrite det_vol. split; intros H E; apply H; lra. Qed.
Lemma in_tri_uv a b c p : in_tri a b c p ↔ ∃ u v, 0 <= u ∧ 0 <= v ∧ u + v <= 1 ∧ eq3 p (comb3 (1 - u - v) u v a b c).
Proof.
  split.
  - intros (u & v & w & U & V & W & E & H). exists v, w. do 2 (split; [assumption|]). split; [lra|].
    pts. unfold eq3, comb3 in *. destruct H as (H1 & H2 & H3). assert (1 - v - w == u) as -> by lra. auto.
  - intros (u & v & U & V & W & H). exists (1 - u - v), u, v. repeat split; try assumption; lra.
Qed.
(** the intersection routine, in terms of points *)
Lemma ray_hit o d a b c : transversal a b c d →
  match ray_triangle_intersection 0 o d a b c with
  | Some (t, u, v) => 0 <= t ∧ 0 <= u ∧ 0 <= v ∧ u + v <= 1 ∧ eq3 (ray3 o d t) (comb3 (1 - u - v) u v a b c)
  | None => ∀ t, 0 <= t → ~ in_tri a b c (ray3 o d t)
  end.
Proof.
  intros Hd. apply transversal_det in Hd. destruct (ray_triangle_ok o d a b c Hd) as [H1 H2].
  destruct (ray_triangle_intersection 0 o d a b c) as [[[t u] v]|]; [apply H1; reflexivity|].
  intros t T H. apply in_tri_uv in H as (u & v & U & V & W & H). apply (H2 eq_refl t u v); assumption.
Qed.
Lemma ray_nohit o d a b c : ~ transversal a b c d → ray_triangle_intersection 0 o d a b c = None.
Proof.
  intros Hd. apply ray_triangle_parallel. destruct (Qeq_dec (dot3 (sub3 b a) (cross3 d (sub3 c a))) 0) as [E|E]; [exact E|].
  destruct Hd. apply transversal_det, E.
Qed.
Lemma transversal_dec a b c d : transversal a b c d ∨ ~ transversal a b c d.
Proof. unfold transversal. destruct (Qeq_dec (vol6 a b c (ray3 a d 1)) 0); tauto. Qed.
Lemma thick_dec a b c : thick a b c ∨ ~ thick a b c.
Proof.
  unfold thick. assert (parallel3 a b a c ∨ ~ parallel3 a b a c) as [?|?]; [|tauto..]. pts. unfold parallel3.
  repeat match goal with |- context [?x == ?y] => destruct (Qeq_dec x y); [|right; tauto]; fail | _ => idtac end.
  match goal with |- (?a ∧ ?b ∧ ?c) ∨ _ => assert (a ∨ ~ a) as [|]; [|assert (b ∨ ~ b) as [|]; [|assert (c ∨ ~ c) as [|]; [|tauto..]|tauto]|tauto] end;
    match goal with |- ?x == ?y ∨ _ => destruct (Qeq_dec x y); tauto end.
Qed.
(** a point of the triangle is in its plane, so a transversal ray meets it once *)
Lemma in_tri_plane a b c p : in_tri a b c p → vol6 a b c p == 0.
Proof.
  intros H. apply in_tri_uv in H as (u & v & _ & _ & _ & H). pts. unfold eq3, comb3, vol6 in *. destruct H as (-> & -> & ->). ring.
Qed.
Lemma hit_once a b c p d s s' : transversal a b c d → in_tri a b c (ray3 p d s) → in_tri a b c (ray3 p d s') → s == s'.
Proof.
  intros Hd H H'. apply in_tri_plane in H, H'.
  assert ((s - s') * vol6 a b c (ray3 a d 1) == 0) as E.
  { setoid_replace ((s - s') * vol6 a b c (ray3 a d 1)) with (vol6 a b c (ray3 p d s) - vol6 a b c (ray3 p d s')); [lra|].
    pts. unfold vol6, ray3. ring. }
  apply Qmult_integral in E as [E|E]; [lra|]. contradiction.
Qed.
Lemma transversal_thick a b c d : transversal a b c d → thick a b c.
Proof.
  intros Hd H. apply Hd. destruct a as [[a1 a2] a3], b as [[b1 b2] b3], c as [[c1 c2] c3], d as [[d1 d2] d3]. unfold parallel3, vol6, ray3 in *. destruct H as (H1 & H2 & H3).
  setoid_replace ((b1 - a1) * ((c2 - a2) * (a3 + 1 * d3 - a3) - (c3 - a3) * (a2 + 1 * d2 - a2)) - (b2 - a2) * ((c1 - a1) * (a3 + 1 * d3 - a3) - (c3 - a3) * (a1 + 1 * d1 - a1)) + (b3 - a3) * ((c1 - a1) * (a2 + 1 * d2 - a2) - (c2 - a2) * (a1 + 1 * d1 - a1)))
    with (d1 * ((b2 - a2) * (c3 - a3) - (b3 - a3) * (c2 - a2)) + d2 * ((b3 - a3) * (c1 - a1) - (b1 - a1) * (c3 - a3)) + d3 * ((b1 - a1) * (c2 - a2) - (b2 - a2) * (c1 - a1))) by ring.
  rewrite H1, H2, H3. ring.
Qed.
Lemma thick_axis a b c : thick a b c → transversal a b c (1, 0, 0) ∨ transversal a b c (0, 1, 0) ∨ transversal a b c (0, 0, 1).
Proof.
  intros H. destruct (transversal_dec a b c (1, 0, 0)) as [|H1]; [tauto|]. destruct (transversal_dec a b c (0, 1, 0)) as [|H2]; [tauto|].
  destruct (transversal_dec a b c (0, 0, 1)) as [|H3]; [tauto|]. exfalso. apply H. pts. unfold transversal, vol6, ray3, parallel3 in *.
  repeat match goal with H : ~ ~ ?x == ?y |- _ => destruct (Qeq_dec x y) as [?E|?E]; [clear H|destruct (H E)] end.
  split; [|split]; nra.
Qed.
(** heights *)
Lemma tri_height n h a b c p : h < height n a → h < height n b → h < height n c → in_tri a b c p → h < height n p.
Proof.
  intros A B C (u & v & w & U & V & W & E & H).
  assert (height n p == u * height n a + v * height n b + w * height n c) as ->.
  { pts. unfold height, eq3, comb3 in *. destruct H as (-> & -> & ->). ring. }
  set (x := height n a - h). set (y := height n b - h). set (z := height n c - h).
  assert (0 < x ∧ 0 < y ∧ 0 < z) as (X & Y & Z) by (unfold x, y, z; repeat split; lra).
  setoid_replace (u * height n a + v * height n b + w * height n c) with ((u + v + w) * h + (u * x + v * y + w * z)) by (unfold x, y, z; ring).
  rewrite E. clearbody x y z. assert (0 <= u * x) by (apply Qmult_le_0_compat; lra). assert (0 <= v * y) by (apply Qmult_le_0_compat; lra).
  assert (0 <= w * z) by (apply Qmult_le_0_compat; lra).
  assert (0 < u ∨ 0 < v ∨ 0 < w) as [?|[?|?]].
  { destruct (Qlt_le_dec 0 u); [tauto|]. destruct (Qlt_le_dec 0 v); [tauto|]. right. right. lra. }
  - assert (0 < u * x) by (apply Qmult_lt_0_compat; assumption). lra.
  - assert (0 < v * y) by (apply Qmult_lt_0_compat; assumption). lra.
  - assert (0 < w * z) by (apply Qmult_lt_0_compat; assumption). lra.
Qed.
Lemma ray_height n p d s : height n (ray3 p d s) == height n p + s * height n d.
Proof. pts. unfold height, ray3. ring. Qed.
Lemma height_opp n d d' s s' : (∀ n, height n d' == - height n d) → 0 <= s → 0 <= s' → 0 < s * height n d → 0 < s' * height n d' → False.
Proof. intros E S S' H H'. rewrite E in H'. destruct (Qlt_le_dec 0 (height n d)); [|nra]. assert (0 <= s' * height n d) by (apply Qmult_le_0_compat; lra). lra. Qed.
Lemma height_eq n p q : eq3 p q → height n p == height n q.
Proof. pts. unfold eq3, height. intros (-> & -> & ->). reflexivity. Qed.

(** boxes *)
Lemma le3 x y z x' y' z' : Forall2 Qle [x; y; z] [x'; y'; z'] ↔ x <= x' ∧ y <= y' ∧ z <= z'.
Proof.
  split.
  - intros H. inversion H as [|? ? ? ? H1 R1]; subst. inversion R1 as [|? ? ? ? H2 R2]; subst. inversion R2; subst. auto.
  - intros (?&?&?). repeat constructor; assumption.
Qed.
Lemma box3 b p : AabbSpec.in_box (RayModel.coords p) b → ∃ l1 l2 l3 h1 h2 h3, b = AabbModel.Box [l1; l2; l3] [h1; h2; h3] ∧
  AabbSpec.in_box (RayModel.coords p) (AabbModel.Box [l1; l2; l3] [h1; h2; h3]).
Proof.
  destruct p as [[x y] z], b as [mn mx]. intros [H1 H2]. cbn [RayModel.coords AabbModel.bmin AabbModel.bmax] in *.
  destruct mn as [|l1 [|l2 [|l3 [|? ?]]]]; try solve [inversion H1 as [|? ? ? ? ? R]; inversion R as [|? ? ? ? ? R']; inversion R' as [|? ? ? ? ? R'']; inversion R''].
  all: destruct mx as [|h1 [|h2 [|h3 [|? ?]]]]; try solve [inversion H2 as [|? ? ? ? ? R]; inversion R as [|? ? ? ? ? R']; inversion R' as [|? ? ? ? ? R'']; inversion R''].
  exists l1, l2, l3, h1, h2, h3. repeat split; assumption.
Qed.
Lemma tri_in_box b0 a b c p : in_tri a b c p → AabbSpec.in_box (RayModel.coords a) b0 → AabbSpec.in_box (RayModel.coords b) b0 →
  AabbSpec.in_box (RayModel.coords c) b0 → AabbSpec.in_box (RayModel.coords p) b0.
Proof.
  intros (u & v & w & U & V & W & E & H) A B C. destruct (box3 _ _ A) as (l1 & l2 & l3 & h1 & h2 & h3 & -> & _).
  pts. unfold AabbSpec.in_box, RayModel.coords in *. cbn [AabbModel.bmin AabbModel.bmax] in *. rewrite !le3 in *.
  unfold eq3, comb3 in H. destruct H as (-> & -> & ->). repeat split; nra.
Qed.
Lemma tri_close r q a b c p : in_tri a b c p → close r q a → close r q b → close r q c → close r q p.
Proof.
  intros (u & v & w & U & V & W & E & H) A B C. pts. unfold close, eq3, comb3 in *. destruct H as (-> & -> & ->). repeat split; nra.
Qed.
Lemma shared_overlap p b1 b2 : AabbSpec.in_box (RayModel.coords p) b1 → AabbSpec.in_box (RayModel.coords p) b2 → AabbSpec.overlap b1 b2 = true.
Proof.
  intros H1 H2. destruct (box3 _ _ H1) as (l1 & l2 & l3 & h1 & h2 & h3 & -> & _), (box3 _ _ H2) as (k1 & k2 & k3 & g1 & g2 & g3 & -> & _).
  pts. unfold AabbSpec.in_box, RayModel.coords, AabbSpec.overlap, AabbSpec.below in *. cbn [AabbModel.bmin AabbModel.bmax combine forallb fst snd] in *. rewrite !le3 in *.
  rewrite !andb_true_iff, !Qle_bool_iff. repeat split; lra.
Qed.
Lemma ray_box_dim p d : AabbSpec.dim 3 (RayModel.ray_box p d).
Proof. destruct p as [[? ?] ?], d as [[? ?] ?]. split; reflexivity. Qed.
Lemma ray_in_box p d s : 0 <= s → s <= RayModel.far_multiplier → AabbSpec.in_box (RayModel.coords (ray3 p d s)) (RayModel.ray_box p d).
Proof.
  intros S1 S2. set (M := RayModel.far_multiplier) in *. assert (0 < M) as HM by reflexivity.
  assert (M * (s / M) == s) as E by (field; intros X; rewrite X in HM; discriminate).
  set (r := s / M) in *. clearbody r. assert (0 <= r) by nra. assert (r <= 1) by nra.
  pose proof (AabbRat.mins 3 (RayModel.coords p) (RayModel.coords (RayModel.far_point p d))) as Hmin.
  pose proof (AabbRat.maxs 3 (RayModel.coords p) (RayModel.coords (RayModel.far_point p d))) as Hmax.
  destruct Hmin as (M1 & M2 & _); [destruct p as [[? ?] ?]; reflexivity|destruct p as [[? ?] ?], d as [[? ?] ?]; reflexivity|].
  destruct Hmax as (N1 & N2 & _); [destruct p as [[? ?] ?]; reflexivity|destruct p as [[? ?] ?], d as [[? ?] ?]; reflexivity|].
  apply (tri_in_box _ p (RayModel.far_point p d) p); [|split; assumption..].
  exists (1 - r), r, 0. split; [lra|]. split; [lra|]. split; [lra|]. split; [lra|]. destruct p as [[? ?] ?], d as [[? ?] ?].
  unfold eq3, ray3, comb3, RayModel.far_point. fold M. clearbody M. rewrite <- E. repeat split; ring.
Qed.
