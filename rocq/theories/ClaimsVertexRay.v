(** Properties C121 and C122: a ray cast from a corner of a face inside the face.
    Vocabulary: the model VertexRayModel and the specifications MeshSpec and GeomSpec. *)
From Verif Require Import VertexRay MeshDemo.
From Verif Require Import GeomBase GeomLine GeomSeg3 MeshHistSpec GeomSpec MeshSpec.
Local Open Scope Q_scope.

(** the vector from [a] to [b], and perpendicular vectors *)
Definition vector (a b : p3) : p3 :=
  let '(x, y, z) := a in let '(u, v, w) := b in (u - x, v - y, w - z).
Definition square (u v : p3) : Prop :=
  let '(a, b, c) := u in let '(x, y, z) := v in a * x + b * y + c * z == 0.
(** the vector x (b - a) + y (c - a) of the plane of the triangle *)
Definition in_plane (a b c : p3) (x y : Q) : p3 :=
  let '(a1, a2, a3) := a in let '(b1, b2, b3) := b in let '(c1, c2, c3) := c in
  (x * (b1 - a1) + y * (c1 - a1), x * (b2 - a2) + y * (c2 - a2), x * (b3 - a3) + y * (c3 - a3)).
(** it is the projection of [d] on the plane: what is left is perpendicular to both sides *)
Definition projects (d a b c : p3) (x y : Q) : Prop :=
  square (vector (in_plane a b c x y) d) (vector a b) ∧ square (vector (in_plane a b c x y) d) (vector a c).
(** the triangle is a segment or a point *)
Definition flat (a b c : p3) : Prop := eq3 a b ∨ ∃ t, eq3 c (at3 a b t).
(** [f] is the face with corners [va], [vb], [vc] at [a], [b], [c] *)
Definition face_at_corner (m : mesh p3) (f va vb vc : N) (a b c : p3) : Prop :=
  cycle_face m f va vb vc ∧
  vpos <$> verts m !! va = Some a ∧ vpos <$> verts m !! vb = Some b ∧ vpos <$> verts m !! vc = Some c.
(** [h] is the side of [f] from [u] to [v] *)
Definition side_of (m : mesh p3) (f h u v : N) : Prop :=
  runs m h u v ∧ ∃ x, hes m !! h = Some x ∧ hface x = Some f.

(** the right answer: the place where the projected ray meets the opposite side, the
    half-edge leaving the corner along which it runs, nothing otherwise *)
Definition right_exit (m : mesh p3) (f va vb vc : N) (a b c : p3) (x y : Q) (r : option vertex_ray) : Prop :=
  (0 < x → 0 < y → ∃ h t u, r = Some (EdgeIntersection h t u) ∧ side_of m f h vb vc ∧
     0 < t ∧ 0 < u ∧ u < 1 ∧ eq3 (ray3 a (in_plane a b c x y) t) (at3 b c u)) ∧
  (0 < x → y == 0 → ∃ h, r = Some (CollinearWithEdge h) ∧ runs m h va vb) ∧
  (x == 0 → 0 < y → ∃ h, r = Some (CollinearWithEdge h) ∧ runs m h va vc) ∧
  (x < 0 ∨ y < 0 ∨ (x == 0 ∧ y == 0) → r = None).
(** the direction points backwards along a side *)
Definition backwards (x y : Q) : Prop := (y == 0 ∧ x < 0) ∨ (x == 0 ∧ y < 0).

Lemma flat_zero a b c : flat a b c ↔ dot3 (cross3 (sub3 b a) (sub3 c a)) (cross3 (sub3 b a) (sub3 c a)) == 0.
Proof.
  split.
  - intros [H|[t H]]; coords; vec.
    + destruct H as (->&->&->). ring.
    + destruct H as (->&->&->). ring.
  - intros Z%dot3_zero. set (e := sub3 b a) in *. set (g := sub3 c a) in *.
    destruct (Qeq_dec (dot3 e e) 0) as [E|E].
    + left. apply dot3_zero in E. unfold e in E. clear -E. coords. vec. destruct E as (?&?&?). repeat split; lra.
    + right. exists (dot3 e g / dot3 e e).
      assert (eq3 (scale_3 g (dot3 e e)) (scale_3 e (dot3 e g))) as H.
      { assert (eq3 (sub3 (scale_3 g (dot3 e e)) (scale_3 e (dot3 e g))) (cross3 (cross3 e g) e)) as H.
        { generalize e g. clear. intros. coords. vec. repeat split; ring. }
        pose proof (eq3_trans _ _ _ H (cross3_ext _ _ _ _ Z (eq3_refl e))) as H1. revert H1.
        generalize (scale_3 g (dot3 e e)) (scale_3 e (dot3 e g)) e. clear. intros u v w. coords. vec. intros (?&?&?). repeat split; lra. }
      revert H E. generalize (dot3 e e) (dot3 e g). intros k l H E. unfold e, g in H. clear -H E.
      coords. vec. destruct H as (H1&H2&H3). repeat split; apply (Qmult_inj_r _ _ k E).
      * transitivity ((q - q5) * k + q5 * k); [ring|]. rewrite H1. field. exact E.
      * transitivity ((q0 - q6) * k + q6 * k); [ring|]. rewrite H2. field. exact E.
      * transitivity ((q1 - q7) * k + q7 * k); [ring|]. rewrite H3. field. exact E.
Qed.

Lemma projects_rest d a b c x y : projects d a b c x y →
  let r := sub3 d (lin x y (sub3 b a) (sub3 c a)) in
  eq3 d (add_3 (lin x y (sub3 b a) (sub3 c a)) r) ∧ dot3 r (sub3 b a) == 0 ∧ dot3 r (sub3 c a) == 0.
Proof.
  intros [H1 H2] r. unfold r. clear r. coords. unfold lin. vec. unfold square, vector, in_plane in *.
  split; [repeat split; ring|]. split; [rewrite <- H1|rewrite <- H2]; ring.
Qed.

Section claims.
Implicit Types (m : mesh p3).

Lemma both m f va vb vc a b c d x y :
  WellFormed m → face_at_corner m f va vb vc a b c → ¬ flat a b c → projects d a b c x y →
  (∃ r, cast_ray_from_vertex_in_triangle m f va d = Some r ∧ ray_spec m f va vb vc x y y r) ∧
  (∃ r, cast_ray_from_vertex_in_triangle_3 m f va d = Some r ∧ ray_spec m f va vb vc x y (- y) r).
Proof.
  intros W (Hc&Pa&Pb&Pc) Hf Hp. rewrite flat_zero in Hf. destruct (projects_rest _ _ _ _ _ _ Hp) as (R1&R2&R3).
  by apply (cast_ok m W f va vb vc a b c d x y (sub3 d (lin x y (sub3 b a) (sub3 c a)))).
Qed.

(** every direction projects on the plane of a face that is not flat, in one way *)
Theorem C121_projects d a b c : ¬ flat a b c →
  ∃ x y, projects d a b c x y ∧ ∀ x' y', projects d a b c x' y' → x' == x ∧ y' == y.
Proof.
  intros Hf. rewrite flat_zero in Hf. set (e := sub3 b a) in *. set (g := sub3 c a) in *.
  set (det := dot3 e e * dot3 g g - dot3 e g * dot3 e g).
  exists ((dot3 d e * dot3 g g - dot3 d g * dot3 e g) * (1 / det)), ((dot3 d g * dot3 e e - dot3 d e * dot3 e g) * (1 / det)).
  assert (~ det == 0) as Hdet.
  { assert (det == dot3 (cross3 e g) (cross3 e g)) as ->; [|exact Hf]. unfold det. generalize e g. clear. intros. coords. vec. ring. }
  split.
  - unfold det in *. unfold e, g in *. clear -Hdet.
    assert (∀ x y, (dot3 d (sub3 b a) == x * dot3 (sub3 b a) (sub3 b a) + y * dot3 (sub3 b a) (sub3 c a)) →
      (dot3 d (sub3 c a) == x * dot3 (sub3 b a) (sub3 c a) + y * dot3 (sub3 c a) (sub3 c a)) → projects d a b c x y) as H.
    { clear. intros x y. unfold projects. coords. vec. unfold square, vector, in_plane. intros H1 H2.
      split; lra. }
    apply H; field; exact Hdet.
  - intros x' y' Hp. destruct (projects_rest _ _ _ _ _ _ Hp) as (R1&R2&R3).
    destruct (metric_ok d _ x' y' e g Hf R1 R2 R3) as (_&_&_&H4&H5). fold det in H4, H5. split; symmetry; assumption.
Qed.

Lemma hit_place a b c x y t u : ~ x + y == 0 → t == 1 / (x + y) → u == y / (x + y) →
  eq3 (ray3 a (in_plane a b c x y) t) (at3 b c u).
Proof.
  intros Hs Et Eu. coords. unfold in_plane. vec. rewrite Et, Eu. repeat split; field; exact Hs.
Qed.
Lemma unit_between x y : 0 < x → 0 < y → 0 < 1 / (x + y) ∧ 0 < y / (x + y) ∧ y / (x + y) < 1.
Proof.
  intros. split_and!; [apply Qlt_shift_div_l; lra..|]. apply Qlt_shift_div_r; lra.
Qed.

(** C121, for directions that do not point backwards along a side *)
Theorem C121_vertex_ray_partial m f va vb vc a b c d x y :
  WellFormed m → face_at_corner m f va vb vc a b c → ¬ flat a b c → projects d a b c x y → ¬ backwards x y →
  ∃ r, cast_ray_from_vertex_in_triangle m f va d = Some r ∧ right_exit m f va vb vc a b c x y r.
Proof.
  intros W Hf Hn Hp Hb. destruct (both _ _ _ _ _ _ _ _ _ _ _ W Hf Hn Hp) as [(r&Er&S1&S2&S3&S4&S5&S6) _].
  exists r. split; [exact Er|]. split_and!.
  - intros Hx Hy. destruct (unit_between x y Hx Hy) as (U1&U2&U3).
    destruct S6 as [S6 _]; [lra..|]. destruct S6 as (h&z&t&u&->&R&Hz&Hzf&Et&Eu); [lra..|].
    exists h, t, u. split; [done|]. split; [split; eauto|]. split_and!; [rewrite Et; exact U1|rewrite Eu; exact U2|rewrite Eu; exact U3|].
    apply hit_place; [lra|exact Et|exact Eu].
  - intros Hx Hy. destruct (S2 Hy Hx) as (h&?&?). eauto.
  - intros Hx Hy. destruct (S4 Hx Hy) as (h&?&?). eauto.
  - intros Hxy. unfold backwards in Hb. destruct (Qeq_dec x 0) as [Zx|Zx], (Qeq_dec y 0) as [Zy|Zy].
    + by apply S1.
    + destruct Hxy as [?|[?|[_ ?]]]; [lra|tauto|tauto].
    + destruct Hxy as [?|[?|[? _]]]; [tauto|lra|tauto].
    + destruct (S6 Zx Zy) as [_ S7]. apply S7. intros (?&?&?). destruct Hxy as [?|[?|[? _]]]; lra || tauto.
Qed.
(** a flat face, or a vertex that is not a corner: no answer *)
Theorem C121_no_face m f va vb vc a b c d : WellFormed m → face_at_corner m f va vb vc a b c →
  (flat a b c → cast_ray_from_vertex_in_triangle m f va d = Some None ∧ cast_ray_from_vertex_in_triangle_3 m f va d = Some None) ∧
  (∀ v, v ≠ va → v ≠ vb → v ≠ vc →
     cast_ray_from_vertex_in_triangle m f v d = Some None ∧ cast_ray_from_vertex_in_triangle_3 m f v d = Some None).
Proof.
  intros W (Hc&Pa&Pb&Pc). split.
  - intros Hf%flat_zero. by apply (cast_flat m W f va vb vc a b c d).
  - intros v N1 N2 N3. destruct (face_at m W f va vb vc Hc) as (vs&_&_&_&_&Ev&_&Hvs&_).
    unfold cast_ray_from_vertex_in_triangle, cast_ray_from_vertex_in_triangle_3. rewrite Ev. cbn [mbind option_bind].
    assert (corner_edges vs v = None) as ->; [|done].
    apply not_eq_sym, N.eqb_neq in N1, N2, N3.
    destruct Hvs as [->|[-> | ->]]; unfold corner_edges; by rewrite N1, N2, N3.
Qed.
(** a ray that leaves the face at once, backwards along a side, is reported as running
    along that side *)
Theorem C121_backwards_refuted m f va vb vc a b c d x y :
  WellFormed m → face_at_corner m f va vb vc a b c → ¬ flat a b c → projects d a b c x y →
  y == 0 → x < 0 →
  ∃ h, runs m h vb va ∧ cast_ray_from_vertex_in_triangle m f va d = Some (Some (CollinearWithEdge h)) ∧
    ¬ right_exit m f va vb vc a b c x y (Some (CollinearWithEdge h)).
Proof.
  intros W Hf Hn Hp Hy Hx. destruct (both _ _ _ _ _ _ _ _ _ _ _ W Hf Hn Hp) as [(r&Er&S1&S2&S3&S4&S5&S6) _].
  destruct (S3 Hy Hx) as (h&R&->). exists h. split; [done|]. split; [done|].
  intros (_&_&_&H). by discriminate H; left.
Qed.

(** C122: the other version is right along the sides and for a direction that is
    perpendicular to the face *)
Theorem C122_vertex_ray_3_partial m f va vb vc a b c d x y :
  WellFormed m → face_at_corner m f va vb vc a b c → ¬ flat a b c → projects d a b c x y → ¬ backwards x y →
  x == 0 ∨ y == 0 ∨ (x < 0 ∧ y < 0) →
  ∃ r, cast_ray_from_vertex_in_triangle_3 m f va d = Some r ∧ right_exit m f va vb vc a b c x y r.
Proof.
  intros W Hf Hn Hp Hb Hz. destruct (both _ _ _ _ _ _ _ _ _ _ _ W Hf Hn Hp) as [_ (r&Er&S1&S2&S3&S4&S5&S6)].
  exists r. split; [exact Er|]. split_and!.
  - intros Hx Hy. destruct Hz as [?|[?|[? ?]]]; lra.
  - intros Hx Hy. destruct (S2 Hy Hx) as (h&?&?). eauto.
  - intros Hx Hy. destruct (S4 Hx Hy) as (h&?&?). eauto.
  - intros Hxy. unfold backwards in Hb. destruct (Qeq_dec x 0) as [Zx|Zx], (Qeq_dec y 0) as [Zy|Zy].
    + by apply S1.
    + destruct Hxy as [?|[?|[_ ?]]]; [lra|tauto|tauto].
    + destruct Hxy as [?|[?|[? _]]]; [tauto|lra|tauto].
    + destruct Hz as [?|[?|[? ?]]]; [tauto|tauto|]. destruct (S6 Zx Zy) as [_ S7]. apply S7. intros (?&?&?). lra.
Qed.
(** it misses the opposite side for every direction into the face *)
Theorem C122_misses_refuted m f va vb vc a b c d x y :
  WellFormed m → face_at_corner m f va vb vc a b c → ¬ flat a b c → projects d a b c x y → 0 < x → 0 < y →
  cast_ray_from_vertex_in_triangle_3 m f va d = Some None ∧ ¬ right_exit m f va vb vc a b c x y None.
Proof.
  intros W Hf Hn Hp Hx Hy. destruct (both _ _ _ _ _ _ _ _ _ _ _ W Hf Hn Hp) as [_ (r&Er&S1&S2&S3&S4&S5&S6)].
  destruct S6 as [_ S6]; [lra..|]. rewrite S6 in Er by (intros (?&?&?); lra). split; [done|].
  intros (H&_). destruct (H Hx Hy) as (?&?&?&?&_). discriminate.
Qed.
(** and it reports a hit for directions that leave the face at once; the point it names
    is not on the ray *)
Theorem C122_false_hit_refuted m f va vb vc a b c d x y :
  WellFormed m → face_at_corner m f va vb vc a b c → ¬ flat a b c → projects d a b c x y → y < 0 → 0 <= x + 2 * y →
  ∃ h t u, cast_ray_from_vertex_in_triangle_3 m f va d = Some (Some (EdgeIntersection h t u)) ∧
    ¬ right_exit m f va vb vc a b c x y (Some (EdgeIntersection h t u)) ∧
    ∀ s, ¬ eq3 (ray3 a (in_plane a b c x y) s) (at3 b c u).
Proof.
  intros W Hf Hn Hp Hy Hxy. destruct (both _ _ _ _ _ _ _ _ _ _ _ W Hf Hn Hp) as [_ (r&Er&S1&S2&S3&S4&S5&S6)].
  destruct S6 as [S6 _]; [lra..|]. destruct S6 as (h&z&t&u&->&R&Hz&Hzf&Et&Eu); [lra..|].
  exists h, t, u. split; [done|]. split.
  { intros (_&_&_&H). by discriminate H; right; left. }
  intros s Hs. rewrite flat_zero in Hn.
  assert (eq3 (lin (s * x - (1 - u)) (s * y - u) (sub3 b a) (sub3 c a)) (0, 0, 0)) as Z.
  { clear -Hs. coords. unfold lin, in_plane in *. vec. destruct Hs as (H1&H2&H3). repeat split; lra. }
  destruct (lin_norm _ _ _ _ Z Hn) as [Z1 Z2].
  assert (u * (x + y) == - y) as Hu by (rewrite Eu; field; lra). clear -Z1 Z2 Hu Hy Hxy.
  assert (s * (x + y) == 1) as Hs by lra.
  assert (0 < s) by (apply Qnot_le_lt; intros ?; nra). nra.
Qed.
End claims.

(** a tetrahedron in space *)
Definition tet_ops : list (op p3) :=
  map AddVertex [(0, 0, 0); (4, 0, 0); (0, 4, 0); (0, 0, 4)] ++
  map (λ '(a, b, c), AddTriangle a b c) [(0, 2, 1); (0, 1, 3); (1, 2, 3); (2, 0, 3)]%N.
Definition no_degen (_ _ _ _ : p3) : bool := false.
Definition tet : mesh p3 := default mesh_new (exec_all no_degen mesh_new tet_ops).
Lemma tet_wf : WellFormed tet.
Proof.
  assert ((if exec_all no_degen mesh_new tet_ops then true else false) = true) as H by (vm_compute; reflexivity).
  apply (demo_wf no_degen tet_ops); [vm_compute; reflexivity|vm_compute; discriminate|]. unfold tet.
  destruct (exec_all no_degen mesh_new tet_ops); done.
Qed.
Lemma tet_face : face_at_corner tet 0 0 2 1 (0, 0, 0) (0, 4, 0) (4, 0, 0).
Proof.
  pose proof tet_wf as W. apply WF_iff in W. split.
  { left. apply corners_ok; [exact W|]. vm_compute. reflexivity. }
  split_and!; vm_compute; reflexivity.
Qed.
(** the direction (1, 2, 7) above the face, and the three kinds of bad answers *)
Example C121_case : WellFormed tet ∧ face_at_corner tet 0 0 2 1 (0, 0, 0) (0, 4, 0) (4, 0, 0) ∧
  ¬ flat (0, 0, 0) (0, 4, 0) (4, 0, 0) ∧
  projects (1, 2, 7) (0, 0, 0) (0, 4, 0) (4, 0, 0) (1 # 2) (1 # 4) ∧ ¬ backwards (1 # 2) (1 # 4) ∧
  projects (0, -(1), 7) (0, 0, 0) (0, 4, 0) (4, 0, 0) (-(1 # 4)) 0 ∧
  projects (-(1), 4, 7) (0, 0, 0) (0, 4, 0) (4, 0, 0) 1 (-(1 # 4)).
Proof.
  split; [exact tet_wf|]. split; [exact tet_face|]. split.
  { rewrite flat_zero. intros H. discriminate H. }
  split; [split; reflexivity|]. split; [intros [[H _]|[H _]]; discriminate H|]. split; split; reflexivity.
Qed.
Print Assumptions C121_projects.
Print Assumptions C121_vertex_ray_partial.
Print Assumptions C121_no_face.
Print Assumptions C121_backwards_refuted.
Print Assumptions C122_vertex_ray_3_partial.
Print Assumptions C122_misses_refuted.
Print Assumptions C122_false_hit_refuted.
