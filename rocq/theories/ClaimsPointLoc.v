(** Properties C123 and C124: the face that holds a point.
    Vocabulary: the model PointLocModel and the specifications PointLocSpec, GeomSpec and
    MeshSpec. *)
From Verif Require Import PointLoc MeshDemo.
From Verif Require Import GeomBase GeomLine GeomTri MeshHistSpec PointLocSpec GeomSpec MeshSpec.
Local Open Scope Q_scope.

Section claims.
Implicit Types (m : mesh point) (p : point).

(** the point lies on the face *)
Definition holds m p (f : N) : Prop :=
  ∃ i j k a b c x y z, corners_at m f i j k a b c ∧ 0 <= x ∧ 0 <= y ∧ 0 <= z ∧ x + y + z == 1 ∧ peq p (comb x y z a b c).
(** the answer names the place of the point itself *)
Definition placed m p (r : face_place) : Prop :=
  match r with
  | PInside f (x, y, z) => ∃ i j k a b c, oriented_face m f i j k ∧ corners_at m f i j k a b c ∧
      0 < x ∧ 0 < y ∧ 0 < z ∧ x + y + z == 1 ∧ peq p (comb x y z a b c)
  | POnEdge f h u => ∃ i j k a b c, is_side m f h i j ∧ corners_at m f i j k a b c ∧ 0 < u ∧ u < 1 ∧ peq p (lerp a b u)
  | POnVertex f v => ∃ j k a b c, corners_at m f v j k a b c ∧ peq p a
  end.

Lemma inner_self p q a b : peq p q → inner p q a b == 0.
Proof.
  intros H. revert a b. induction H as [|x y p q E H IH]; intros [|s a] [|t b]; cbn; try reflexivity. rewrite IH, E. ring.
Qed.
(** a point that lies on a face that is not flat touches it *)
Lemma holds_touches m p f : no_flat_face m → holds m p f → touches m p f.
Proof.
  intros NF (i&j&k&a&b&c&x&y&z&Hc&Hx&Hy&Hz&Hs&Hp). exists i, j, k, a, b, c, x, y, z.
  split; [done|]. split; [by eapply NF|]. split; [|done]. split; [done|]. split; by apply inner_self.
Qed.
(** the converse holds in the plane *)
Lemma foot_plane p a b c x y z : length p = 2%nat → length a = 2%nat → length b = 2%nat → length c = 2%nat →
  ¬ flat a b c → foot p a b c x y z → peq p (comb x y z a b c).
Proof.
  intros Ep Ea Eb Ec Hf (Hs&H1&H2).
  assert (~ gram a b c == 0) as Hg by (rewrite gram_zero; [done|unfold same_dim; congruence..]).
  assert (length (comb x y z a b c) = 2%nat) as Eq by (rewrite len_comb; [done|unfold same_dim; congruence..]).
  revert H1 H2 Hg Eq. generalize (comb x y z a b c). intros q.
  destruct p as [|p1 [|p2 []]]; try discriminate. destruct a as [|a1 [|a2 []]]; try discriminate.
  destruct b as [|b1 [|b2 []]]; try discriminate. destruct c as [|c1 [|c2 []]]; try discriminate.
  unfold gram. cbn. intros H1 H2 Hg Eq. destruct q as [|q1 [|q2 []]]; try discriminate.
  set (k := (b1 - a1) * (c2 - a2) - (b2 - a2) * (c1 - a1)).
  assert (~ k == 0) as Hk.
  { intros Hk. apply Hg. transitivity (k * k); [unfold k; ring|]. rewrite Hk. ring. }
  assert ((p1 - q1) * k == 0) as K1.
  { transitivity (((p1 - q1) * (b1 - a1) + ((p2 - q2) * (b2 - a2) + 0)) * (c2 - a2) - ((p1 - q1) * (c1 - a1) + ((p2 - q2) * (c2 - a2) + 0)) * (b2 - a2)); [unfold k; ring|].
    rewrite H1, H2. ring. }
  assert ((p2 - q2) * k == 0) as K2.
  { transitivity (((p1 - q1) * (c1 - a1) + ((p2 - q2) * (c2 - a2) + 0)) * (b1 - a1) - ((p1 - q1) * (b1 - a1) + ((p2 - q2) * (b2 - a2) + 0)) * (c1 - a1)); [unfold k; ring|].
    rewrite H1, H2. ring. }
  apply Qmult_integral in K1 as [K1|]; [|tauto]. apply Qmult_integral in K2 as [K2|]; [|tauto].
  constructor; [lra|]. constructor; [lra|]. constructor.
Qed.
Lemma comb_lerp a b c u : same_dim a b → same_dim a c → peq (comb (1 - u) u 0 a b c) (lerp a b u).
Proof.
  unfold same_dim. revert b c. induction a as [|s a IH]; intros [|t b] [|w c] E1 E2; cbn in *; try discriminate; constructor.
  - ring.
  - apply IH; congruence.
Qed.
Lemma comb_first a b c : same_dim a b → same_dim a c → peq (comb 1 0 0 a b c) a.
Proof.
  unfold same_dim. revert b c. induction a as [|s a IH]; intros [|t b] [|w c] E1 E2; cbn in *; try discriminate; constructor.
  - ring.
  - apply IH; congruence.
Qed.
Lemma peq_trans p q r : peq p q → peq q r → peq p r.
Proof. intros H. revert r. induction H as [|x y p q E H IH]; intros r K; inversion K; subst; constructor; [lra|]. by apply IH. Qed.
Lemma located_placed m p r : in_dim 2 m → length p = 2%nat → located m p r → placed m p r.
Proof.
  intros D Dp. assert (∀ f i j k a b c, corners_at m f i j k a b c → length a = 2%nat ∧ length b = 2%nat ∧ length c = 2%nat) as Hl.
  { intros f i j k a b c (_&A%(dim_at 2 m D)&B%(dim_at 2 m D)&C%(dim_at 2 m D)). done. }
  destruct r as [f [[x y] z]|f h u|f v]; cbn.
  - intros (i&j&k&a&b&c&Ho&Hc&Hf&Hft&?&?&?). destruct (Hl _ _ _ _ _ _ _ Hc) as (?&?&?). exists i, j, k, a, b, c. split_and!; try done.
    + by destruct Hft.
    + by apply foot_plane.
  - intros (i&j&k&a&b&c&Ho&Hc&Hf&Hft&?&?). destruct (Hl _ _ _ _ _ _ _ Hc) as (?&?&?). exists i, j, k, a, b, c. split_and!; try done.
    eapply peq_trans; [by apply (foot_plane p a b c (1 - u) u 0)|]. apply comb_lerp; unfold same_dim; congruence.
  - intros (j&k&a&b&c&Hc&Hf&Hft). destruct (Hl _ _ _ _ _ _ _ Hc) as (?&?&?). exists j, k, a, b, c. split; [done|].
    eapply peq_trans; [by apply (foot_plane p a b c 1 0 0)|]. apply comb_first; unfold same_dim; congruence.
Qed.
Lemma located_touches m p r : located m p r → touches m p (face_of r).
Proof.
  destruct r as [f [[x y] z]|f h u|f v]; cbn.
  - intros (i&j&k&a&b&c&_&Hc&Hf&Hft&?&?&?). exists i, j, k, a, b, c, x, y, z. split_and!; try done; lra.
  - intros (i&j&k&a&b&c&_&Hc&Hf&Hft&?&?). exists i, j, k, a, b, c, (1 - u), u, 0. split_and!; try done; lra.
  - intros (j&k&a&b&c&Hc&Hf&Hft). exists v, j, k, a, b, c, 1, 0, 0. split_and!; try done; lra.
Qed.
Lemma holds_live m p f : holds m p f → live_face m f.
Proof. intros (i&j&k&a&b&c&x&y&z&Hc&_). by eapply corners_live. Qed.
End claims.

(** C123: for a point whose foot on the plane of a face lies on the face, location_on_face
    names the face and the place of the foot: inside with its weights, on a side with the
    parameter along it, or at a corner. *)
Theorem C123_location : ∀ n (m : mesh point) p f i j k a b c x y z, WellFormed m → in_dim n m → length p = n →
  corners_at m f i j k a b c → ¬ flat a b c → foot p a b c x y z → 0 <= x → 0 <= y → 0 <= z →
  ∃ r, location_on_face m f p = Some r ∧ face_of r = f ∧ located m p r.
Proof.
  intros n m p f i j k a b c x y z W D Dp Hc Hf Hft Hx Hy Hz.
  destruct (live_tri m W f) as (i'&j'&k'&a'&b'&c'&Ho&Hc'&_); [by eapply corners_live|].
  assert (touches m p f) as Ht by (exists i, j, k, a, b, c, x, y, z; done).
  pose proof (bary_at n m p D Dp _ _ _ _ _ _ _ Hc') as Hb.
  destruct (bary_of m p (i', j', k')) as [[[u v] w]|] eqn:Eb.
  - destruct (location_ok n m p D Dp _ _ _ _ _ _ _ _ _ _ Ho Hc' Eb) as (r&Er&Ef&Hl&_). exists r. split; [done|]. split; [done|].
    destruct (off_face (u, v, w)) eqn:Eo; [by destruct (touch_test n m p D Dp _ _ _ _ _ _ _ _ _ _ Hc' Eb Eo)|].
    apply off_face_f in Eo as (?&?&?). by apply Hl.
  - exfalso. apply Hf. destruct (corners_dims n m p D Dp _ _ _ _ _ _ _ Hc') as (E1&E2&_).
    assert (gram a' b' c' == 0) as G by (by apply gram_zero).
    assert ((a', b', c') = (a, b, c) ∨ (a', b', c') = (b, c, a) ∨ (a', b', c') = (c, a, b)) as He.
    { destruct Hc as (Hcy&A&B&C), Hc' as (_&A'&B'&C'). pose proof (face_vertices_at _ _ _ _ _ Ho) as E.
      destruct Hcy as [H|[H|H]]; apply face_vertices_at in H; rewrite E in H; injection H as -> -> ->; simplify_eq; tauto. }
    destruct He as [He|[He|He]]; injection He as -> -> ->; [done|..].
    + apply flat_turn; [unfold same_dim in *; congruence..|done].
    + apply flat_turn; [unfold same_dim in *; congruence..|]. apply flat_turn; [unfold same_dim in *; congruence..|done].
Qed.
(** C123: it panics for every point if the face is flat. *)
Theorem C123_flat : ∀ n (m : mesh point) p f i j k a b c, WellFormed m → in_dim n m → length p = n →
  oriented_face m f i j k → corners_at m f i j k a b c → flat a b c → location_on_face m f p = None.
Proof. intros n m p f i j k a b c W D Dp Ho Hc Hf. exact (location_flat n m p D Dp _ _ _ _ _ _ _ Ho Hc Hf). Qed.

(** C124: whatever face it starts from, find_valid_face only answers with a face on which
    the foot of the point lies, and with the place of that foot on it. *)
Theorem C124_sound : ∀ n split (m : mesh point) start p r, WellFormed m → in_dim n m → length p = n →
  find_valid_face split m start p = Some r → located m p r.
Proof. intros n split m start p r W D Dp. by apply (find_sound n). Qed.
(** C124, in the plane: the answer is the place of the point itself, and there is one if
    the face that holds the point can be reached from the start across common sides.
    Missing: other faces; see below. *)
Theorem C124_plane_partial : ∀ split (m : mesh point) start p f, WellFormed m → in_dim 2 m → length p = 2%nat →
  no_flat_face m → split_ok m split → live_face m start → linked m start f → holds m p f →
  ∃ r, find_valid_face split m start p = Some r ∧ placed m p r.
Proof.
  intros split m start p f W D Dp NF SO Hl Hk Hh.
  destruct (find_linked 2 m p W D Dp split NF SO start f Hl Hk (holds_touches _ _ _ NF Hh)) as [r Er].
  exists r. split; [done|]. apply located_placed; [done..|]. by apply (find_sound 2 m p W D Dp split start).
Qed.
(** C124, in space: if a face holds the point, there is an answer, from every start face;
    the foot of the point on the face named lies on that face, and if this is so for one
    face only, that face is named. Missing: that the face named holds the point. *)
Theorem C124_space_partial : ∀ split (m : mesh point) start p f, WellFormed m → in_dim 3 m → length p = 3%nat →
  no_flat_face m → split_ok m split → live_face m start → holds m p f →
  ∃ r, find_valid_face split m start p = Some r ∧ located m p r ∧
    ((∀ g, touches m p g → g = f) → face_of r = f).
Proof.
  intros split m start p f W D Dp NF SO Hl Hh.
  destruct (find_space 3 m p W D Dp split NF SO start f eq_refl) as [r Er]; [|by eapply holds_live|by apply holds_touches|].
  { destruct Hl as (y&Hy&_). apply (wfs_faces _ W). by exists y. }
  pose proof (find_sound 3 m p W D Dp split start r Er) as Hr. exists r. split; [done|]. split; [done|].
  intros Hu. by apply Hu, located_touches.
Qed.

(** ** Concrete meshes *)
(** tests that imply the hypotheses *)
Lemma dims_test n (m : mesh point) : bool_decide (map_Forall (λ _ x, length (vpos x) = n) (verts m)) = true → in_dim n m.
Proof. intros H%bool_decide_eq_true v x Hv. exact (H v x Hv). Qed.
Definition solid (m : mesh point) (p : point) : bool :=
  forallb (λ f, match face_vertices m f with
                | Some vs => match bary_of m p vs with Some _ => true | None => false end
                | None => false
                end) (range (nfaces m)).
Lemma solid_test n (m : mesh point) p : WellFormed m → in_dim n m → length p = n → solid m p = true → no_flat_face m.
Proof.
  intros W D Dp Hs f i j k a b c Hc Hf.
  pose proof (corners_live _ _ _ _ _ _ _ _ Hc) as Hl. destruct (live_tri m W f Hl) as (i'&j'&k'&a'&b'&c'&Ho&Hc'&Ev).
  unfold solid in Hs. rewrite forallb_forall in Hs. specialize (Hs f). rewrite <- elem_of_list_In, Ev in Hs.
  pose proof (bary_at n m p D Dp _ _ _ _ _ _ _ Hc') as Hb.
  destruct (bary_of m p (i', j', k')) as [[[u v] w]|] eqn:Eb.
  - apply (proj1 Hb). destruct (corners_dims n m p D Dp _ _ _ _ _ _ _ Hc') as (E1&E2&_).
    assert ((a, b, c) = (a', b', c') ∨ (a, b, c) = (b', c', a') ∨ (a, b, c) = (c', a', b')) as He.
    { destruct Hc as (Hcy&A&B&C), Hc' as (_&A'&B'&C').
      destruct Hcy as [H|[H|H]]; apply face_vertices_at in H; rewrite Ev in H; injection H as -> -> ->; simplify_eq; tauto. }
    destruct He as [He|[He|He]]; injection He as -> -> ->; [done|..].
    + apply flat_turn; [unfold same_dim in *; congruence..|done].
    + apply flat_turn; [unfold same_dim in *; congruence..|]. apply flat_turn; [unfold same_dim in *; congruence..|done].
  - discriminate Hs. apply range_spec. destruct Hl as (y&Hy&_). apply (wfs_faces _ W). by exists y.
Qed.
Lemma no_split_ok m : split_ok m ∅.
Proof. intros f l g i j k H. rewrite lookup_empty in H. discriminate H. Qed.

Definition any_degen (_ _ _ _ : point) : bool := false.
(** a tetrahedron *)
Definition tet_ops : list (op point) :=
  map AddVertex [[0; 0; 0]; [4; 0; 0]; [0; 4; 0]; [0; 0; 4]] ++
  map (λ '(a, b, c), AddTriangle a b c) [(0, 2, 1); (0, 1, 3); (1, 2, 3); (2, 0, 3)]%N.
Definition tet : mesh point := default mesh_new (exec_all any_degen mesh_new tet_ops).
(** two triangles with a common side in the plane, and a third one apart *)
Definition flat_ops : list (op point) :=
  map AddVertex [[0; 0]; [4; 0]; [4; 4]; [0; 4]; [8; 0]; [12; 0]; [8; 4]] ++
  map (λ '(a, b, c), AddTriangle a b c) [(0, 1, 2); (0, 2, 3); (4, 5, 6)]%N.
Definition sheet : mesh point := default mesh_new (exec_all any_degen mesh_new flat_ops).
(** a flat triangle and another one on its long side *)
Definition sliver_ops : list (op point) :=
  map AddVertex [[0; 0]; [2; 0]; [4; 0]; [0; 4]] ++
  map (λ '(a, b, c), AddTriangle a b c) [(0, 2, 3); (2, 0, 1)]%N.
Definition sliver : mesh point := default mesh_new (exec_all any_degen mesh_new sliver_ops).

Lemma tet_wf : WellFormed tet.
Proof.
  assert ((if exec_all any_degen mesh_new tet_ops then true else false) = true) as H by (vm_compute; reflexivity).
  apply (demo_wf any_degen tet_ops); [vm_compute; reflexivity|vm_compute; discriminate|]. unfold tet.
  destruct (exec_all any_degen mesh_new tet_ops); done.
Qed.
Lemma sheet_wf : WellFormed sheet.
Proof.
  assert ((if exec_all any_degen mesh_new flat_ops then true else false) = true) as H by (vm_compute; reflexivity).
  apply (demo_wf any_degen flat_ops); [vm_compute; reflexivity|vm_compute; discriminate|]. unfold sheet.
  destruct (exec_all any_degen mesh_new flat_ops); done.
Qed.
Lemma sliver_wf : WellFormed sliver.
Proof.
  assert ((if exec_all any_degen mesh_new sliver_ops then true else false) = true) as H by (vm_compute; reflexivity).
  apply (demo_wf any_degen sliver_ops); [vm_compute; reflexivity|vm_compute; discriminate|]. unfold sliver.
  destruct (exec_all any_degen mesh_new sliver_ops); done.
Qed.
Lemma at_test m f i j k a b c : WellFormed m → corners m f = Some (i, j, k) →
  vpos <$> verts m !! i = Some a → vpos <$> verts m !! j = Some b → vpos <$> verts m !! k = Some c →
  oriented_face m f i j k ∧ corners_at m f i j k a b c.
Proof.
  intros W E A B C. apply WF_iff in W. assert (oriented_face m f i j k) as Ho by (by apply corners_ok).
  split; [done|]. split; [by left|done].
Qed.
Lemma tet_0 : oriented_face tet 0 0 2 1 ∧ corners_at tet 0 0 2 1 [0; 0; 0] [0; 4; 0] [4; 0; 0].
Proof. apply at_test; [exact tet_wf|vm_compute; reflexivity..]. Qed.
Lemma tet_2 : oriented_face tet 2 1 2 3 ∧ corners_at tet 2 1 2 3 [4; 0; 0] [0; 4; 0] [0; 0; 4].
Proof. apply at_test; [exact tet_wf|vm_compute; reflexivity..]. Qed.
Lemma sheet_0 : oriented_face sheet 0 0 1 2 ∧ corners_at sheet 0 0 1 2 [0; 0] [4; 0] [4; 4].
Proof. apply at_test; [exact sheet_wf|vm_compute; reflexivity..]. Qed.
Lemma sheet_1 : oriented_face sheet 1 0 2 3 ∧ corners_at sheet 1 0 2 3 [0; 0] [4; 4] [0; 4].
Proof. apply at_test; [exact sheet_wf|vm_compute; reflexivity..]. Qed.
Lemma sheet_2 : oriented_face sheet 2 4 5 6 ∧ corners_at sheet 2 4 5 6 [8; 0] [12; 0] [8; 4].
Proof. apply at_test; [exact sheet_wf|vm_compute; reflexivity..]. Qed.
Lemma sliver_0 : oriented_face sliver 0 0 2 3 ∧ corners_at sliver 0 0 2 3 [0; 0] [4; 0] [0; 4].
Proof. apply at_test; [exact sliver_wf|vm_compute; reflexivity..]. Qed.
Lemma sliver_1 : oriented_face sliver 1 2 0 1 ∧ corners_at sliver 1 2 0 1 [4; 0] [0; 0] [2; 0].
Proof. apply at_test; [exact sliver_wf|vm_compute; reflexivity..]. Qed.
Ltac peq_lits := repeat (constructor; [reflexivity|]); constructor.
Lemma tet_dim : in_dim 3 tet.
Proof. apply dims_test. vm_compute. reflexivity. Qed.
Lemma tet_solid : no_flat_face tet.
Proof. apply (solid_test 3 tet [1; 1; 2] tet_wf tet_dim eq_refl). vm_compute. reflexivity. Qed.
Lemma sheet_dim : in_dim 2 sheet.
Proof. apply dims_test. vm_compute. reflexivity. Qed.
Lemma sheet_solid : no_flat_face sheet.
Proof. apply (solid_test 2 sheet [1; 1] sheet_wf sheet_dim eq_refl). vm_compute. reflexivity. Qed.
Lemma tet_holds : holds tet [1; 1; 2] 2.
Proof.
  exists 1%N, 2%N, 3%N, [4; 0; 0], [0; 4; 0], [0; 0; 4], (1#4), (1#4), (1#2). split; [exact (proj2 tet_2)|].
  split; [discriminate|]. split; [discriminate|]. split; [discriminate|]. split; [reflexivity|]. peq_lits.
Qed.

(** C124, refuted in space: the point lies on the slanted face of the tetrahedron, the
    search starts at the face below it, and answers with that face. *)
Theorem C124_space_refuted : ∃ (m : mesh point) start p f r, WellFormed m ∧ in_dim 3 m ∧ length p = 3%nat ∧ no_flat_face m ∧
  live_face m start ∧ holds m p f ∧ find_valid_face ∅ m start p = Some r ∧ ¬ holds m p (face_of r).
Proof.
  destruct (find_valid_face ∅ tet 0 [1; 1; 2]) as [r|] eqn:E; [|vm_compute in E; discriminate E].
  assert (face_of r = 0%N) as Ef. { vm_compute in E. injection E as <-. reflexivity. }
  exists tet, 0%N, [1; 1; 2], 2%N, r.
  split; [exact tet_wf|]. split; [exact tet_dim|]. split; [reflexivity|]. split; [exact tet_solid|].
  split; [exact (corners_live _ _ _ _ _ _ _ _ (proj2 tet_0))|]. split; [exact tet_holds|]. split; [exact E|].
  rewrite Ef. intros (i&j&k&a&b&c&x&y&z&Hc&_&_&_&_&Hp).
  destruct tet_0 as [Ho Hc0]. apply face_vertices_at in Ho.
  assert ((a, b, c) = ([0; 0; 0], [0; 4; 0], [4; 0; 0]) ∨ (a, b, c) = ([0; 4; 0], [4; 0; 0], [0; 0; 0]) ∨ (a, b, c) = ([4; 0; 0], [0; 0; 0], [0; 4; 0])) as He.
  { destruct Hc as (Hcy&A&B&C), Hc0 as (_&A'&B'&C').
    destruct Hcy as [H|[H|H]]; apply face_vertices_at in H; rewrite Ho in H; injection H as <- <- <-;
      rewrite A' in *; rewrite B' in *; rewrite C' in *; injection A as <-; injection B as <-; injection C as <-; tauto. }
  destruct He as [He|[He|He]]; injection He as -> -> ->; cbn in Hp;
    inversion Hp as [|? ? ? ? _ Hp1]; inversion Hp1 as [|? ? ? ? _ Hp2]; inversion Hp2 as [|? ? ? ? Hz _]; clear -Hz; lra.
Qed.
(** C124, refuted in the plane: the point lies on the triangle apart; the scan of all faces
    panics. *)
Theorem C124_plane_refuted : ∃ (m : mesh point) start p f, WellFormed m ∧ in_dim 2 m ∧ length p = 2%nat ∧ no_flat_face m ∧
  live_face m start ∧ holds m p f ∧ find_valid_face ∅ m start p = None.
Proof.
  exists sheet, 0%N, [9; 1], 2%N. split; [exact sheet_wf|]. split; [exact sheet_dim|]. split; [reflexivity|]. split; [exact sheet_solid|].
  split; [exact (corners_live _ _ _ _ _ _ _ _ (proj2 sheet_0))|]. split; [|vm_compute; reflexivity].
  exists 4%N, 5%N, 6%N, [8; 0], [12; 0], [8; 4], (1#2), (1#4), (1#4). split; [exact (proj2 sheet_2)|].
  split; [discriminate|]. split; [discriminate|]. split; [discriminate|]. split; [reflexivity|]. peq_lits.
Qed.
(** C124, refuted with flat faces: the search panics at a flat face it meets, although the
    point lies on the next one. *)
Theorem C124_flat_refuted : ∃ (m : mesh point) start p f, WellFormed m ∧ in_dim 2 m ∧ length p = 2%nat ∧
  live_face m start ∧ linked m start f ∧ holds m p f ∧ find_valid_face ∅ m start p = None.
Proof.
  exists sliver, 1%N, [1; 1], 0%N. split; [exact sliver_wf|]. split; [apply dims_test; vm_compute; reflexivity|]. split; [reflexivity|].
  split; [exact (corners_live _ _ _ _ _ _ _ _ (proj2 sliver_1))|]. split; [|split; [|vm_compute; reflexivity]].
  - apply rtc_once. exists 2%N, 0%N. split; [exists 1%N; left; exact (proj1 sliver_1)|exists 3%N; left; exact (proj1 sliver_0)].
  - exists 0%N, 2%N, 3%N, [0; 0], [4; 0], [0; 4], (1#2), (1#4), (1#4). split; [exact (proj2 sliver_0)|].
    split; [discriminate|]. split; [discriminate|]. split; [discriminate|]. split; [reflexivity|]. peq_lits.
Qed.

(** the hypotheses are met: a point across the common side of the two triangles, one on
    that side, one at a corner; and the three answers *)
Definition qeq3 (s t : Q * Q * Q) : Prop :=
  let '(a, b, c) := s in let '(x, y, z) := t in a == x ∧ b == y ∧ c == z.
Example C124_plane_case : live_face sheet 0 ∧ linked sheet 0 1 ∧ holds sheet [1; 3] 1 ∧ split_ok sheet ∅ ∧
  (∃ b, find_valid_face ∅ sheet 0 [1; 3] = Some (PInside 1 b) ∧ qeq3 b (1#4, 1#4, 1#2)) ∧
  (∃ h u, find_valid_face ∅ sheet 1 [1; 1] = Some (POnEdge 1 h u) ∧ runs sheet h 0 2 ∧ u == 1#4) ∧
  find_valid_face ∅ sheet 1 [4; 0] = Some (POnVertex 0 1).
Proof.
  split; [exact (corners_live _ _ _ _ _ _ _ _ (proj2 sheet_0))|].
  split. { apply rtc_once. exists 2%N, 0%N. split; [exists 1%N; right; left; exact (proj1 sheet_0)|exists 3%N; left; exact (proj1 sheet_1)]. }
  split. { exists 0%N, 2%N, 3%N, [0; 0], [4; 4], [0; 4], (1#4), (1#4), (1#2). split; [exact (proj2 sheet_1)|].
    split; [discriminate|]. split; [discriminate|]. split; [discriminate|]. split; [reflexivity|]. peq_lits. }
  split; [apply no_split_ok|]. split; [|split].
  - destruct (find_valid_face ∅ sheet 0 [1; 3]) as [r|] eqn:E; vm_compute in E; [|discriminate E]. injection E as <-.
    eexists. split; [reflexivity|]. repeat split.
  - destruct (find_valid_face ∅ sheet 1 [1; 1]) as [r|] eqn:E; vm_compute in E; [|discriminate E]. injection E as <-.
    eexists _, _. split; [reflexivity|]. split; [|reflexivity]. pose proof sheet_wf as W. apply (wfs_emap _ W). vm_compute. reflexivity.
  - vm_compute. reflexivity.
Qed.
(** in space, the same point as in the refutation, from the face that holds it *)
Example C124_space_case : live_face tet 2 ∧ holds tet [1; 1; 2] 2 ∧ split_ok tet ∅ ∧
  ∃ b, find_valid_face ∅ tet 2 [1; 1; 2] = Some (PInside 2 b) ∧ qeq3 b (1#4, 1#4, 1#2).
Proof.
  split; [exact (corners_live _ _ _ _ _ _ _ _ (proj2 tet_2))|]. split; [exact tet_holds|]. split; [apply no_split_ok|].
  destruct (find_valid_face ∅ tet 2 [1; 1; 2]) as [r|] eqn:E; vm_compute in E; [|discriminate E]. injection E as <-.
  eexists. split; [reflexivity|]. repeat split.
Qed.
Example C123_case : corners_at tet 0 0 2 1 [0; 0; 0] [0; 4; 0] [4; 0; 0] ∧ ¬ flat [0; 0; 0] [0; 4; 0] [4; 0; 0] ∧
  foot [1; 2; 7] [0; 0; 0] [0; 4; 0] [4; 0; 0] (1#4) (1#2) (1#4) ∧
  flat [4; 0] [0; 0] [2; 0].
Proof.
  split; [exact (proj2 tet_0)|]. split; [exact (tet_solid _ _ _ _ _ _ _ (proj2 tet_0))|].
  split; [split; [reflexivity|split; reflexivity]|]. right. exists (1#2). peq_lits.
Qed.

Print Assumptions C123_location.
Print Assumptions C123_flat.
Print Assumptions C124_sound.
Print Assumptions C124_plane_partial.
Print Assumptions C124_space_partial.
Print Assumptions C124_space_refuted.
Print Assumptions C124_plane_refuted.
Print Assumptions C124_flat_refuted.
