(** Properties C127 and C128: the intersection segments of two meshes of the plane.
    Vocabulary: the model CutPlaneModel and the specifications MeshSpec, CutPlaneSpec. *)
From Coq Require Import QArith Qround.
From Verif Require Import MeshDemo MeshHistSpec CutPlane ClaimsRay MeshInv MeshWF MeshCompact RayProofs.
From Verif Require Import CutPlaneSpec.
Local Open Scope N_scope.

(** C127: for two meshes without removed faces, and with no side of the first reduced to a
    point, the search does not panic. Every segment of an answer lies on a side of a face
    of its mesh and on a side of the other mesh, and its hints are right. Every place where
    a side meets a side of the other mesh is reported on both, unless it is within a
    millionth of the ends of the side, or in the bucket of a reported place. *)
Theorem C127_segments_partial bucket select (ma mb : mesh p2) :
  (∀ u v, (u == v)%Q → bucket u = bucket v) → (∀ n l, Permutation (select n l) l) →
  WellFormed ma → WellFormed mb → 0 < nfaces mb → no_removed ma → no_removed mb → long_sides ma →
  ∃ la lb, get_mesh_intersections_2 bucket select ma mb = Some (la, lb) ∧
    (∀ s, s ∈ la → cut_by ma mb s) ∧ (∀ s, s ∈ lb → cut_by mb ma s) ∧
    ∀ fa ea i j a b fb eb i' j' a' b', side_at ma fa ea i j a b → side_at mb fb eb i' j' a' b' →
      (∀ t, inner t → on_seg2 a' b' (at2 a b t) → reported bucket ma la fa ea t) ∧
      (∀ t, ¬ eq2 a' b' → inner t → on_seg2 a b (at2 a' b' t) → reported bucket mb lb fb eb t).
Proof.
  intros Hb Hsel WA WB Hn La Lb HL. destruct (intersections_2_ok bucket Hb ma mb WA WB select Hsel Hn La Lb) as (st&E&[[I1 _] [I2 _]]&D).
  exists (cs_list st.1), (cs_list st.2). split; [done|]. split; [done|]. split; [done|].
  intros fa ea i j a b fb eb i' j' a' b' Sa Sb.
  assert (fa < nfaces ma) as Hfa. { destruct Sa as (k&[H|[H|H]]&_); by eapply (live_lt ma WA). }
  pose proof (HL _ _ _ _ _ _ Sa) as Ne. split.
  - intros t Hi Ho. eapply (D fa Hfa fb ((i, j), (i', j'))); [|done|done|done|done|done].
    eexists _, _, _, _, _, _, _. split; [exact Sa|]. split; [exact Sb|]. split; [by apply (inner_on a b t)|done].
  - intros t Nb Hi Ho. eapply (D fa Hfa fb ((i, j), (i', j'))); [|done|done|done|done|done|done].
    eexists _, _, _, _, _, _, _. split; [exact Sa|]. split; [exact Sb|]. split; [exact Ho|by apply (inner_on a' b' t)].
Qed.

(** ** Deciding the conditions on concrete meshes *)
Definition bkt (u : Q) : Z := Qfloor (u * 1000000 + (1 # 2)).
Lemma bkt_eq u v : (u == v)%Q → bkt u = bkt v.
Proof. intros E. apply Qfloor_comp. by rewrite E. Qed.
Definition never (_ _ _ _ : p2) : bool := false.
Definition plane_ops (vs : list p2) (ts : list (N * N * N)) : list (op p2) :=
  map AddVertex vs ++ map (λ '(a, b, c), AddTriangle a b c) ts.
Definition plane_mesh (vs : list p2) (ts : list (N * N * N)) : mesh p2 := default mesh_new (exec_all never mesh_new (plane_ops vs ts)).
Definition plane_ok (vs : list p2) (ts : list (N * N * N)) : bool :=
  all_legalb never mesh_new (plane_ops vs ts) && (8 * N.of_nat (length (plane_ops vs ts)) <=? umax) &&
  match exec_all never mesh_new (plane_ops vs ts) with Some _ => true | None => false end.
Lemma plane_wf vs ts : plane_ok vs ts = true → WellFormed (plane_mesh vs ts).
Proof.
  unfold plane_ok, plane_mesh. rewrite !andb_true_iff, N.leb_le. intros [[H1 H2] H3].
  destruct (exec_all never mesh_new (plane_ops vs ts)) as [m|] eqn:E; [|done]. by apply (demo_wf never (plane_ops vs ts)).
Qed.
Definition live2 (m : mesh p2) : bool :=
  forallb (λ f, match faces m !! f with Some x => negb (frem x) | None => false end) (range (nfaces m)).
Lemma live2_ok m : live2 m = true → no_removed m.
Proof.
  intros H f Hf. unfold live2 in H. rewrite forallb_forall in H. specialize (H f). feed specialize H.
  { apply elem_of_list_In, range_spec. done. }
  destruct (faces m !! f) as [x|] eqn:E; [|done]. exists x. split; [done|by apply negb_true_iff].
Qed.
Definition side_pts (m : mesh p2) (f : N) : list (p2 * p2) :=
  match face_vertices m f with
  | Some (i, j, k) => match pos m i, pos m j, pos m k with Some a, Some b, Some c => [(a, b); (b, c); (c, a)] | _, _, _ => [] end
  | None => [] end.
Lemma side_pts_ok m f e i j a b : WellFormed m → side_at m f e i j a b → (a, b) ∈ side_pts m f.
Proof.
  intros HW (k&Hc&Hr&A&B). assert (HW' := HW). apply WF_iff in HW'. unfold side_pts.
  assert (∃ c, position m k c) as [c C].
  { destruct Hc as [H|[H|H]]; destruct (face_points m HW _ _ _ _ H) as (a0&b0&c0&A0&B0&C0); eauto. }
  apply pos_ok in A, B, C. destruct Hc as [H|[H|H]]; rewrite (face_vertices_ok m _ _ _ _ HW' H), A, B, C; set_solver.
Qed.
Definition long2 (m : mesh p2) : bool := forallb (λ f, forallb (λ e : p2 * p2, negb (same2 e.1 e.2)) (side_pts m f)) (range (nfaces m)).
Lemma long2_ok m : WellFormed m → long2 m = true → long_sides m.
Proof.
  intros HW H f e i j a b Hs E. unfold long2 in H. rewrite forallb_forall in H. specialize (H f). feed specialize H.
  { apply elem_of_list_In, range_spec. destruct Hs as (k&[K|[K|K]]&_); by eapply (live_lt m HW). }
  rewrite forallb_forall in H. specialize (H (a, b)). feed specialize H; [by apply elem_of_list_In, (side_pts_ok m f e i j)|].
  cbn in H. apply same2_t in E. by rewrite E in H.
Qed.
Definition has_side (m : mesh p2) (f e i j : N) : bool :=
  match face_vertices m f, emap m !! (i, j) with
  | Some (x, y, z), Some e' => ((i =? x) && (j =? y) || (i =? y) && (j =? z) || (i =? z) && (j =? x)) && (e =? e')
  | _, _ => false end.
Lemma has_side_ok m f e i j a b : WellFormed m → no_removed m → f < nfaces m → has_side m f e i j = true → pos m i = Some a → pos m j = Some b → side_at m f e i j a b.
Proof.
  intros HW Hl Hf H A B. destruct (wfs_face _ HW f (Hl f Hf)) as (x&y&z&Ho). assert (HW' := HW). apply WF_iff in HW'. unfold has_side in H.
  rewrite (face_vertices_ok m _ _ _ _ HW' Ho) in H. destruct (emap m !! (i, j)) as [e'|] eqn:Ee; [|done].
  rewrite !andb_true_iff, !orb_true_iff, !andb_true_iff, !N.eqb_eq in H. destruct H as (H&<-).
  apply pos_ok in A, B. apply (wfs_emap _ HW) in Ee.
  destruct H as [[[-> ->]|[-> ->]]|[-> ->]]; [exists z|exists x|exists y]; (split; [|done]); [by left|by right; right|by right; left].
Qed.

(** two triangles whose sides cross, and two with overlapping sides *)
Definition tri_a : mesh p2 := plane_mesh [(0, 0); (6, 0); (0, 6)]%Q [(0, 1, 2)].
Definition tri_b : mesh p2 := plane_mesh [(-(1), 1); (7, 1); (3, 9)]%Q [(0, 1, 2)].
Definition tri_c : mesh p2 := plane_mesh [(2, 0); (3, -(3)); (9, 0)]%Q [(0, 1, 2)].
Lemma tri_a_wf : WellFormed tri_a. Proof. apply plane_wf. vm_compute. reflexivity. Qed.
Lemma tri_b_wf : WellFormed tri_b. Proof. apply plane_wf. vm_compute. reflexivity. Qed.
Lemma tri_c_wf : WellFormed tri_c. Proof. apply plane_wf. vm_compute. reflexivity. Qed.
Lemma fit m : WellFormed m → live2 m && long2 m && (0 <? nfaces m) = true → no_removed m ∧ long_sides m ∧ 0 < nfaces m.
Proof. intros HW [[H1 H2]%andb_true_iff H3%N.ltb_lt]%andb_true_iff. split; [by apply live2_ok|]. split; [by apply long2_ok|done]. Qed.
Definition ends_of (s : gseg p2) : p2 * p2 * bool := ((Qred (g_pa s).1, Qred (g_pa s).2), (Qred (g_pb s).1, Qred (g_pb s).2), g_cop s).
Definition answer (r : option (list (gseg p2) * list (gseg p2))) := (λ l, (map ends_of l.1, map ends_of l.2)) <$> r.

Example C127_example :
  (no_removed tri_a ∧ long_sides tri_a ∧ 0 < nfaces tri_a) ∧ (no_removed tri_b ∧ long_sides tri_b ∧ 0 < nfaces tri_b) ∧
  (no_removed tri_c ∧ long_sides tri_c ∧ 0 < nfaces tri_c) ∧
  answer (get_mesh_intersections_2 bkt in_order tri_a tri_b) =
    Some ([((5, 1), (5, 1), false); ((1, 5), (1, 5), false); ((0, 1), (0, 1), false); ((0, 3), (0, 3), false)]%Q,
          [((5, 1), (5, 1), false); ((1, 5), (1, 5), false); ((0, 1), (0, 1), false); ((0, 3), (0, 3), false)]%Q) ∧
  answer (get_mesh_intersections_2 bkt in_order tri_a tri_c) = Some ([((2, 0), (2, 0), false); ((2, 0), (6, 0), true)]%Q, [((2, 0), (6, 0), true)]%Q).
Proof.
  split; [apply fit; [apply tri_a_wf|vm_compute; reflexivity]|]. split; [apply fit; [apply tri_b_wf|vm_compute; reflexivity]|].
  split; [apply fit; [apply tri_c_wf|vm_compute; reflexivity]|]. split; vm_compute; reflexivity.
Qed.

(** ** What goes wrong *)
(** C127: two sides cross, and the crossing is not reported on the first mesh, because it
    is within a millionth of the length of the side from its end *)
Definition tri_d : mesh p2 := plane_mesh [(1 # 2500000, -(1)); (1 # 2500000, 1); (-(5), 0)]%Q [(0, 1, 2)].
Lemma tri_d_wf : WellFormed tri_d. Proof. apply plane_wf. vm_compute. reflexivity. Qed.
Theorem C127_near_end_refuted : ∃ (ma mb : mesh p2) la lb fa ea i j a b fb eb i' j' a' b' t t',
  WellFormed ma ∧ WellFormed mb ∧ 0 < nfaces mb ∧ no_removed ma ∧ no_removed mb ∧ long_sides ma ∧ long_sides mb ∧
  get_mesh_intersections_2 bkt in_order ma mb = Some (la, lb) ∧
  side_at ma fa ea i j a b ∧ side_at mb fb eb i' j' a' b' ∧ (0 < t ∧ t < 1 ∧ 0 < t' ∧ t' < 1)%Q ∧ eq2 (at2 a b t) (at2 a' b' t') ∧
  ∀ s u0 u1, s ∈ la → ¬ lies_on ma fa ea s u0 u1.
Proof.
  destruct (get_mesh_intersections_2 bkt in_order tri_a tri_d) as [[la lb]|] eqn:E; [|vm_compute in E; discriminate E].
  assert (match get_mesh_intersections_2 bkt in_order tri_a tri_d with
          | Some (l, _) => forallb (λ s, match h_he (g_a s) with Some e => negb (e =? 0) | None => false end) l | None => false end = true) as H by (vm_compute; reflexivity).
  rewrite E in H.
  destruct (fit tri_a tri_a_wf) as (L1&L2&L3); [vm_compute; reflexivity|]. destruct (fit tri_d tri_d_wf) as (K1&K2&K3); [vm_compute; reflexivity|].
  exists tri_a, tri_d, la, lb, 0, 0, 0, 1, (0, 0)%Q, (6, 0)%Q, 0, 0, 0, 1, (1 # 2500000, -(1))%Q, (1 # 2500000, 1)%Q, (1 # 15000000)%Q, (1 # 2)%Q.
  split; [exact tri_a_wf|]. split; [exact tri_d_wf|]. split; [exact K3|]. split; [exact L1|]. split; [exact K1|]. split; [exact L2|]. split; [exact K2|].
  split; [exact E|].
  split; [apply (has_side_ok _ _ _ _ _ _ _ tri_a_wf L1 L3); vm_compute; reflexivity|].
  split; [apply (has_side_ok _ _ _ _ _ _ _ tri_d_wf K1 K3); vm_compute; reflexivity|].
  split; [split; [|split; [|split]]; vm_compute; reflexivity|]. split; [split; vm_compute; reflexivity|].
  intros s u0 u1 Hs (i&j&a&b&g&_&_&_&Ea&_). rewrite forallb_forall in H. specialize (H s ltac:(by apply elem_of_list_In)). rewrite Ea in H. discriminate H.
Qed.

(** C128: a side of the second mesh runs through a face of the first, and no segment of
    either list contains a point of it inside that face: only the places where it enters
    and leaves are listed *)
Definition strictly_in (m : mesh p2) (f : N) (q : p2) : Prop :=
  ∃ i j k a b c (x y z : Q), oriented_face m f i j k ∧ position m i a ∧ position m j b ∧ position m k c ∧
    (0 < x ∧ 0 < y ∧ 0 < z)%Q ∧ (x + y + z == 1)%Q ∧ eq2 q (x * a.1 + y * b.1 + z * c.1, x * a.2 + y * b.2 + z * c.2)%Q.
Theorem C128_through_refuted : ∃ (ma mb : mesh p2) la lb fa fb eb i j a b t,
  WellFormed ma ∧ WellFormed mb ∧ 0 < nfaces mb ∧ no_removed ma ∧ no_removed mb ∧ long_sides ma ∧ long_sides mb ∧
  get_mesh_intersections_2 bkt in_order ma mb = Some (la, lb) ∧
  side_at mb fb eb i j a b ∧ inner t ∧ strictly_in ma fa (at2 a b t) ∧
  ∀ s, s ∈ la ∨ s ∈ lb → ¬ on_seg2 (g_pa s) (g_pb s) (at2 a b t).
Proof.
  destruct (get_mesh_intersections_2 bkt in_order tri_a tri_b) as [[la lb]|] eqn:E; [|vm_compute in E; discriminate E].
  assert (match get_mesh_intersections_2 bkt in_order tri_a tri_b with
          | Some (l, l') => forallb (λ s, same2 (g_pa s) (g_pb s) && negb (same2 (g_pa s) (2, 1)%Q)) (l ++ l') | None => false end = true) as H by (vm_compute; reflexivity).
  rewrite E in H.
  destruct (fit tri_a tri_a_wf) as (L1&L2&L3); [vm_compute; reflexivity|]. destruct (fit tri_b tri_b_wf) as (K1&K2&K3); [vm_compute; reflexivity|].
  exists tri_a, tri_b, la, lb, 0, 0, 0, 0, 1, (-(1), 1)%Q, (7, 1)%Q, (3 # 8)%Q.
  split; [exact tri_a_wf|]. split; [exact tri_b_wf|]. split; [exact K3|]. split; [exact L1|]. split; [exact K1|]. split; [exact L2|]. split; [exact K2|].
  split; [exact E|].
  split; [apply (has_side_ok _ _ _ _ _ _ _ tri_b_wf K1 K3); vm_compute; reflexivity|].
  split; [split; vm_compute; reflexivity|]. split.
  - destruct (wfs_face _ tri_a_wf 0 (L1 0 L3)) as (i&j&k&Ho). assert (face_vertices tri_a 0 = Some (0, 1, 2)) as Ev by (vm_compute; reflexivity).
    assert (HW' := tri_a_wf). apply WF_iff in HW'. rewrite (face_vertices_ok tri_a _ _ _ _ HW' Ho) in Ev. injection Ev as -> -> ->.
    exists 0, 1, 2, (0, 0)%Q, (6, 0)%Q, (0, 6)%Q, (1 # 2)%Q, (1 # 3)%Q, (1 # 6)%Q. split; [exact Ho|].
    split; [apply pos_ok; vm_compute; reflexivity|]. split; [apply pos_ok; vm_compute; reflexivity|]. split; [apply pos_ok; vm_compute; reflexivity|].
    split; [split; [|split]; vm_compute; reflexivity|]. split; [vm_compute; reflexivity|]. split; vm_compute; reflexivity.
  - intros s Hs (u&_&_&X&Y). rewrite forallb_forall in H. specialize (H s). feed specialize H. { apply elem_of_list_In, elem_of_app. exact Hs. }
    apply andb_true_iff in H as [H1 H2]. apply same2_t in H1 as [E1 E2]. apply negb_true_iff in H2.
    assert (same2 (g_pa s) (2, 1)%Q = true) as H3; [|congruence]. apply same2_t. unfold GeomSpec.at2 in X, Y. cbn [fst snd] in X, Y.
    split; cbn [fst snd].
    + transitivity ((g_pa s).1 + u * ((g_pb s).1 - (g_pa s).1))%Q; [rewrite <- E1; ring|]. rewrite <- X. reflexivity.
    + transitivity ((g_pa s).2 + u * ((g_pb s).2 - (g_pa s).2))%Q; [rewrite <- E2; ring|]. rewrite <- Y. reflexivity.
Qed.
Print Assumptions C127_segments_partial.
Print Assumptions C127_near_end_refuted.
Print Assumptions C128_through_refuted.
