(** Properties C139 to C141: geometric queries on half-edges and faces, and the border
    vertices. Vocabulary: SideGeomModel, SideGeomSpec. *)
From Coq Require Import Sorted.
From Verif Require Import SideGeom PointLoc ClaimsPointLoc ClaimsFindHalf GeomBase GeomLine GeomTri ClaimsMeshQuery MeshQuery2 MeshDemo MeshHistSpec.
From Verif Require MeshBase.
From Verif Require Import MeshInv MeshWF.
From Verif Require Import FindHalf SideGeomSpec.
Local Open Scope Q_scope.

(** ** C139: points on half-edges *)
(** segment_from_half_edge returns the two ends; point_on_half_edge the parameter of the
    point, exactly if it lies on the half-edge. *)
Theorem C139_half_edge : ∀ n (m : mesh point) h a b p, WellFormed m → in_dim n m → length p = n → from_to m h a b →
  segment_from_half_edge m h = Some (a, b) ∧
  ∃ r, point_on_half_edge m h p = Some r ∧ (r = None ↔ ¬ lies_on m p h) ∧ ∀ t, r = Some t → on_at m p h t.
Proof. intros n m h a b p W D Dp H. split; [by apply segment_ok|]. by apply (on_half_ok n m p W D Dp h a b). Qed.
Print Assumptions C139_half_edge.

(** with a tolerance: exactly the points at most that far from the half-edge, and the
    parameter is that of the foot of the perpendicular. *)
Theorem C139_tolerance : ∀ n (m : mesh point) h a b p tol, WellFormed m → in_dim n m → length p = n → from_to m h a b → 0 <= tol →
  ∃ r, point_on_half_edge_with_tolerance m h p tol = Some r ∧
    (is_Some r ↔ ∃ t, 0 <= t ∧ t <= 1 ∧ dist2 p (lerp a b t) <= tol * tol) ∧
    ∀ t, r = Some t → ¬ peq a b → inner p (lerp a b t) a b == 0.
Proof. intros n m h a b p tol W D Dp H Ht. by apply (on_half_tol_ok n m p W D Dp h a b tol). Qed.
Print Assumptions C139_tolerance.

(** point_is_on_some_half_edge returns the first side of the face that holds the point. *)
Theorem C139_some_side : ∀ n (m : mesh point) f p, WellFormed m → in_dim n m → length p = n → live_face m f →
  ∃ r e0 e1 e2, point_is_on_some_half_edge m f p = Some r ∧ sides_of m f e0 e1 e2 ∧
    match r with
    | None => ¬ lies_on m p e0 ∧ ¬ lies_on m p e1 ∧ ¬ lies_on m p e2
    | Some (h, t) => on_at m p h t ∧
        (h = e0 ∨ (¬ lies_on m p e0 ∧ h = e1) ∨ (¬ lies_on m p e0 ∧ ¬ lies_on m p e1 ∧ h = e2))
    end.
Proof. intros n m f p W D Dp. by apply (some_half_ok n m p W D Dp). Qed.
Print Assumptions C139_some_side.

(** a removed face has no sides; a face number out of range panics. *)
Theorem C139_removed : ∀ (m : mesh point) f p, WellFormed m → ¬ live_face m f →
  point_is_on_some_half_edge m f p = if (f <? nfaces m)%N then Some None else None.
Proof.
  intros m f p W Hf. unfold point_is_on_some_half_edge. change (getF m f) with (faces m !! f).
  destruct (N.ltb_spec f (nfaces m)) as [Hlt|Hge].
  - apply (wfs_faces _ W) in Hlt as [x Hx]. rewrite Hx. cbn [mbind option_bind].
    destruct (frem x) eqn:E; [done|]. destruct Hf. by exists x.
  - destruct (faces m !! f) as [x|] eqn:E; [|done]. assert (f < nfaces m)%N; [|lia]. apply (wfs_faces _ W). eauto.
Qed.
Print Assumptions C139_removed.

(** two triangles of a square, in the plane or at height 0 *)
Definition quad_at (d : list Q) : list (op point) :=
  map AddVertex [[0; 0] ++ d; [4; 0] ++ d; [4; 4] ++ d; [0; 4] ++ d] ++
  map (λ '(a, b, c), AddTriangle a b c) [(0, 1, 2); (0, 2, 3)]%N.
Definition quad_3 : mesh point := ClaimsFindHalf.mesh_of (quad_at [0]).
Definition quad_2 : mesh point := ClaimsFindHalf.mesh_of (quad_at []).
Lemma quad_3_wf : WellFormed quad_3.
Proof. apply ClaimsFindHalf.mesh_of_wf. vm_compute. reflexivity. Qed.
Lemma quad_2_wf : WellFormed quad_2.
Proof. apply ClaimsFindHalf.mesh_of_wf. vm_compute. reflexivity. Qed.

(** a point on the first side of the first triangle, and a point off its sides *)
Example C139_case : WellFormed quad_3 ∧ in_dim 3 quad_3 ∧ live_face quad_3 0 ∧
  (∃ t, point_is_on_some_half_edge quad_3 0 [2; 0; 0] = Some (Some (0%N, t)) ∧ t == 1 # 2) ∧
  point_is_on_some_half_edge quad_3 0 [3; 1; 0] = Some None ∧
  (∃ a b, from_to quad_3 0 a b ∧ ¬ peq a b).
Proof.
  split; [exact quad_3_wf|]. split; [apply dims_test; vm_compute; reflexivity|].
  split; [eexists; split; vm_compute; reflexivity|]. split; [eexists; split; [vm_compute; reflexivity|reflexivity]|]. split; [vm_compute; reflexivity|].
  exists [0; 0; 0], [4; 0; 0]. split.
  - exists 0%N, 1%N. split; [|split; vm_compute; reflexivity]. eexists _, _. split_and!; [split|split|..]; vm_compute; reflexivity.
  - intros H. apply peq_cons_inv in H as [H _]. discriminate H.
Qed.

(** ** C140: barycentric_coords_on_face *)
(** [near] is the approximate test for a point near an edge line: it holds if the point is
    on one. A point of the closed triangle gets its weights; a point of the plane of the
    triangle outside it gets none, if it is on none of the three edge lines; a flat face
    gives none; and whatever is returned are the weights of the foot of the point. *)
Theorem C140_weights_partial : ∀ n near (m : mesh point) f i j k a b c p, (n = 2 ∨ n = 3)%nat → WellFormed m → in_dim n m → length p = n →
  (∀ x y z, x == 0 ∨ y == 0 ∨ z == 0 → near x y z = true) →
  oriented_face m f i j k → corners_at m f i j k a b c →
  ∃ r, barycentric_coords_on_face near m f p = Some r ∧
    (flat a b c → r = None) ∧
    (∀ u v w, r = Some (u, v, w) → foot p a b c u v w) ∧
    (∀ x y z, ¬ flat a b c → weights p a b c x y z →
      (0 <= x → 0 <= y → 0 <= z → ∃ u v w, r = Some (u, v, w) ∧ u == x ∧ v == y ∧ w == z) ∧
      (¬ x == 0 → ¬ y == 0 → ¬ z == 0 → x < 0 ∨ y < 0 ∨ z < 0 → r = None)).
Proof.
  intros n near m f i j k a b c p Hn W D Dp Hnear Ho Hc. destruct (corners_dims n m p D Dp f i j k a b c Hc) as (E1&E2&E3).
  rewrite (bary_run m p near f i j k a b c Ho Hc).
  destruct (triangle_total near p a b c) as [t Ht]; [by rewrite Dp|done..|]. rewrite Ht. cbn [mbind option_bind].
  eexists. split; [done|]. pose proof (bary_foot p a b c E1 E2 E3) as Hb.
  split; [|split].
  - intros Hf. destruct t; try done; destruct (barycentric_coords p a b c) as [[[u v] w]|]; tauto.
  - intros u v w Hr. destruct (barycentric_coords p a b c) as [[[u' v'] w']|]; [|by destruct t].
    destruct t; try done; injection Hr as -> -> ->; tauto.
  - intros x y z Hf Hw. rewrite (triangle_pattern near p a b c x y z) in Ht; [|by rewrite Dp|done..].
    injection Ht as <-. destruct Hw as [Hs Hp]. split.
    + intros X Y Z. pose proof (pattern_inside x y z X Y Z Hs) as Hne.
      destruct (barycentric_coords p a b c) as [[[u v] w]|] eqn:Eb; [|tauto].
      exists u, v, w. split; [by destruct (pattern x y z)|].
      destruct (GeomTri.barycentric_ok p a b c E1 E2 E3) as [_ H2]. destruct (H2 u v w Eb) as (_&_&_&H3).
      destruct (H3 x y z Hs Hp) as (?&?&?&_). done.
    + intros X Y Z Hneg. by rewrite (pattern_off x y z Hs X Y Z Hneg).
Qed.
Print Assumptions C140_weights_partial.

(** "Returns coordinates only for points of the triangle" is false: on the line of an edge,
    outside the triangle, a weight is negative; *)
Theorem C140_outside_refuted : ∀ near, (∀ x y z, x == 0 ∨ y == 0 ∨ z == 0 → near x y z = true) →
  ∃ (m : mesh point) f p u v w, WellFormed m ∧ in_dim 2 m ∧ length p = 2%nat ∧ live_face m f ∧
  barycentric_coords_on_face near m f p = Some (Some (u, v, w)) ∧ u < 0.
Proof.
  intros near Hn. pose proof quad_2_wf as W.
  assert (in_dim 2 quad_2) as D by (apply dims_test; vm_compute; reflexivity).
  assert (live_face quad_2 0) as Hl by (eexists; split; vm_compute; reflexivity).
  assert (face_vertices quad_2 0 = Some (0, 1, 2)%N) as Hv by (vm_compute; reflexivity).
  assert (place_of quad_2 0 = Some [0; 0] ∧ place_of quad_2 1 = Some [4; 0] ∧ place_of quad_2 2 = Some [4; 4]) as (A&B&C) by (split_and!; vm_compute; reflexivity).
  exists quad_2, 0%N, [8; 0]. unfold barycentric_coords_on_face. rewrite Hv. cbn [mbind option_bind]. rewrite A. cbn [mbind option_bind]. rewrite B. cbn [mbind option_bind]. rewrite C. cbn [mbind option_bind].
  rewrite (triangle_pattern near [8; 0] [0; 0] [4; 0] [4; 4] (-1) 2 0).
  - assert (pattern (-1) 2 0 = OnEdge) as -> by (vm_compute; reflexivity). cbn [mbind option_bind].
    destruct (barycentric_coords [8; 0] [0; 0] [4; 0] [4; 4]) as [[[u v] w]|] eqn:E; [|vm_compute in E; discriminate E].
    exists u, v, w. split; [exact W|]. split; [exact D|]. split; [reflexivity|]. split; [exact Hl|]. split; [reflexivity|].
    vm_compute in E. injection E as <- <- <-. reflexivity.
  - by left.
  - reflexivity.
  - reflexivity.
  - reflexivity.
  - exact Hn.
  - intros H. apply (flat_2 (0, 0) (4, 0) (4, 4)) in H. discriminate H.
  - split; [reflexivity|]. repeat constructor.
Qed.
Print Assumptions C140_outside_refuted.

(** and in space every point above the triangle gets coordinates, however far it is. *)
Theorem C140_off_plane_refuted : ∀ near, ∃ (m : mesh point) f p u v w, WellFormed m ∧ in_dim 3 m ∧ length p = 3%nat ∧ live_face m f ∧
  barycentric_coords_on_face near m f p = Some (Some (u, v, w)) ∧
  (∀ i j k a b c x y z, oriented_face m f i j k → corners_at m f i j k a b c → ¬ weights p a b c x y z).
Proof.
  intros near. pose proof quad_3_wf as W.
  assert (in_dim 3 quad_3) as D by (apply dims_test; vm_compute; reflexivity).
  assert (live_face quad_3 0) as Hl by (eexists; split; vm_compute; reflexivity).
  assert (face_vertices quad_3 0 = Some (0, 1, 2)%N) as Hv by (vm_compute; reflexivity).
  assert (place_of quad_3 0 = Some [0; 0; 0] ∧ place_of quad_3 1 = Some [4; 0; 0] ∧ place_of quad_3 2 = Some [4; 4; 0]) as (A&B&C) by (split_and!; vm_compute; reflexivity).
  assert (∃ r, barycentric_coords [3; 1; 100] [0; 0; 0] [4; 0; 0] [4; 4; 0] = Some r) as [[[u v] w] Hr] by (eexists; vm_compute; reflexivity).
  exists quad_3, 0%N, [3; 1; 100], u, v, w. split; [exact W|]. split; [exact D|]. split; [reflexivity|]. split; [exact Hl|]. split.
  - unfold barycentric_coords_on_face. rewrite Hv. cbn [mbind option_bind]. rewrite A. cbn [mbind option_bind]. rewrite B. cbn [mbind option_bind]. rewrite C. cbn [mbind option_bind].
    assert (point_in_or_on_triangle near [3; 1; 100] [0; 0; 0] [4; 0; 0] [4; 4; 0] = Some InTri) as ->.
    { cbv. destruct (near _ _ _); reflexivity. }
    cbn [mbind option_bind]. by rewrite Hr.
  - intros i j k a b c x y z Ho Hc [Hs Hp]. apply (face_vertices_at quad_3) in Ho. rewrite Hv in Ho.
    assert ((0, 1, 2)%N = (i, j, k)) as Hijk by (by apply Some_inj). clear Ho Hv. inversion Hijk. subst i j k. destruct Hc as (_&HA&HB&HC).
    apply (place_of_ok quad_3) in HA, HB, HC. rewrite A in HA. rewrite B in HB. rewrite C in HC.
    apply Some_inj in HA, HB, HC. subst a b c. cbn in Hp.
    apply peq_cons_inv in Hp as [_ Hp]. apply peq_cons_inv in Hp as [_ Hp]. apply peq_cons_inv in Hp as [Hp _]. lra.
Qed.
Print Assumptions C140_off_plane_refuted.

(** the hypotheses of C140: a point inside the first triangle *)
Example C140_case : ∃ near, (∀ x y z, x == 0 ∨ y == 0 ∨ z == 0 → near x y z = true) ∧
  WellFormed quad_2 ∧ in_dim 2 quad_2 ∧ live_face quad_2 0 ∧ weights [3; 1] [0; 0] [4; 0] [4; 4] (1 # 4) (1 # 2) (1 # 4) ∧
  match barycentric_coords_on_face near quad_2 0 [3; 1] with Some (Some (u, v, w)) => u == 1 # 4 ∧ v == 1 # 2 ∧ w == 1 # 4 | _ => False end.
Proof.
  exists (λ _ _ _, true). split; [done|]. split; [exact quad_2_wf|]. split; [apply dims_test; vm_compute; reflexivity|].
  split; [eexists; split; vm_compute; reflexivity|]. split; [split; [reflexivity|repeat constructor]|].
  vm_compute. split_and!; reflexivity.
Qed.

(** ** C141: area2x4_after_move and boundary_vertices *)
(** four times the squared area of the face if the vertex [v] is moved to [p]; zero exactly
    if the face becomes flat. *)
Theorem C141_area : ∀ (m : mesh point) f i j k v p a b c, in_dim 3 m → length p = 3%nat → oriented_face m f i j k →
  moved_to m v p i a → moved_to m v p j b → moved_to m v p k c →
  ∃ q, area2x4_after_move m f v p = Some q ∧ q == area_sq_4 a b c ∧ (q == 0 ↔ flat a b c).
Proof.
  intros m f i j k v p a b c D Dp Ho Ha Hb Hc.
  assert (∀ u q, moved_to m v p u q → length q = 3%nat) as Hd.
  { intros u q [[_ ->]|[_ Hq]]; [done|]. by apply (dim_at 3 m D u). }
  destruct (area_ok m f i j k v p a b c) as (q&E&Hq); eauto. exists q. split; [done|]. split; [done|].
  rewrite Hq. apply area_zero; unfold same_dim; rewrite (Hd _ _ Ha); symmetry; eauto.
Qed.
Print Assumptions C141_area.

(** moving a corner of the square: the area 8 becomes 16, squared and times four *)
Example C141_area_case : in_dim 3 quad_3 ∧ (∃ i j k, oriented_face quad_3 0 i j k) ∧
  match area2x4_after_move quad_3 0 2 [4; 8; 0] with Some q => q == 1024 | None => False end.
Proof.
  split; [apply dims_test; vm_compute; reflexivity|]. split; [|vm_compute; reflexivity].
  apply (wfs_face _ quad_3_wf). eexists; split; vm_compute; reflexivity.
Qed.

(** boundary_vertices lists the vertices on the border in increasing order, if every vertex
    is in use and has a single fan of faces. *)
Theorem C141_boundary_vertices_partial : ∀ P (m : mesh P), WellFormed m →
  (∀ v, (v < nverts m)%N → one_fan m v ∧ ∃ h w, runs m h v w) →
  ∃ l, boundary_vertices m = Some l ∧ StronglySorted N.lt l ∧ ∀ v, v ∈ l ↔ (v < nverts m)%N ∧ on_border m v.
Proof.
  intros P m W H. apply boundary_vertices_ok. intros v Hv. destruct (H v Hv) as [H1 H2].
  exact (C13_is_boundary_vertex m v W H1 H2).
Qed.
Print Assumptions C141_boundary_vertices_partial.

(** Without these conditions it is false: a vertex without edges makes it panic, *)
Theorem C141_isolated_refuted : ∃ m : mesh Z, WellFormed m ∧ on_border m 0 ∧ boundary_vertices m = None.
Proof.
  exists (build (tri_ops ++ [AddVertex 9%Z])). split; [apply build_wf; by vm_compute|]. split; [|by vm_compute].
  exists 5%N, 2%N. eexists. split; [eexists _, _; split_and!; [split|split|..]; by vm_compute|]. split; [split|]; by vm_compute.
Qed.
Print Assumptions C141_isolated_refuted.
(** and a vertex whose recorded half-edge lies in a closed fan is missed although another
    fan reaches the border. *)
Theorem C141_bowtie_refuted : ∃ (m : mesh Z) l, WellFormed m ∧ on_border m 0 ∧ boundary_vertices m = Some l ∧ 0%N ∉ l.
Proof.
  exists (build bowtie_ops). assert (∃ l, boundary_vertices (build bowtie_ops) = Some l ∧ forallb (λ v, negb (v =? 0)%N) l = true) as (l&E&Hl) by (eexists; split; by vm_compute).
  exists l. split; [apply build_wf; by vm_compute|]. split; [|split; [exact E|]].
  - exists 21%N, 6%N. eexists. split; [eexists _, _; split_and!; [split|split|..]; by vm_compute|]. split; [split|]; by vm_compute.
  - intros Hin. rewrite forallb_forall in Hl. apply elem_of_list_In, Hl in Hin. done.
Qed.
Print Assumptions C141_bowtie_refuted.

(** the hypotheses of C141: a triangle *)
Lemma one_fan_test {P} (m : mesh P) v l x h0 : WellFormed m → verts m !! v = Some x → vhe x = Some h0 →
  outgoing_half_edges m v = Some l →
  forallb (λ h, match hes m !! h with
                | Some y => match hes m !! htwin y with Some z => implb (hv z =? v)%N (bool_decide (h ∈ l)) | None => false end
                | None => false end) (range (nhes m)) = true →
  one_fan m v.
Proof.
  intros HW%WF_iff Hx Hh E Hb. destruct (outgoing_ok _ HW v x h0 Hx Hh) as (l'&E'&_&Hl&Hin). rewrite E in E'. injection E' as ->.
  assert (∀ h w, runs m h v w → same_fan m h0 h) as Hr.
  { intros h w Hr. apply runs_WF in Hr as (HL&Ht&_); [|apply HW]. apply Hin.
    rewrite forallb_forall in Hb. specialize (Hb h).
    feed specialize Hb. { apply elem_of_list_In, range_spec. by apply (L_lt _ (wf_si _ HW)). }
    pose proof (L_getH _ h HL) as Eh. unfold getH in Eh. rewrite Eh in Hb.
    pose proof (L_getH _ _ (tw_L _ (wf_si _ HW) h HL)) as Et. unfold getH in Et.
    fold (tw m h) in Hb. rewrite Et in Hb. fold (MeshBase.hd m (tw m h)) in Hb. fold (MeshBase.tl m h) in Hb.
    rewrite Ht, N.eqb_refl in Hb. by apply bool_decide_eq_true in Hb. }
  intros h h' w w' R1%Hr R2%Hr. unfold same_fan in *. by rewrite <- R1.
Qed.
Example C141_case : WellFormed (build tri_ops) ∧
  (∀ v, (v < nverts (build tri_ops))%N → one_fan (build tri_ops) v ∧ ∃ h w, runs (build tri_ops) h v w) ∧
  boundary_vertices (build tri_ops) = Some [0; 1; 2]%N.
Proof.
  assert (WellFormed (build tri_ops)) as W by (apply build_wf; by vm_compute). split; [exact W|]. split; [|by vm_compute].
  intros v Hv. assert (v < 3)%N as Hv' by (revert Hv; by vm_compute).
  assert (v = 0 ∨ v = 1 ∨ v = 2)%N as [->|[->| ->]] by lia; (split; [eapply one_fan_test; [exact W|by vm_compute..]|]).
  - exists 0%N, 1%N. eexists _, _. split_and!; [split|split|..]; by vm_compute.
  - exists 2%N, 2%N. eexists _, _. split_and!; [split|split|..]; by vm_compute.
  - exists 4%N, 0%N. eexists _, _. split_and!; [split|split|..]; by vm_compute.
Qed.
