(** Properties C06, C11, C13, C14, C15, C18, C59, C60 and C61.
    Vocabulary: the model of the queries (MeshQueryModel, MeshLoopsModel) and the
    specifications MeshSpec and MeshQuerySpec. *)
From Verif Require Import MeshDemo MeshLoops.
From Verif Require Import MeshHistSpec MeshBase.
Local Open Scope N_scope.

Section claims.
Context {P : Type} (degen : P → P → P → P → bool).
Implicit Types (m : mesh P) (f v u w h : N).

(** C06: the connectivity checker accepts every well-formed mesh, hence every
    mesh reachable by legal calls. *)
Theorem C06_validate_accepts m : WellFormed m → validate_connectivity m = Some tt.
Proof. intros HW%WF_iff. by apply validate_connectivity_ok. Qed.

Theorem C06_validate_accepts_history (l : list (op P)) :
  all_legal degen mesh_new l → 8 * N.of_nat (length l) ≤ umax →
  ∃ m, exec_all degen mesh_new l = Some m ∧ validate_connectivity m = Some tt.
Proof.
  intros H1 H2. destruct (history_ok degen l H1 H2) as (m & E & HW%WF_iff & _).
  exists m. split; [done|]. by apply validate_connectivity_ok.
Qed.

Theorem C06_validate_half_edges_accepts m : WellFormed m → validate_half_edges m = Some tt.
Proof. intros HW%WF_iff. by apply validate_half_edges_ok. Qed.

(** C13, any vertex (bow-ties included): the traversal stops and returns, each
    once, the half-edges leaving [v] in the fan of its anchor. *)
Theorem C13_outgoing_is_fan m v x h0 :
  WellFormed m → verts m !! v = Some x → vhe x = Some h0 →
  ∃ l, outgoing_half_edges m v = Some l ∧ head l = Some h0 ∧ NoDup l ∧
    (∀ h, h ∈ l → ∃ w, runs m h v w) ∧ (∀ h, h ∈ l ↔ same_fan m h0 h).
Proof.
  intros HW%WF_iff Hx Hh. destruct (outgoing_ok m HW v x h0 Hx Hh) as (l&E&HN&Hl&Hin).
  exists (h0 :: l). split_and!; try done. intros h Hh'%Hl. exists (hd m h). apply runs_WF; [apply HW|]. tauto.
Qed.

(** C13: one fan. *)
Theorem C13_one_ring_complete m v :
  WellFormed m → one_fan m v → (∃ h w, runs m h v w) →
  ∃ l, outgoing_half_edges m v = Some l ∧ NoDup l ∧
    (∀ h, h ∈ l ↔ ∃ w, runs m h v w) ∧
    ∃ ns, one_ring_neighbors m v = Some ns ∧ NoDup ns ∧ (∀ w, w ∈ ns ↔ registered m v w).
Proof.
  intros HW%WF_iff Hone (h1&w1&Hr). pose proof (wf_si _ HW) as HS.
  apply runs_WF in Hr as (HL1&Ht1&_); [|done].
  destruct (has_anchor m HW v h1 HL1 Ht1) as (x&h0&Hx&Hh).
  destruct (outgoing_ok m HW v x h0 Hx Hh) as (l&E&HN&Hl&Hin).
  assert (∀ h, h ∈ h0 :: l ↔ ∃ w, runs m h v w) as Hall.
  { intros h. rewrite Hin. by apply (one_fan_all m HW v x h0). }
  exists (h0 :: l). split_and!; try done. exists (hd m <$> h0 :: l).
  split; [by apply (one_ring_ok m HW v x h0)|]. split.
  - apply NoDup_fmap_2_strong; [|done]. intros h h' [HL Ht]%Hl [HL' Ht']%Hl E'.
    apply (em_inj m None); congruence.
  - intros w. rewrite elem_of_list_fmap. split.
    + intros (h&->&Hh'). apply Hl in Hh' as [HL Ht]. exists h. by apply runs_WF.
    + intros [h Hr]. exists h. split; [by apply runs_WF in Hr as (_&_&->)|]. apply Hall. eauto.
Qed.

(** C13: boundary vertices. *)
Theorem C13_is_boundary_vertex m v :
  WellFormed m → one_fan m v → (∃ h w, runs m h v w) →
  ∃ r : bool, is_boundary_vertex m v = Some r ∧
    (r = true ↔ ∃ h w x, runs m h v w ∧ live_he m h x ∧ hface x = None).
Proof.
  intros HW%WF_iff Hone (h1&w1&Hr). pose proof (wf_si _ HW) as HS.
  apply runs_WF in Hr as (HL1&Ht1&_); [|done].
  destruct (has_anchor m HW v h1 HL1 Ht1) as (x&h0&Hx&Hh).
  destruct (outgoing_ok m HW v x h0 Hx Hh) as (l&E&HN&Hl&Hin).
  eexists. split; [by apply (boundary_vertex_ok m HW v x h0)|].
  rewrite existsb_exists. setoid_rewrite live_he_L. split.
  - intros (h&Hh'%elem_of_list_In&Hf). apply Hl in Hh' as [HL Ht].
    exists h, (hd m h), (he m h). split; [by apply runs_WF|]. split; [done|].
    fold (fc m h). by destruct (fc m h).
  - intros (h&w&y&Hr&[HL <-]&Hf). exists h. split.
    + apply elem_of_list_In, Hin, (one_fan_all m HW v x h0); eauto.
    + fold (fc m h) in Hf. by rewrite Hf.
Qed.

(** C13: faces around a vertex. *)
Theorem C13_faces_around_vertex m v :
  WellFormed m → one_fan m v → (∃ h w, runs m h v w) →
  ∃ l, faces_around_vertex m v = Some l ∧ NoDup l ∧ ∀ f, f ∈ l ↔ corner m f v.
Proof.
  intros HW%WF_iff Hone (h1&w1&Hr). pose proof (wf_si _ HW) as HS.
  apply runs_WF in Hr as (HL1&Ht1&_); [|done].
  destruct (has_anchor m HW v h1 HL1 Ht1) as (x&h0&Hx&Hh).
  by apply (faces_around_vertex_ok m HW v x h0).
Qed.

Theorem C13_vertex_touches_face m v f :
  WellFormed m → v < nverts m → one_fan m v →
  ∃ r : bool, vertex_touches_face m v f = Some r ∧ (r = true ↔ corner m f v).
Proof. intros HW%WF_iff. by apply vertex_touches_face_ok. Qed.

(** C13: the counter-clockwise ring with faces (vertex_ring_ccw). *)
Theorem C13_vertex_ring m v :
  WellFormed m → one_fan m v → (∃ h w, runs m h v w) →
  ∃ r, vertex_ring_ccw m v = Some r ∧
    (∀ h w (o : option N), (h, w, o) ∈ ring_spokes r ↔ runs m h v w ∧ ∃ x, live_he m h x ∧ hface x = o) ∧
    (ring_border r = true ↔ ∃ h w x, runs m h v w ∧ live_he m h x ∧ hface x = None).
Proof.
  intros HW%WF_iff Hone (h1&w1&Hr). pose proof (wf_si _ HW) as HS.
  apply runs_WF in Hr as (HL1&Ht1&_); [|done].
  destruct (has_anchor m HW v h1 HL1 Ht1) as (x&h0&Hx&Hh).
  destruct (ring_nb m HW v x h0 Hx Hh Hone) as (r&E&_&Hs&Hb).
  exists r. split; [done|]. setoid_rewrite live_he_L. split.
  - intros h w o. rewrite Hs. setoid_rewrite runs_WF; [|done]. split.
    + intros (h'&Ep&HL&Ht). injection Ep as -> -> ->. split; [done|]. by exists (he m h').
    + intros ((HL&Ht&<-)&y&[_ <-]&<-). by exists h.
  - rewrite Hb. split.
    + intros (h&w&Hr&Hf). exists h, w, (he m h). split; [done|]. split; [|done].
      apply runs_WF in Hr as (?&_); [|done]. done.
    + intros (h&w&y&Hr&[HL <-]&Hf). by exists h, w.
Qed.

(** C15 *)
Theorem C15_face_queries m f a b c :
  WellFormed m → oriented_face m f a b c →
  face_vertices m f = Some (a, b, c) ∧ a ≠ b ∧ b ≠ c ∧ c ≠ a ∧
  ∃ e0 e1 e2, face_half_edges m f = Some [e0; e1; e2] ∧
    get_face_half_edges_iterative m f = Some (Some [e0; e1; e2]) ∧
    runs m e0 a b ∧ runs m e1 b c ∧ runs m e2 c a.
Proof.
  intros HW%WF_iff Ho. destruct (face_half_edges_ok m HW f a b c Ho) as (e0&e1&e2&?&?&?&?&?&_&?).
  destruct (oriented_distinct m f a b c (wf_si _ HW) Ho) as (?&?&?&_).
  split_and!; try done. by exists e0, e1, e2.
Qed.

Theorem C15_face_vertices_complete m f : WellFormed m → live_face m f →
  ∃ a b c, oriented_face m f a b c ∧ face_vertices m f = Some (a, b, c).
Proof.
  intros HW%WF_iff Hl. destruct (live_oriented m f HW Hl) as (a&b&c&Ho). exists a, b, c. split; [done|].
  by destruct (face_half_edges_ok m HW f a b c Ho) as (e0&e1&e2&_&_&_&_&_&_&?).
Qed.

(** C59: adjacency queries *)
Theorem C59_adjacent_faces m f : WellFormed m → live_face m f →
  ∃ l, adjacent_faces m f = Some l ∧ ∀ g, g ∈ l ↔ share_edge m f g.
Proof.
  intros HW%WF_iff Hl. destruct (live_oriented m f HW Hl) as (a&b&c&Ho). by apply (adjacent_faces_ok m HW f a b c).
Qed.

Theorem C59_are_faces_adjacent m f g : WellFormed m → live_face m f → live_face m g →
  ∃ r : bool, are_faces_adjacent m f g = Some r ∧ (r = true ↔ share_edge m f g).
Proof. intros HW%WF_iff. by apply are_faces_adjacent_ok. Qed.

Theorem C59_half_edge_between m u v h : WellFormed m → half_edge_between m u v = Some h ↔ runs m h u v.
Proof. intros HW%WF_iff. by apply half_edge_between_ok. Qed.

Theorem C59_edge_half_edges m u v h h' : WellFormed m →
  edge_half_edges m u v = Some (Some (h, h')) ↔ runs m h u v ∧ runs m h' v u.
Proof. intros HW%WF_iff. by apply edge_half_edges_ok. Qed.

Theorem C59_are_vertices_connected m u v : WellFormed m →
  are_vertices_connected m u v = true ↔
  ∃ f, (∃ w, cycle_face m f u v w) ∨ (∃ w, cycle_face m f v u w).
Proof.
  intros HW%WF_iff. rewrite (are_vertices_connected_ok m HW), (registered_sides m) by done.
  unfold side_used. naive_solver.
Qed.

Theorem C59_canonical_edge m h u v : WellFormed m → runs m h u v →
  canonical_edge_indices m h = Some (Some (N.min u v, N.max u v)).
Proof. intros HW%WF_iff. by apply canonical_edge_ok. Qed.

(** C60: the link condition says that the common neighbours of the end points
    are exactly the corners opposite to the edge. *)
Theorem C60_link_condition m v0 v1 :
  WellFormed m → one_fan m v0 → one_fan m v1 →
  ∃ r : bool, collapse_link_condition_triangle m v0 v1 = Some r ∧
    (r = true ↔ registered m v0 v1 ∧
       ∀ w, w ≠ v0 → w ≠ v1 →
         (registered m v0 w ∧ registered m v1 w ↔
          (∃ f, cycle_face m f v0 v1 w) ∨ (∃ f, cycle_face m f v1 v0 w))).
Proof. intros HW%WF_iff. by apply link_condition_ok. Qed.

(** C14, the part that holds: when only one face meets each border half-edge at
    its head, the loops are already right and stay as they are.  Missing: heads
    with two or more faces, where the code is wrong (next theorem). *)
Theorem C14_single_face_heads_partial debug m :
  WellFormed m →
  (∀ b (x y z w : HE), live_he m b x → hface x = None → live_he m (htwin x) y →
     live_he m (hprev y) z → live_he m (htwin z) w → hface w = None) →
  build_boundary_loops debug m = Some m.
Proof.
  intros HW%WF_iff H. pose proof (wf_si _ HW) as HS. apply build_loops_same; [done|].
  intros b HL Hb. pose proof (tw_L m HS b HL) as HLt. destruct (prev_L m HW _ HLt) as (HLp&_).
  pose proof (tw_L m HS _ HLp) as HLc.
  eapply (H b (he m b) (he m (tw m b)) (he m (pv m (tw m b))) (he m (tw m (pv m (tw m b)))));
    rewrite ?live_he_L; done.
Qed.

(** C18, the part that holds: three entries, each [usize::MAX] or a face with
    the first corner of [f].  Missing: these are the faces around a corner (with
    [f] itself), not the edge neighbours. *)
Theorem C18_faces_around_corner_partial m f a b c :
  WellFormed m → oriented_face m f a b c →
  ∃ l, faces_around_face m f = Some l ∧ length l = 3%nat ∧
    ∀ g, g ∈ l → g = umax ∨ corner m g a.
Proof. intros HW%WF_iff. by apply faces_around_face_ok. Qed.
End claims.

(** * Witnesses *)
Definition never : Z → Z → Z → Z → bool := λ _ _ _ _, false.
Definition build (l : list (op Z)) : mesh Z := default mesh_new (exec_all never mesh_new l).
Definition build_ok (l : list (op Z)) : bool :=
  all_legalb never mesh_new l && (8 * N.of_nat (length l) <=? umax) &&
  is_some (exec_all never mesh_new l).
Lemma build_wf l : build_ok l = true → WellFormed (build l).
Proof.
  unfold build_ok, build. rewrite !andb_true_iff, N.leb_le. intros [[H1 H2] H3].
  destruct (exec_all never mesh_new l) as [m|] eqn:E; [|done]. by apply (demo_wf never l).
Qed.

Definition tri_ops : list (op Z) :=
  [AddVertex 0%Z; AddVertex 1%Z; AddVertex 2%Z; AddTriangle 0 1 2].
Definition pillow_ops : list (op Z) := tri_ops ++ [AddTriangle 0 2 1].
Definition quad_ops : list (op Z) := tri_ops ++ [AddVertex 3%Z; AddTriangle 0 2 3].
(** a closed fan 1 2 3 4 around 0, then an isolated triangle touching vertex 0 *)
Definition bowtie_ops : list (op Z) :=
  [AddVertex 0%Z; AddVertex 1%Z; AddVertex 2%Z; AddVertex 3%Z; AddVertex 4%Z; AddVertex 5%Z; AddVertex 6%Z;
   AddTriangle 0 1 2; AddTriangle 0 2 3; AddTriangle 0 3 4; AddTriangle 0 4 1; AddTriangle 0 5 6].

Example quad_wf : WellFormed (build quad_ops).
Proof. apply build_wf. by vm_compute. Qed.

(** the hypotheses of C13 and C60: a vertex with one fan *)
Example quad_one_fan : one_fan (build quad_ops) 0 ∧ one_fan (build quad_ops) 2 ∧
  outgoing_half_edges (build quad_ops) 0 = Some [0; 9; 5] ∧
  one_ring_neighbors (build quad_ops) 0 = Some [1; 3; 2] ∧
  faces_around_vertex (build quad_ops) 0 = Some [0; 1] ∧
  collapse_link_condition_triangle (build quad_ops) 0 2 = Some true ∧
  collapse_link_condition_triangle (build quad_ops) 1 3 = Some false.
Proof.
  assert (∀ v l x h0, verts (build quad_ops) !! v = Some x → vhe x = Some h0 →
    outgoing_half_edges (build quad_ops) v = Some l →
    forallb (λ h, negb (default true (hrem <$> hes (build quad_ops) !! h)) && 
       match hes (build quad_ops) !! h with
       | Some y => match hes (build quad_ops) !! htwin y with Some z => implb (hv z =? v) (bool_decide (h ∈ l)) | None => false end
       | None => false end) (range (nhes (build quad_ops))) = true →
    one_fan (build quad_ops) v) as Hall.
  { intros v l x h0 Hx Hh E Hb. pose proof quad_wf as HW%WF_iff.
    destruct (outgoing_ok _ HW v x h0 Hx Hh) as (l'&E'&_&Hl&Hin). rewrite E in E'. injection E' as ->.
    assert (∀ h w, runs (build quad_ops) h v w → same_fan (build quad_ops) h0 h) as Hr.
    { intros h w Hr. apply runs_WF in Hr as (HL&Ht&_); [|apply HW]. apply Hin.
      rewrite forallb_forall in Hb. specialize (Hb h).
      feed specialize Hb. { apply elem_of_list_In, range_spec. by apply (L_lt _ (wf_si _ HW)). }
      apply andb_true_iff in Hb as [_ Hb]. pose proof (L_getH _ h HL) as Eh. unfold getH in Eh. rewrite Eh in Hb.
      pose proof (L_getH _ _ (tw_L _ (wf_si _ HW) h HL)) as Et. unfold getH in Et. 
      fold (tw (build quad_ops) h) in Hb. rewrite Et in Hb.
      fold (hd (build quad_ops) (tw (build quad_ops) h)) in Hb. fold (tl (build quad_ops) h) in Hb.
      rewrite Ht, N.eqb_refl in Hb. by apply bool_decide_eq_true in Hb. }
    intros h h' w w' R1%Hr R2%Hr. unfold same_fan in *. by rewrite <- R1. }
  split_and!; [| |by vm_compute..].
  - eapply (Hall 0 [0; 9; 5]); by vm_compute.
  - eapply (Hall 2); by vm_compute.
Qed.

(** on a bow-tie only the fan of the anchor is enumerated *)
Example bowtie_ring : WellFormed (build bowtie_ops) ∧
  one_ring_neighbors (build bowtie_ops) 0 = Some [1; 4; 3; 2] ∧
  is_some (emap (build bowtie_ops) !! (0, 5)) = true.
Proof. split; [apply build_wf|]; by vm_compute. Qed.

(** C18 is false of the code: in the quad, the neighbour of face 1 across the
    edge 0–2 is face 0, but faces_around_face(1) also lists 1 itself; and in a
    strip it misses a neighbour. *)
Definition strip_ops : list (op Z) := tri_ops ++ [AddVertex 3%Z; AddTriangle 2 1 3].
Theorem C18_faces_around_face_refuted : ∃ (m : mesh Z) f l g,
  WellFormed m ∧ live_face m f ∧ faces_around_face m f = Some l ∧
  f ∈ l ∧ share_edge m f g ∧ g ∉ l.
Proof.
  exists (build strip_ops), 0, [0; umax; umax], 1.
  assert (WellFormed (build strip_ops)) as HW by (apply build_wf; by vm_compute).
  split_and!; [done| |by vm_compute|left| |].
  - assert (match faces (build strip_ops) !! 0 with Some x => frem x = false | None => False end) as H by (by vm_compute).
    unfold live_face. destruct (faces (build strip_ops) !! 0) as [x|]; [|done]. eauto.
  - exists 1, 2, 0, 3. rewrite WF_iff in HW || apply WF_iff in HW. split.
    + right; right. apply corners_ok; [done|]. by vm_compute.
    + left. apply corners_ok; [done|]. by vm_compute.
  - apply (bool_decide_unpack _). by vm_compute.
Qed.

(** C14 is false of the code: on two triangles sharing an edge the border
    half-edge 1→0 gets as successor the one that runs from 2 to 1. *)
Theorem C14_build_boundary_loops_refuted : ∃ (m m' : mesh Z) b x y,
  WellFormed m ∧ build_boundary_loops true m = Some m' ∧
  hes m' !! b = Some x ∧ hface x = None ∧ hrem x = false ∧ 
  hes m' !! hnext x = Some y ∧ hv x = 0 ∧ hv y = 1 ∧
  (∃ z, hes m' !! htwin y = Some z ∧ hv z = 2) ∧ validate_connectivity m' = None.
Proof.
  assert (match build_boundary_loops true (build quad_ops) with
    | Some m' =>
      match hes m' !! 1 with
      | Some x => hface x = None ∧ hrem x = false ∧ hv x = 0 ∧
         match hes m' !! hnext x with
         | Some y => hv y = 1 ∧ match hes m' !! htwin y with Some z => hv z = 2 | None => False end
         | None => False end
      | None => False end ∧ validate_connectivity m' = None
    | None => False end) as Q by (vm_compute; by split_and!).
  pose proof quad_wf as HW.
  generalize dependent (build quad_ops). intros m Q HW.
  destruct (build_boundary_loops true m) as [m'|] eqn:E; [|done].
  destruct Q as [Q ?]. destruct (hes m' !! 1) as [x|] eqn:E1; [|done]. destruct Q as (?&?&?&Q).
  destruct (hes m' !! hnext x) as [y|] eqn:E2; [|done]. destruct Q as (?&Q).
  destruct (hes m' !! htwin y) as [z|] eqn:E3; [|done].
  exists m, m', 1, x, y. split_and!; try done. eauto.
Qed.

(** C11 is false of the code: after splitting a side of a single triangle, the
    live border half-edge 3 is followed by the removed half-edge 1, the new
    border half-edge 10 is followed by itself, and vertex 0 still refers to the
    removed half-edge 0. *)
Theorem C11_split_border_refuted : ∃ (m m' : mesh Z) r,
  WellFormed m ∧ split_edge m None 0 7%Z = Some (m', r) ∧
  (∃ b x y, live_he m' b x ∧ hface x = None ∧ hes m' !! hnext x = Some y ∧ hrem y = true) ∧
  (∃ b x, live_he m' b x ∧ hface x = None ∧ hnext x = b) ∧
  (∃ v x h y, verts m' !! v = Some x ∧ vhe x = Some h ∧ hes m' !! h = Some y ∧ hrem y = true).
Proof.
  assert (match split_edge (build tri_ops) None 0 7%Z with
    | Some (m', _) =>
      match hes m' !! 3 with Some x => hrem x = false ∧ hface x = None ∧
        match hes m' !! hnext x with Some y => hrem y = true | None => False end | None => False end ∧
      match hes m' !! 10 with Some x => hrem x = false ∧ hface x = None ∧ hnext x = 10 | None => False end ∧
      match verts m' !! 0 with Some x => vhe x = Some 0 ∧
        match hes m' !! 0 with Some y => hrem y = true | None => False end | None => False end
    | None => False end) as Q by (vm_compute; by split_and!).
  assert (WellFormed (build tri_ops)) as HW by (apply build_wf; by vm_compute).
  generalize dependent (build tri_ops). intros m Q HW.
  destruct (split_edge m None 0 7%Z) as [[m' r]|] eqn:E; [|done].
  exists m, m', r. split; [done|]. split; [done|]. destruct Q as (Q1&Q2&Q3). split_and!.
  - destruct (hes m' !! 3) as [x|] eqn:E1; [|done]. destruct Q1 as (?&?&Q).
    destruct (hes m' !! hnext x) as [y|] eqn:E2; [|done]. exists 3, x, y. by split_and!.
  - destruct (hes m' !! 10) as [x|] eqn:E1; [|done]. destruct Q2 as (?&?&?). exists 10, x. by split_and!.
  - destruct (verts m' !! 0) as [x|] eqn:E1; [|done]. destruct Q3 as (?&Q).
    destruct (hes m' !! 0) as [y|] eqn:E2; [|done]. exists 0, x, 0, y. by split_and!.
Qed.

(** C11: given the border half-edge itself, split_edge panics. *)
Theorem C11_split_border_panics_refuted : ∃ (m : mesh Z) h u v,
  WellFormed m ∧ runs m h u v ∧ split_edge m None h 7%Z = None.
Proof.
  exists (build tri_ops), 1, 1, 0.
  assert (WellFormed (build tri_ops)) as HW by (apply build_wf; by vm_compute).
  split_and!; [done| |by vm_compute].
  apply (wfs_emap _ HW). by vm_compute.
Qed.

Lemma pillow_facts : emap (build pillow_ops) !! (0, 1) = Some 0 ∧
  corners (build pillow_ops) 0 = Some (0, 1, 2) ∧ corners (build pillow_ops) 1 = Some (0, 2, 1).
Proof. split_and!; vm_compute; reflexivity. Qed.

(** C61 is false of the code: when both faces at the edge have the same third
    corner, the result has two live half-edges along the same directed edge and
    the connectivity checker rejects it. *)
Theorem C61_split_edge_pillow_refuted : ∃ (m m' : mesh Z) h f1 f2 a b c r,
  WellFormed m ∧ runs m h c a ∧ cycle_face m f1 c a b ∧ cycle_face m f2 a c b ∧
  split_edge m None h 7%Z = Some (m', r) ∧ validate_connectivity m' = None ∧ ¬ WellFormed m'.
Proof.
  assert (match split_edge (build pillow_ops) None 0 7%Z with
    | Some (m', _) => validate_connectivity m' = None | None => False end) as Q by (by vm_compute).
  assert (WellFormed (build pillow_ops)) as HW by (apply build_wf; by vm_compute).
  pose proof pillow_facts as (Hr & H0 & H1).
  generalize dependent (build pillow_ops). intros m Q HW Hr H0 H1.
  destruct (split_edge m None 0 7%Z) as [[m' r]|] eqn:E; [|done].
  exists m, m', 0, 0, 1, 1, 2, 0, r. pose proof HW as HW'%WF_iff.
  apply corners_ok in H0, H1; [|done..].
  split_and!; [done| |by left| |done|done|].
  - by apply (wfs_emap _ HW).
  - by right; left.
  - intros HW2%C06_validate_accepts. congruence.
Qed.

Print Assumptions C06_validate_accepts.
Print Assumptions C06_validate_accepts_history.
Print Assumptions C06_validate_half_edges_accepts.
Print Assumptions C13_outgoing_is_fan.
Print Assumptions C13_one_ring_complete.
Print Assumptions C13_is_boundary_vertex.
Print Assumptions C13_faces_around_vertex.
Print Assumptions C13_vertex_touches_face.
Print Assumptions C13_vertex_ring.
Print Assumptions C15_face_queries.
Print Assumptions C15_face_vertices_complete.
Print Assumptions C59_adjacent_faces.
Print Assumptions C59_are_faces_adjacent.
Print Assumptions C59_half_edge_between.
Print Assumptions C59_edge_half_edges.
Print Assumptions C59_are_vertices_connected.
Print Assumptions C59_canonical_edge.
Print Assumptions C60_link_condition.
Print Assumptions C14_single_face_heads_partial.
Print Assumptions C18_faces_around_corner_partial.
Print Assumptions C18_faces_around_face_refuted.
Print Assumptions C14_build_boundary_loops_refuted.
Print Assumptions C11_split_border_refuted.
Print Assumptions C11_split_border_panics_refuted.
Print Assumptions C61_split_edge_pillow_refuted.
