(** Properties C01–C05, C07–C10 of /verif/properties.jsonl.

    Vocabulary: the model of the code (MeshModel, MeshEditModel), the look-up
    specification of meshes (MeshSpec: [WellFormed], [oriented_face],
    [side_used], [registered], ...) and histories of calls (MeshHistSpec).
    [None] as the result of a call is a panic. *)
From Verif Require Import MeshDemo.
From Verif Require Import MeshHistSpec.
Local Open Scope N_scope.

Section claims.
Context {P : Type} (degen : P → P → P → P → bool).
Implicit Types (m : mesh P).

(** C01: every history of legal calls runs to the end and leaves a well-formed
    mesh.  The history may also contain flips and splits, which subsumes the
    claim about add/remove.  Each call creates at most eight slots, so the
    hypothesis on the length says that indices fit in a [usize]. *)
Theorem C01_history_well_formed (l : list (op P)) :
  all_legal degen mesh_new l → 8 * N.of_nat (length l) ≤ umax →
  ∃ m, exec_all degen mesh_new l = Some m ∧ WellFormed m.
Proof.
  intros H1 H2. destruct (history_ok degen l H1 H2) as (m & ? & ? & _). eauto.
Qed.

(** C01, one step: the invariant is preserved by every legal call. *)
Theorem C01_step_well_formed m (o : op P) :
  WellFormed m → legal m o →
  nhes m + 8 ≤ umax → nfaces m + 8 ≤ umax → nverts m + 8 ≤ umax →
  ∃ m', exec degen m o = Some m' ∧ WellFormed m'.
Proof. apply exec_wellformed. Qed.

(** C02: the three outcomes of add_triangle. *)
Theorem C02_add_triangle_refines m v0 v1 v2 :
  WellFormed m → v0 ≠ v1 → v1 ≠ v2 → v2 ≠ v0 →
  v0 < nverts m → v1 < nverts m → v2 < nverts m →
  nhes m + 6 ≤ umax → nfaces m < umax →
  let ccw_free := ¬ side_used m v0 v1 ∧ ¬ side_used m v1 v2 ∧ ¬ side_used m v2 v0 in
  let cw_free := ¬ side_used m v0 v2 ∧ ¬ side_used m v2 v1 ∧ ¬ side_used m v1 v0 in
  let grows m' f := WellFormed m' ∧ f = nfaces m ∧ nfaces m' = nfaces m + 1 ∧
      same_faces_except m m' f ∧ same_positions m m' in
  ∃ m' f, add_triangle m v0 v1 v2 = Some (m', f) ∧
    ((ccw_free ∧ grows m' f ∧ oriented_face m' f v0 v1 v2) ∨
     (¬ ccw_free ∧ cw_free ∧ grows m' f ∧ oriented_face m' f v0 v2 v1) ∨
     (¬ ccw_free ∧ ¬ cw_free ∧ m' = m ∧ f = umax)).
Proof.
  intros HW ?????? Hh Hf ccw cw grows. apply WF_iff in HW.
  destruct (add_triangle_ok m v0 v1 v2) as (m' & f & E & Hp); try done.
  exists m', f. split; [done|].
  assert (∀ a b c, AddPost m a b c m' f → grows m' f ∧ oriented_face m' f a b c) as HA.
  { intros a b c [? [? ?] ? ? ? _]%AddPost_Added; [|done]. unfold grows. by rewrite <- WF_iff. }
  destruct Hp as [[? Hp]|[(?&?&Hp)|(?&?&?&?)]]; [left|right; left|right; right];
    try (apply HA in Hp as [??]); done.
Qed.

(** C03: no panic. *)
Theorem C03_add_triangle_no_panic m v0 v1 v2 :
  WellFormed m → v0 ≠ v1 → v1 ≠ v2 → v2 ≠ v0 →
  v0 < nverts m → v1 < nverts m → v2 < nverts m →
  nhes m + 6 ≤ umax → nfaces m < umax →
  add_triangle m v0 v1 v2 ≠ None.
Proof.
  intros HW%WF_iff ????????. by destruct (add_triangle_ok m v0 v1 v2) as (?&?&->&_).
Qed.

Theorem C03_remove_triangle_no_panic m f :
  WellFormed m → f < nfaces m → remove_triangle m f ≠ None.
Proof. intros HW%WF_iff ?. by destruct (remove_triangle_spec m f) as (?&->&_). Qed.

Theorem C03_flip_edge_no_panic m h : WellFormed m → flip_edge degen m h ≠ None.
Proof. intros HW%WF_iff. by destruct (flip_edge_ok degen m h HW) as (?&?&->&_). Qed.

(** C04: remove_triangle removes exactly one face. *)
Theorem C04_remove_triangle_exact m f :
  WellFormed m → f < nfaces m →
  ∃ m', remove_triangle m f = Some m' ∧ WellFormed m' ∧
    ¬ live_face m' f ∧ same_faces_except m m' f ∧ same_positions m m' ∧
    nfaces m' = nfaces m ∧
    (∀ u v, registered m' u v ↔ side_used m' u v ∨ side_used m' v u) ∧
    (¬ live_face m f → m' = m).
Proof.
  intros HW%WF_iff Hf. destruct (remove_triangle_spec m f HW Hf) as (m' & E & Hp).
  exists m'. split; [done|]. destruct Hp as [[Hl Hp]|[Hl ->]].
  - apply RemPost_Removed in Hp as [? ? ? ? [? ?]]; [|done]. rewrite <- WF_iff. split_and!; try done.
    intros u v. by apply registered_sides.
  - rewrite <- WF_iff. split_and!; try done. intros u v. by apply registered_sides.
Qed.

(** C05: removing a triangle that was just added restores the surface. *)
Theorem C05_remove_after_add_restores m v0 v1 v2 m1 f :
  WellFormed m → v0 ≠ v1 → v1 ≠ v2 → v2 ≠ v0 →
  v0 < nverts m → v1 < nverts m → v2 < nverts m →
  nhes m + 6 ≤ umax → nfaces m < umax →
  add_triangle m v0 v1 v2 = Some (m1, f) → f ≠ umax →
  ∃ m2, remove_triangle m1 f = Some m2 ∧ WellFormed m2 ∧
    same_faces m m2 ∧ (∀ u v, registered m2 u v ↔ registered m u v) ∧ same_positions m m2.
Proof.
  intros HW%WF_iff ???????? E Hfu.
  destruct (add_triangle_ok m v0 v1 v2) as (m1' & f' & E' & Hp); try done.
  rewrite E in E'. injection E' as <- <-.
  assert (∃ a b c, AddPost m a b c m1 f) as (a & b & c & HA).
  { destruct Hp as [[? Hp]|[(?&?&Hp)|(?&?&?&?)]]; eauto. done. }
  clear Hp. apply AddPost_Added in HA as [HW1 [-> Hn] Hface Hrest Hpos _]; [|done].
  destruct (remove_triangle_spec m1 (nfaces m) HW1) as (m2 & E2 & Hp); [lia|].
  exists m2. split; [done|].
  destruct Hp as [[Hl Hp]|[Hl _]]; [|by apply oriented_live in Hface].
  apply RemPost_Removed in Hp as [HW2 Hd Hr2 Hp2 _]; [|done].
  assert (same_faces m m2) as Hsf.
  { intros g a' b' c'. destruct (decide (g = nfaces m)) as [->|Hg].
    - split; intros Ho%oriented_live; [done|]. exfalso.
      destruct Ho as (x&Hx&_). assert (nfaces m < nfaces m); [|lia].
      apply (si_fb _ _ (wf_si _ HW)); eauto.
    - etrans; [by apply Hr2|by apply Hrest]. }
  rewrite <- WF_iff. split_and!; try done.
  - by apply same_faces_registered.
  - destruct Hpos as [Hn1 Hv1], Hp2 as [Hn2 Hv2]. split; [congruence|]. intros v.
    destruct (Hv1 v), (Hv2 v). split; congruence.
Qed.

(** C07: a directed edge belongs to at most one face; an undirected edge to at
    most two, which see it in opposite directions. *)
Theorem C07_directed_edge_one_face m f f' u v w w' :
  WellFormed m → cycle_face m f u v w → cycle_face m f' u v w' → f = f' ∧ w = w'.
Proof. intros HW%WF_iff. by apply side_unique. Qed.

(** [f] has the side u–v in one of the two directions *)
Definition has_edge m f u v : Prop := ∃ w, cycle_face m f u v w ∨ cycle_face m f v u w.

Theorem C07_undirected_edge_two_faces m u v f1 f2 f3 :
  WellFormed m → has_edge m f1 u v → has_edge m f2 u v → has_edge m f3 u v →
  f1 = f2 ∨ f1 = f3 ∨ f2 = f3.
Proof.
  intros HW%WF_iff [w1 H1] [w2 H2] [w3 H3].
  pose proof (λ f f' u v w w', side_unique m f f' u v w w' HW) as U.
  destruct H1 as [H1|H1], H2 as [H2|H2], H3 as [H3|H3]; naive_solver.
Qed.

(** C08: flip_edge, for every half-edge index. *)
Definition can_flip m h f0 f1 a b c d : Prop :=
  runs m h a b ∧ cycle_face m f0 a b c ∧ cycle_face m f1 b a d ∧ c ≠ d ∧
  ¬ registered m c d ∧ ¬ registered m d c ∧
  ∃ xa xb xc xd, verts m !! a = Some xa ∧ verts m !! b = Some xb ∧
    verts m !! c = Some xc ∧ verts m !! d = Some xd ∧
    degen (vpos xa) (vpos xb) (vpos xc) (vpos xd) = false.

Theorem C08_flip_edge m h :
  WellFormed m → ∃ m' r, flip_edge degen m h = Some (m', r) ∧
  if r then ∃ f0 f1 a b c d, can_flip m h f0 f1 a b c d ∧
      WellFormed m' ∧ oriented_face m' f0 a d c ∧ oriented_face m' f1 b c d ∧ runs m' h c d ∧
      (∀ g x y z, g ≠ f0 → g ≠ f1 → (oriented_face m' g x y z ↔ oriented_face m g x y z)) ∧
      nfaces m' = nfaces m ∧ nhes m' = nhes m ∧ same_positions m m'
  else m' = m ∧ ∀ f0 f1 a b c d, ¬ can_flip m h f0 f1 a b c d.
Proof.
  intros HW%WF_iff. destruct (flip_edge_ok degen m h HW) as (m' & r & E & Hp).
  exists m', r. split; [done|]. destruct r; [|done].
  destruct Hp as (f0&f1&a&b&c&d&Hf&[? ? ? ? ? [? ?] ?]).
  exists f0, f1, a, b, c, d. rewrite <- WF_iff. split_and!; done.
Qed.

(** C09: split_face with a point strictly inside the face [f] = (a,b,c). *)
Theorem C09_split_face m f p a b c :
  WellFormed m → oriented_face m f a b c →
  nverts m < umax → nhes m + 6 ≤ umax → nfaces m + 3 ≤ umax →
  let w := nverts m in
  ∃ m', split_face m (Inside f) None p =
      Some (m', SplitFace w [nfaces m; nfaces m + 1; nfaces m + 2]) ∧
    WellFormed m' ∧ nverts m' = nverts m + 1 ∧ nfaces m' = nfaces m + 3 ∧
    vpos <$> verts m' !! w = Some p ∧
    (∀ v, v ≠ w → vpos <$> verts m' !! v = vpos <$> verts m !! v) ∧
    ¬ live_face m' f ∧
    oriented_face m' (nfaces m) a w c ∧
    oriented_face m' (nfaces m + 1) c w b ∧
    oriented_face m' (nfaces m + 2) b w a ∧
    (∀ g x y z, g ≠ f → g < nfaces m → (oriented_face m' g x y z ↔ oriented_face m g x y z)).
Proof.
  intros HW%WF_iff Ho ??? w. cbn [split_face].
  destruct (split_inside_ok m f p a b c) as (m' & E & [? [? ?] [? ?] Hv ? ? ? ? ? [? ?]]); try done.
  exists m'. rewrite <- WF_iff. split_and!; try done. intros v Hne. by apply Hv.
Qed.

(** C10: split_edge on an edge with two faces (c,a,b) and (a,c,d), b ≠ d. *)
Theorem C10_split_edge_interior m h f1 f2 p a b c d :
  WellFormed m → runs m h c a → cycle_face m f1 c a b → cycle_face m f2 a c d → b ≠ d →
  nverts m < umax → nhes m + 8 ≤ umax → nfaces m + 4 ≤ umax →
  let w := nverts m in
  ∃ m', split_edge m None h p =
      Some (m', SplitEdge w [nfaces m; nfaces m + 1; nfaces m + 2; nfaces m + 3]) ∧
    WellFormed m' ∧ nverts m' = nverts m + 1 ∧ nfaces m' = nfaces m + 4 ∧
    vpos <$> verts m' !! w = Some p ∧
    (∀ v, v ≠ w → vpos <$> verts m' !! v = vpos <$> verts m !! v) ∧
    ¬ live_face m' f1 ∧ ¬ live_face m' f2 ∧
    oriented_face m' (nfaces m) w b c ∧ oriented_face m' (nfaces m + 1) w a b ∧
    oriented_face m' (nfaces m + 2) w c d ∧ oriented_face m' (nfaces m + 3) w d a ∧
    (∀ g x y z, g ≠ f1 → g ≠ f2 → g < nfaces m →
       (oriented_face m' g x y z ↔ oriented_face m g x y z)).
Proof.
  intros HW%WF_iff Hr H1 H2 Hne ??? w.
  destruct (split_edge_ok m h f1 f2 p a b c d) as (m' & E & [? [? ?] [? ?] Hv ? ? ? ? ? ? ? [? ?] ?]); try done.
  exists m'. rewrite <- WF_iff. split_and!; try done. intros v Hv'. by apply Hv.
Qed.

(** C10, the point is an existing vertex: nothing happens. *)
Theorem C10_split_edge_existing m h v p u w :
  WellFormed m → runs m h u w → split_edge m (Some v) h p = Some (m, NoSplit v).
Proof.
  intros HW%WF_iff Hr. apply runs_WF in Hr as (?&_); [|apply HW]. by apply split_edge_found.
Qed.
End claims.

(** * Concrete meshes meeting the hypotheses *)
Definition never : Z → Z → Z → Z → bool := λ _ _ _ _, false.

(** a tetrahedron 0 1 2 3 with a flap on its removed side, an edge flip, two
    splits and a removal *)
Definition demo : list (op Z) :=
  [AddVertex 0%Z; AddVertex 1%Z; AddVertex 2%Z; AddVertex 3%Z; AddVertex 4%Z;
   AddTriangle 0 1 2; AddTriangle 0 2 3; AddTriangle 0 3 1; AddTriangle 1 2 3;
   RemoveTriangle 3; AddTriangle 2 1 4; FlipEdge 0; SplitFaceInside 1 10%Z;
   SplitEdgeBy 8 None 11%Z; AddTriangle 1 3 4].

Example demo_is_legal : all_legal never mesh_new demo ∧ 8 * N.of_nat (length demo) ≤ umax.
Proof. split; [apply demo_legal|]; by vm_compute. Qed.

(** two triangles sharing the edge 1–2, and a bow-tie at vertex 0 *)
Definition demo2 : list (op Z) :=
  [AddVertex 0%Z; AddVertex 1%Z; AddVertex 2%Z; AddVertex 3%Z; AddVertex 4%Z; AddVertex 5%Z;
   AddTriangle 0 1 2; AddTriangle 2 1 3; AddTriangle 0 4 5].
Definition mesh2 : mesh Z := default mesh_new (exec_all never mesh_new demo2).

Example mesh2_ok : WellFormed mesh2 ∧
  oriented_face mesh2 0 0 1 2 ∧ oriented_face mesh2 1 2 1 3 ∧ oriented_face mesh2 2 0 4 5 ∧
  nhes mesh2 + 8 ≤ umax ∧ nfaces mesh2 + 8 ≤ umax ∧ nverts mesh2 = 6.
Proof.
  assert (WellFormed mesh2) as HW.
  { apply (demo_wf never demo2); [by vm_compute..|]. unfold mesh2.
    destruct (exec_all never mesh_new demo2) eqn:E; [done|]. vm_compute in E. done. }
  split; [done|]. apply WF_iff in HW.
  rewrite <- !corners_ok by done. split_and!; by vm_compute.
Qed.

(** accepted in the requested direction, accepted flipped, refused *)
Example add_outcomes :
  snd <$> add_triangle mesh2 1 0 5 = Some 3 ∧
  ((λ r, corners (fst r) (snd r)) <$> add_triangle mesh2 1 0 5 = Some (Some (1, 0, 5))) ∧
  ((λ r, corners (fst r) (snd r)) <$> add_triangle mesh2 0 1 5 = Some (Some (0, 5, 1))) ∧
  snd <$> add_triangle mesh2 1 2 4 = Some umax.
Proof. by vm_compute. Qed.

(** the diagonal 1–2 can be flipped, the border edge 0→1 cannot *)
Example flip_outcomes :
  snd <$> flip_edge never mesh2 2 = Some true ∧ snd <$> flip_edge never mesh2 0 = Some false.
Proof. by vm_compute. Qed.

Example mesh2_split : (λ r, snd r) <$> split_edge mesh2 None 2 7%Z = Some (SplitEdge 6 [3; 4; 5; 6]).
Proof. by vm_compute. Qed.

Print Assumptions C01_history_well_formed.
Print Assumptions C01_step_well_formed.
Print Assumptions C02_add_triangle_refines.
Print Assumptions C03_add_triangle_no_panic.
Print Assumptions C03_remove_triangle_no_panic.
Print Assumptions C03_flip_edge_no_panic.
Print Assumptions C04_remove_triangle_exact.
Print Assumptions C05_remove_after_add_restores.
Print Assumptions C07_directed_edge_one_face.
Print Assumptions C07_undirected_edge_two_faces.
Print Assumptions C08_flip_edge.
Print Assumptions C09_split_face.
Print Assumptions C10_split_edge_interior.
Print Assumptions C10_split_edge_existing.
