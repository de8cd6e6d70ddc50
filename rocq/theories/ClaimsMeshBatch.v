(** Properties C16, C17 and C19.
    Vocabulary: the models MeshModel, MeshBatchModel and MeshCompactModel and the
    specification MeshSpec. *)
From Verif Require Import MeshDemo MeshDefer MeshCompact.
From Verif Require Import MeshHistSpec MeshBase.
Local Open Scope N_scope.

Section claims.
Context {P : Type}.
Implicit Types (m : mesh P) (f v u w h : N).

(** The argument of [fix_vertices_outgoing_for] goes through a hash set: [order]
    is any way of listing the elements of a list. *)
Definition lists_elements (order : list N → list N) : Prop := ∀ l v, v ∈ order l ↔ v ∈ l.

(** three different vertices of the mesh *)
Definition proper m (t : N * N * N) : Prop :=
  t.1.1 ≠ t.1.2 ∧ t.1.2 ≠ t.2 ∧ t.2 ≠ t.1.1 ∧ t.1.1 < nverts m ∧ t.1.2 < nverts m ∧ t.2 < nverts m.

(** C16: the batch insertion and the one-by-one insertion ([add_each] calls
    add_triangle on each element) give the same faces under the same ids, and the
    batch returns the ids of the triangles that were not refused. *)
Theorem C16_add_deferred_is_one_by_one order m (ts : list (N * N * N)) :
  lists_elements order → WellFormed m → Forall (proper m) ts →
  nhes m + 6 * N.of_nat (length ts) ≤ umax → nfaces m + N.of_nat (length ts) ≤ umax →
  ∃ one fs batch,
    add_each m ts = Some (one, fs) ∧
    add_triangles_deferred order m ts = Some (batch, filter (λ f, f ≠ umax) fs) ∧
    WellFormed one ∧ WellFormed batch ∧ same_faces one batch ∧ same_positions one batch ∧
    nfaces batch = nfaces one.
Proof.
  intros Ho HW%WF_iff Hts H1 H2.
  destruct (add_deferred_ok order m ts Ho HW Hts H1 H2) as (m' & fs & d & E1 & E2 & W1%WF_iff & W2%WF_iff & ?).
  by exists m', fs, d.
Qed.

(** C17: the deferred removal followed by the weld of the returned seeds and the
    repair of the returned vertices. Ids out of range, already removed or
    repeated are skipped. [debug] selects the build with debug assertions, whose
    check reads the twins of the removed half-edges. *)
Theorem C17_remove_deferred_exact debug order m (fs : list N) :
  lists_elements order → WellFormed m → (debug = true → twins_in_range m) →
  ∃ m1 starts affected m2 m3,
    remove_triangles_deferred debug m fs = Some (m1, starts, affected) ∧
    weld_border_components_from m1 starts = Some m2 ∧
    fix_vertices_outgoing_for order m2 affected = Some m3 ∧
    WellFormed m3 ∧
    (∀ g a b c, oriented_face m3 g a b c ↔ oriented_face m g a b c ∧ g ∉ fs) ∧
    same_positions m m3.
Proof.
  intros Ho HW%WF_iff Hdb.
  destruct (remove_deferred_ok debug order m fs Ho HW) as (m1&m2&m3&st&av&E1&E2&E3&W3%WF_iff&Hf&Hp&_).
  { intros ->. intros h [x Hx]%(si_hb _ _ (wf_si _ HW)). unfold tw, he. rewrite Hx. by apply (Hdb eq_refl h). }
  by exists m1, st, av, m2, m3.
Qed.

(** the position of a vertex *)
Definition at_pos m v (p : P) : Prop := vpos <$> verts m !! v = Some p.

(** C19: [live] lists the live faces in increasing order; the [i]-th one becomes
    face [i]. *)
Theorem C19_remove_unused_vertices m : WellFormed m → 6 * nfaces m ≤ umax →
  ∃ m' live,
    remove_unused_vertices m = Some m' ∧ WellFormed m' ∧
    StronglySorted N.lt live ∧ (∀ f, f ∈ live ↔ live_face m f) ∧
    (* as many faces, all live, with the same corner positions *)
    nfaces m' = N.of_nat (length live) ∧
    (∀ i f, live !! N.to_nat i = Some f → ∃ a b c a' b' c' p q r,
       oriented_face m f a b c ∧ oriented_face m' i a' b' c' ∧
       at_pos m a p ∧ at_pos m b q ∧ at_pos m c r ∧
       at_pos m' a' p ∧ at_pos m' b' q ∧ at_pos m' c' r) ∧
    (* every vertex is used *)
    (∀ v, v < nverts m' → ∃ i a b c, oriented_face m' i a b c ∧ (v = a ∨ v = b ∨ v = c)).
Proof.
  intros HW%WF_iff Hs.
  destruct (remove_unused_vertices_ok m HW Hs) as (m' & kept & lfs & E & Sk & Sl & Hk & Hl & HC & Hpos).
  exists m', lfs. pose proof HC as [HW' Hnv Hnf _ Hof].
  assert (∀ f a b c, oriented_face m f a b c → ∃ i j k l, lfs !! N.to_nat l = Some f ∧
    kept !! N.to_nat i = Some a ∧ kept !! N.to_nat j = Some b ∧ kept !! N.to_nat k = Some c ∧
    oriented_face m' l i j k) as Hmap.
  { intros f a b c Ho.
    assert (a ∈ kept) as Ka by (apply Hk; exists f, a, b, c; auto).
    assert (b ∈ kept) as Kb by (apply Hk; exists f, a, b, c; auto).
    assert (c ∈ kept) as Kc by (apply Hk; exists f, a, b, c; auto).
    assert (f ∈ lfs) as Kf.
    { apply Hl. destruct Ho as (e0&e1&e2&x0&x1&x2&Hf&_). by eexists. }
    apply elem_of_list_lookup in Ka as [i Ei]. apply elem_of_list_lookup in Kb as [j Ej].
    apply elem_of_list_lookup in Kc as [k Ek]. apply elem_of_list_lookup in Kf as [l El].
    exists (N.of_nat i), (N.of_nat j), (N.of_nat k), (N.of_nat l). rewrite !Nat2N.id.
    split_and!; try done. apply Hof. exists f, a, b, c. by rewrite !Nat2N.id. }
  split; [done|]. split; [by apply WF_iff|]. split; [done|]. split; [done|]. split; [done|]. split.
  - intros i f Hi.
    assert (live_face m f) as Hlf by (apply Hl; by eapply elem_of_list_lookup_2).
    assert (∃ a b c, oriented_face m f a b c) as (a & b & c & Ho).
    { by apply live_oriented. }
    destruct (Hmap f a b c Ho) as (i' & j & k & l & El & Ei & Ej & Ek & Ho').
    assert (l = i) as ->.
    { apply (inj N.to_nat). eapply (NoDup_lookup lfs); [by apply sorted_NoDup|done|done]. }
    assert (∀ x y, kept !! N.to_nat x = Some y → ∃ p, at_pos m y p ∧ at_pos m' x p) as Hp.
    { intros x y Exy. destruct (Hpos _ _ Exy) as [[z Hz] Hp]. rewrite N2Nat.id in Hp.
      exists (vpos z). unfold at_pos. rewrite Hp, Hz. done. }
    destruct (Hp _ _ Ei) as (p&?&?), (Hp _ _ Ej) as (q&?&?), (Hp _ _ Ek) as (r&?&?).
    exists a, b, c, i', j, k, p, q, r. done.
  - intros v Hv. rewrite Hnv in Hv.
    destruct (lookup_lt_is_Some_2 kept (N.to_nat v)) as [u Hu]; [lia|].
    assert (u ∈ kept) as Ku by (by eapply elem_of_list_lookup_2).
    apply Hk in Ku as (f & a & b & c & Ho & Hor).
    destruct (Hmap f a b c Ho) as (i & j & k & l & El & Ei & Ej & Ek & Ho').
    exists l, i, j, k. split; [done|].
    assert (∀ x, kept !! N.to_nat x = Some u → v = x) as Hinj.
    { intros x Hx. apply (inj N.to_nat). eapply (NoDup_lookup kept); [by apply sorted_NoDup|done|done]. }
    destruct Hor as [->|[->| ->]]; auto.
Qed.
End claims.

(** ** The hypotheses are met *)
Definition never : Z → Z → Z → Z → bool := λ _ _ _ _, false.

(** two triangles sharing the edge 1–2, a bow-tie at 0, a removed face and two
    unused vertices *)
Definition demo : list (op Z) :=
  [AddVertex 10%Z; AddVertex 11%Z; AddVertex 12%Z; AddVertex 13%Z; AddVertex 14%Z; AddVertex 15%Z;
   AddVertex 16%Z; AddVertex 17%Z;
   AddTriangle 0 1 2; AddTriangle 2 1 3; AddTriangle 3 1 6; AddTriangle 0 4 5; RemoveTriangle 2].
Definition dmesh : mesh Z := default mesh_new (exec_all never mesh_new demo).

Lemma dmesh_wf : WellFormed dmesh.
Proof.
  assert ((if exec_all never mesh_new demo then true else false) = true) as H by (vm_compute; reflexivity).
  apply (demo_wf never demo); [vm_compute; reflexivity|vm_compute; discriminate|]. unfold dmesh.
  destruct (exec_all never mesh_new demo); [done|discriminate].
Qed.

(** accepted, accepted with the other orientation, refused, accepted *)
Definition batch : list (N * N * N) := [(1, 0, 7); (2, 3, 7); (1, 2, 6); (7, 0, 5)].

Example C16_nonvacuous :
  lists_elements id ∧ WellFormed dmesh ∧ Forall (proper dmesh) batch ∧
  nhes dmesh + 6 * N.of_nat (length batch) ≤ umax ∧ nfaces dmesh + N.of_nat (length batch) ≤ umax ∧
  (snd <$> add_each dmesh batch) = Some [4; 5; umax; 6] ∧
  (snd <$> add_triangles_deferred id dmesh batch) = Some [4; 5; 6].
Proof.
  split; [done|]. split; [apply dmesh_wf|]. split.
  { apply Forall_forall. intros t Ht.
    assert (nverts dmesh = 8) as E by (vm_compute; reflexivity). unfold proper. rewrite E.
    repeat (apply elem_of_cons in Ht as [->|Ht]; [cbn; lia|]). clear E. destruct (not_elem_of_nil t Ht). }
  split; [vm_compute; discriminate|]. split; [vm_compute; discriminate|].
  split; vm_compute; reflexivity.
Qed.

(** a repeated id, an id already removed, an id out of range, and two adjacent
    faces removed together *)
Lemma range_ok {A} (m : mesh A) :
  forallb (λ h, match hes m !! h with Some x => htwin x <? nhes m | None => true end) (range (nhes m)) = true →
  (∀ h, is_Some (hes m !! h) → h < nhes m) → twins_in_range m.
Proof.
  intros H Hb h x Hx. rewrite forallb_forall in H. specialize (H h).
  rewrite Hx, N.ltb_lt in H. apply H, elem_of_list_In, range_spec, Hb. eauto.
Qed.
Example C17_nonvacuous :
  WellFormed dmesh ∧ twins_in_range dmesh ∧
  ((λ r, (corners r.1.1 0, corners r.1.1 1, corners r.1.1 3, r.2)) <$>
    remove_triangles_deferred true dmesh [1; 0; 1; 2; 99]) =
  Some (None, None, Some (0, 4, 5), [2; 1; 3; 0; 1; 2]).
Proof.
  split; [apply dmesh_wf|]. split; [|vm_compute; reflexivity].
  apply range_ok; [vm_compute; reflexivity|]. intros h. apply (wfs_hes _ dmesh_wf).
Qed.

Example C19_nonvacuous :
  WellFormed dmesh ∧ 6 * nfaces dmesh ≤ umax ∧
  ((λ r, (nverts r, nfaces r, corners r 2, vpos <$> verts r !! 5)) <$> remove_unused_vertices dmesh) =
  Some (6, 3, Some (0, 4, 5), Some 15%Z) ∧ nverts dmesh = 8 ∧ nfaces dmesh = 4.
Proof.
  split; [apply dmesh_wf|]. split; [vm_compute; discriminate|].
  split; [vm_compute; reflexivity|]. split; vm_compute; reflexivity.
Qed.

(** C79 is false: rewrite_faces_from_cdt_batch drops the seeds and the vertices
    that the deferred removal returns, so what the new triangles do not touch is
    never repaired. Here face 0 of the tetrahedron 0123 is rewritten by an empty
    triangulation, or by a triangle that shares only a corner with it. *)
Definition tetra : list (op Z) :=
  [AddVertex 10%Z; AddVertex 11%Z; AddVertex 12%Z; AddVertex 13%Z; AddVertex 14%Z; AddVertex 15%Z;
   AddTriangle 0 1 2; AddTriangle 1 0 3; AddTriangle 2 1 3; AddTriangle 0 2 3].
Definition tmesh : mesh Z := default mesh_new (exec_all never mesh_new tetra).

Lemma tmesh_wf : WellFormed tmesh.
Proof.
  assert ((if exec_all never mesh_new tetra then true else false) = true) as H by (vm_compute; reflexivity).
  apply (demo_wf never tetra); [vm_compute; reflexivity|vm_compute; discriminate|]. unfold tmesh.
  destruct (exec_all never mesh_new tetra); [done|discriminate].
Qed.

(** a live half-edge without a face that is its own successor *)
Definition loopb (m : mesh Z) (h : N) : bool :=
  match hes m !! h with
  | Some x => negb (hrem x) && is_none (hface x) && (hnext x =? h)
  | None => false
  end.
Lemma loop_not_wf (m : mesh Z) h : loopb m h = true → ¬ WellFormed m.
Proof.
  unfold loopb. destruct (hes m !! h) as [x|] eqn:E; [|done].
  rewrite !andb_true_iff, negb_true_iff, N.eqb_eq. intros [[Hr Hf] Hn] HW%WF_iff.
  assert (L m h) as HL by (apply L_spec; eauto).
  assert (x = he m h) as -> by (unfold he; by rewrite E).
  fold (nx m h) in Hn. assert (fc m h = None) as Hf' by (unfold fc; by destruct (hface (he m h))).
  pose proof (wf_si _ HW) as HS.
  destruct (wf_bi _ HW h HL Hf') as (Hfan&_). rewrite Hn in Hfan.
  destruct (fan_end m HS h h HL Hf' Hfan) as (_&_&Ht).
  destruct (si_tw _ _ HS h HL) as (_&_&Hne). unfold tl in Ht. congruence.
Qed.

Theorem C79_rewrite_faces_refuted :
  ∃ (m : mesh Z) jobs cdts m', WellFormed m ∧ (∀ t, t ∈ cdts → t ≠ []) ∧
    rewrite_faces_from_cdt_batch id true m jobs cdts = Some m' ∧ ¬ WellFormed m'.
Proof.
  exists tmesh, [(0, [0; 1; 2; 4; 5])], [[(0, 3, 4)%nat]].
  assert ((match rewrite_faces_from_cdt_batch id true tmesh [(0, [0; 1; 2; 4; 5])] [[(0, 3, 4)%nat]] with
           | Some m' => existsb (loopb m') (range (nhes m'))
           | None => false end) = true) as H by (vm_compute; reflexivity).
  destruct (rewrite_faces_from_cdt_batch id true tmesh _ _) as [m'|]; [|discriminate].
  exists m'. split; [apply tmesh_wf|]. split; [|split; [done|]].
  - intros t Ht%elem_of_list_singleton. by subst.
  - apply existsb_exists in H as (h&_&H). by apply (loop_not_wf m' h).
Qed.

Theorem C79_rewrite_faces_by_nothing_refuted :
  ∃ (m : mesh Z) f vs m', WellFormed m ∧
    rewrite_faces_from_cdt_batch id true m [(f, vs)] [[]] = Some m' ∧ ¬ WellFormed m'.
Proof.
  exists tmesh, 0, [0; 1; 2].
  assert ((match rewrite_faces_from_cdt_batch id true tmesh [(0, [0; 1; 2])] [[]] with
           | Some m' => existsb (loopb m') (range (nhes m'))
           | None => false end) = true) as H by (vm_compute; reflexivity).
  destruct (rewrite_faces_from_cdt_batch id true tmesh _ _) as [m'|]; [|discriminate].
  exists m'. split; [apply tmesh_wf|]. split; [done|].
  apply existsb_exists in H as (h&_&H). by apply (loop_not_wf m' h).
Qed.

Print Assumptions C16_add_deferred_is_one_by_one.
Print Assumptions C17_remove_deferred_exact.
Print Assumptions C19_remove_unused_vertices.
Print Assumptions C79_rewrite_faces_refuted.
Print Assumptions C79_rewrite_faces_by_nothing_refuted.
