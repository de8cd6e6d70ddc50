(** Properties C98 to C102: the clean-up functions, and the result of a Boolean
    operation from the classification of the faces.
    Vocabulary: the models MeshCleanModel and BoolModel, the specifications MeshSpec
    and BoolSpec. *)
From Verif Require Import BoolAsm MeshDemo.
From Verif Require Import MeshHistSpec MeshBase MeshInv MeshWF.
Local Open Scope N_scope.

Section claims.
Context {P K : Type} `{Countable K}.
Variable key : P → option K.
Variable eqb : P → P → bool.
Variable order : ∀ A : Type, list A → list A.
Variable same : P → P → Prop.
Implicit Types (m a b : mesh P) (f v : N).

(** C98: [live] lists the live faces in increasing order; the [i]-th one becomes face
    [i], and nothing else changes. *)
Theorem C98_remove_invalidated_faces m : WellFormed m → ∃ m' live,
  remove_invalidated_faces m = Some m' ∧ WellFormed m' ∧
  StronglySorted N.lt live ∧ (∀ f, f ∈ live ↔ live_face m f) ∧
  nfaces m' = N.of_nat (length live) ∧ (∀ f, f < nfaces m' → live_face m' f) ∧
  (∀ i u v w, oriented_face m' i u v w ↔ ∃ f, live !! N.to_nat i = Some f ∧ oriented_face m f u v w) ∧
  same_positions m m' ∧ emap m' = emap m.
Proof.
  intros HW%WF_iff. destruct (remove_invalidated_faces_ok m HW) as (m' & l & E & Sl & Hl & [W NF LV FC PS [_ EM]]).
  exists m', l. split_and!; try done; try apply PS. by apply WF_iff.
Qed.

(** C99: [o] sends a vertex to its copy. No two vertices of the result have the same
    position, every vertex of the result was one, every face has the copies of its
    corners, and the edge map has the copies of the edges. *)
Theorem C99_remove_duplicate_vertices m : Lawful key eqb order same → WellFormed m → ∃ m' n o,
  remove_duplicate_vertices key eqb order m = Some (m', n) ∧ nverts m = nverts m' + n ∧
  (∀ v p, vpos <$> verts m !! v = Some p → ∃ q, vpos <$> verts m' !! o v = Some q ∧ same p q) ∧
  (∀ w, w < nverts m' → ∃ v, v < nverts m ∧ o v = w ∧ vpos <$> verts m' !! w = vpos <$> verts m !! v) ∧
  (∀ u v p q, vpos <$> verts m' !! u = Some p → vpos <$> verts m' !! v = Some q → same p q → u = v) ∧
  (∀ f, live_face m' f ↔ live_face m f) ∧
  (∀ f u v w, oriented_face m f u v w → face_vertices m' f = Some (o u, o v, o w)) ∧
  (∀ u' v' h, emap m' !! (u', v') = Some h → ∃ u v, runs m h u v ∧ o u = u' ∧ o v = v') ∧
  (∀ u v, registered m u v → o u ≠ o v → is_Some (emap m' !! (o u, o v))).
Proof.
  intros LW HW%WF_iff. destruct (remove_duplicate_vertices_ok key eqb order same LW m (si_vb _ _ (wf_si _ HW))) as (m'&n&o&E&En&HM).
  exists m', n, o. split_and!; try done; try apply HM.
  - intros f. unfold live_face. by rewrite (proj1 (mg_faces _ _ _ _ HM)).
  - intros f u v w. by apply (merged_vertices same m).
  - intros a' b' h Hh. destruct (mg_emap _ _ _ _ HM a' b' h Hh) as (u&v&Hu&?). exists u, v. split; [|done].
    apply WF_iff in HW. by apply (wfs_emap _ HW).
  - intros u v [h Hh] Hne. apply (mg_emap' _ _ _ _ HM u v h); [|..|done].
    + apply WF_iff in HW. by apply (wfs_emap _ HW).
    + destruct Hh as (x&y&_&Hy&<-&_). apply WF_iff in HW. by eapply (wfs_head _ HW).
    + destruct Hh as (x&y&Hx&_&_&<-). apply WF_iff in HW. by eapply (wfs_head _ HW).
Qed.

(** The triangles of a result: those of [a] outside of [b] (inside for an
    intersection), then those of [b] outside of [a] (inside for an intersection; inside
    and reversed for a difference). [cls_a] and [cls_b] say which faces are inside. *)
Definition result_triangles (op : bop) a b (cls_a cls_b : list bool) (S : list (P * P * P)) : Prop :=
  match op with
  | OpUnion => ∃ Sa Sb, picked a cls_a false Sa ∧ picked b cls_b false Sb ∧ S = Sa ++ Sb
  | OpIntersection => ∃ Sa Sb, picked a cls_a true Sa ∧ picked b cls_b true Sb ∧ S = Sa ++ Sb
  | OpDifference => ∃ Sa Sb, picked a cls_a false Sa ∧ picked b cls_b true Sb ∧ S = Sa ++ (rev3 <$> Sb)
  end.

Lemma chosen_unique m want cls fs fs' : chosen m want 0 cls fs →
  StronglySorted N.lt fs' → (∀ f, f ∈ fs' ↔ live_face m f ∧ cls !! N.to_nat f = Some want) → fs = fs'.
Proof.
  intros [Hs Hc] Hs' Hc'. apply sorted_unique; try done. intros f. rewrite Hc, Hc', N.sub_0_r. split; [tauto|]. intros [? ?]. split_and!; try done. lia.
Qed.

Lemma placed_of m ps fs ts S : WF m → posns m ps → Forall2 (λ g t, oriented_face m g t.1.1 t.1.2 t.2) fs ts →
  Forall2 (tri_at m) fs S → Forall2 (placed ps) ts S.
Proof.
  intros HW [_ Hp] H1 H2. apply Forall2_same_length_lookup.
  split; [by rewrite <- (Forall2_length _ _ _ H1), (Forall2_length _ _ _ H2)|].
  intros i t s Ht Hs. destruct (Forall2_lookup_r _ _ _ _ _ H1 Ht) as (f&Hf&Ho), (Forall2_lookup_r _ _ _ _ _ H2 Hs) as (f'&Hf'&(u&v&w&Ho'&Hu&Hv&Hw)).
  rewrite Hf in Hf'. injection Hf' as <-. unfold placed.
  destruct (oriented_fun m f _ _ _ _ _ _ (wf_si _ HW) Ho Ho') as (->&->&->). by rewrite !Hp, !N2Nat.id.
Qed.

Lemma result_ok op a b cls_a cls_b S : Lawful key eqb order same → WF a → WF b →
  N.of_nat (length cls_a) = nfaces a → N.of_nat (length cls_b) = nfaces b →
  nverts a + nverts b ≤ umax → 6 * (nfaces a + nfaces b) ≤ umax → result_triangles op a b cls_a cls_b S →
  ∃ res ps ts, assemble op a b cls_a cls_b = Some res ∧ Built res ps ts ∧ Forall2 (placed ps) ts S ∧ 6 * N.of_nat (length ts) ≤ umax.
Proof.
  intros LW HA HB La Lb Hv Hf HS.
  destruct (assemble_ok op a b cls_a cls_b HA HB La Lb Hv Hf) as (res&pa&pb&fsa&fsb&tsa&tsb&E&Pa&Pb&Ca&Cb&Fa&Fb&HB').
  exists res, (pa ++ pb), (joined op (nverts a) tsa tsb). split; [done|]. split; [done|].
  assert (∃ Sa Sb, picked a cls_a (want_a op) Sa ∧ picked b cls_b (want_b op) Sb ∧ S = Sa ++ ((λ s, rev_if (flip_b op) s) <$> Sb)) as (Sa&Sb&HSa&HSb&->).
  { destruct op; destruct HS as (Sa&Sb&?&?&->); exists Sa, Sb; cbn; rewrite ?list_fmap_id; done. }
  destruct HSa as (fa&Sfa&Hfa&Ta), HSb as (fb&Sfb&Hfb&Tb).
  pose proof (chosen_unique _ _ _ _ _ Ca Sfa Hfa) as ->. pose proof (chosen_unique _ _ _ _ _ Cb Sfb Hfb) as ->.
  pose proof (placed_of a pa fa tsa Sa HA Pa Fa Ta) as Qa. pose proof (placed_of b pb fb tsb Sb HB Pb Fb Tb) as Qb.
  assert (Forall2 (placed (pa ++ pb)) (joined op (nverts a) tsa tsb) (Sa ++ ((λ s, rev_if (flip_b op) s) <$> Sb))) as HQ.
  { unfold joined. apply Forall2_app.
    - eapply Forall2_impl; [exact Qa|]. intros t s (?&?&?). unfold placed. split_and!; by apply lookup_app_l_Some.
    - apply Forall2_fmap. eapply Forall2_impl; [exact Qb|]. intros [[u v] w] [[p q] r] (Hp&Hq&Hr). cbn in Hp, Hq, Hr.
      assert (∀ x y, pb !! N.to_nat x = Some y → (pa ++ pb) !! N.to_nat (nverts a + x) = Some y) as Hsh.
      { intros x y Hx. destruct Pa as [Pl _]. rewrite lookup_app_r; [|lia]. by replace (N.to_nat (nverts a + x) - length pa)%nat with (N.to_nat x) by lia. }
      destruct (flip_b op); unfold placed; cbn; split_and!; by apply Hsh. }
  split; [done|]. pose proof (bl_nf _ _ _ HB') as Hnf.
  assert (∀ m (cls : list bool) (want : bool) fs, WF m → (∀ f, f ∈ fs ↔ live_face m f ∧ cls !! N.to_nat f = Some want) → StronglySorted N.lt fs → N.of_nat (length fs) ≤ nfaces m) as Hcl.
  { intros m cls want fs Hm Ci Cs. assert (length fs ≤ N.to_nat (nfaces m))%nat; [|lia].
    rewrite <- range_length. apply submseteq_length, NoDup_submseteq; [by apply sorted_NoDup|].
    intros g (Hg&_)%Ci. apply range_spec, (si_fb _ _ (wf_si _ Hm)). destruct Hg as (x&?&_). eauto. }
  unfold joined. rewrite app_length, fmap_length. pose proof (Hcl a _ _ _ HA Hfa Sfa). pose proof (Hcl b _ _ _ HB Hfb Sfb).
  rewrite <- (Forall2_length _ _ _ Fa), <- (Forall2_length _ _ _ Fb). lia.
Qed.

(** C100: when the chosen triangles [S] do not clash, the result is exactly these
    triangles, in order, on vertices with different positions, all used. *)
Theorem C100_boolean_result op a b cls_a cls_b S : Lawful key eqb order same → WellFormed a → WellFormed b →
  N.of_nat (length cls_a) = nfaces a → N.of_nat (length cls_b) = nfaces b →
  nverts a + nverts b ≤ umax → 6 * (nfaces a + nfaces b) ≤ umax →
  result_triangles op a b cls_a cls_b S → no_clash same S →
  ∃ m, boolean_result key eqb order op a b cls_a cls_b = Some m ∧ WellFormed m ∧
    nfaces m = N.of_nat (length S) ∧
    (∀ i t, S !! i = Some t → ∃ s, tri_at m (N.of_nat i) s ∧ same3 same t s) ∧
    (∀ u v p q, vpos <$> verts m !! u = Some p → vpos <$> verts m !! v = Some q → same p q → u = v) ∧
    (∀ v, v < nverts m → ∃ f x y z, oriented_face m f x y z ∧ (v = x ∨ v = y ∨ v = z)).
Proof.
  intros LW HA%WF_iff HB%WF_iff La Lb Hv Hf HS HN.
  destruct (result_ok op a b cls_a cls_b S LW HA HB La Lb Hv Hf HS) as (res&ps&ts&E&HBt&H2&Hn).
  destruct (finish_ok key eqb order same LW res ps ts S HBt H2 Hn) as (m&E'&W%WF_iff&_&_&Hd&_&Hex).
  destruct (Hex HN) as (?&?&?). exists m. unfold boolean_result. rewrite E. cbn. done.
Qed.

(** C101: in all cases the result is a well-formed mesh on vertices with different
    positions, and each of its faces is one of the chosen triangles, possibly
    reversed. *)
Theorem C101_boolean_result_well_formed op a b cls_a cls_b S : Lawful key eqb order same → WellFormed a → WellFormed b →
  N.of_nat (length cls_a) = nfaces a → N.of_nat (length cls_b) = nfaces b →
  nverts a + nverts b ≤ umax → 6 * (nfaces a + nfaces b) ≤ umax →
  result_triangles op a b cls_a cls_b S →
  ∃ m, boolean_result key eqb order op a b cls_a cls_b = Some m ∧ WellFormed m ∧
    nfaces m ≤ N.of_nat (length S) ∧ (∀ f, f < nfaces m → live_face m f) ∧
    (∀ u v p q, vpos <$> verts m !! u = Some p → vpos <$> verts m !! v = Some q → same p q → u = v) ∧
    (∀ f s, tri_at m f s → ∃ t s', t ∈ S ∧ same3 same t s' ∧ (s = s' ∨ s = (s'.1.1, s'.2, s'.1.2))).
Proof.
  intros LW HA%WF_iff HB%WF_iff La Lb Hv Hf HS.
  destruct (result_ok op a b cls_a cls_b S LW HA HB La Lb Hv Hf HS) as (res&ps&ts&E&HBt&H2&Hn).
  destruct (finish_ok key eqb order same LW res ps ts S HBt H2 Hn) as (m&E'&W%WF_iff&HL&Hle&Hd&Hsd&_).
  exists m. unfold boolean_result. rewrite E. cbn. done.
Qed.

(** C102: when, moreover, every chosen side is met by a chosen side in the opposite
    direction, the result has no border. *)
Theorem C102_boolean_result_closed op a b cls_a cls_b S m : Lawful key eqb order same → WellFormed a → WellFormed b →
  N.of_nat (length cls_a) = nfaces a → N.of_nat (length cls_b) = nfaces b →
  nverts a + nverts b ≤ umax → 6 * (nfaces a + nfaces b) ≤ umax →
  result_triangles op a b cls_a cls_b S → no_clash same S →
  (∀ e, e ∈ all_sides S → ∃ e', e' ∈ all_sides S ∧ same e.1 e'.2 ∧ same e.2 e'.1) →
  boolean_result key eqb order op a b cls_a cls_b = Some m →
  (∀ h x, live_he m h x → hface x ≠ None) ∧ ∀ u v, side_used m u v → side_used m v u.
Proof.
  intros LW HA HB La Lb Hv Hf HS HN Hop E.
  destruct (C100_boolean_result op a b cls_a cls_b S LW HA HB La Lb Hv Hf HS HN) as (m'&E'&W&Hnf&Htr&Hd&_).
  rewrite E in E'. injection E' as <-. apply WF_iff in W.
  (* sides of the mesh and sides of the list *)
  assert (∀ e, e ∈ all_sides S → ∃ u v p q, side_used m u v ∧ vpos <$> verts m !! u = Some p ∧ vpos <$> verts m !! v = Some q ∧ same e.1 p ∧ same e.2 q) as Hto.
  { intros e (t&(i&Hi)%elem_of_list_lookup&He)%elem_all_sides. destruct (Htr _ _ Hi) as (s&(u&v&w&Ho&Hu&Hvv&Hw)&H1&H2&H3).
    destruct t as [[t0 t1] t2], s as [[s0 s1] s2]. cbn in *. rewrite !elem_of_cons, elem_of_nil in He.
    destruct He as [->|[->|[->|[]]]]; cbn.
    - exists u, v, s0, s1. split_and!; try done. exists (N.of_nat i), w. by left.
    - exists v, w, s1, s2. split_and!; try done. exists (N.of_nat i), u. right; by right.
    - exists w, u, s2, s0. split_and!; try done. exists (N.of_nat i), v. right; by left. }
  assert (∀ u v, side_used m u v → ∃ e p q, e ∈ all_sides S ∧ vpos <$> verts m !! u = Some p ∧ vpos <$> verts m !! v = Some q ∧ same e.1 p ∧ same e.2 q) as Hfrom.
  { intros u v (f&w&Hc).
    assert (∃ x y z, oriented_face m f x y z ∧ (u, v) ∈ sides (x, y, z)) as (x&y&z&Ho&Hs).
    { destruct Hc as [Ho|[Ho|Ho]]; eexists _, _, _; (split; [exact Ho|]); cbn; rewrite !elem_of_cons; tauto. }
    assert (f < nfaces m) as Hlt. { apply (si_fb _ _ (wf_si _ W)). apply oriented_live in Ho as (k&?&_). eauto. }
    destruct (lookup_lt_is_Some_2 S (N.to_nat f)) as [t Ht]; [lia|].
    destruct (Htr _ _ Ht) as (s&(u'&v'&w'&Ho'&Hu&Hvv&Hw)&H1&H2&H3). rewrite N2Nat.id in Ho'.
    destruct (oriented_fun m f _ _ _ _ _ _ (wf_si _ W) Ho Ho') as (->&->&->). destruct t as [[t0 t1] t2], s as [[s0 s1] s2]. cbn in *.
    rewrite !elem_of_cons, elem_of_nil in Hs.
    assert (∀ e, e ∈ sides (t0, t1, t2) → e ∈ all_sides S) as Hin.
    { intros e He. apply elem_all_sides. exists (t0, t1, t2). split; [by eapply elem_of_list_lookup_2|done]. }
    destruct Hs as [[= -> ->]|[[= -> ->]|[[= -> ->]|[]]]]; [exists (t0, t1), s0, s1|exists (t1, t2), s1, s2|exists (t2, t0), s2, s0];
      (split; [apply Hin; cbn; rewrite !elem_of_cons; tauto|done]). }
  assert (∀ u v, side_used m u v → side_used m v u) as Hclosed.
  { intros u v (e&p&q&He&Hp&Hq&Sp&Sq)%Hfrom. destruct (Hop e He) as (e'&He'&H1&H2).
    destruct (Hto e' He') as (u'&v'&p'&q'&Hs&Hp'&Hq'&Sp'&Sq').
    assert (u' = v) as ->.
    { apply (Hd u' v p' q); try done. apply (lw_trans _ _ _ _ LW _ e'.1); [by apply (lw_sym _ _ _ _ LW)|].
      apply (lw_trans _ _ _ _ LW _ e.2); [by apply (lw_sym _ _ _ _ LW)|done]. }
    assert (v' = u) as ->.
    { apply (Hd v' u q' p); try done. apply (lw_trans _ _ _ _ LW _ e'.2); [by apply (lw_sym _ _ _ _ LW)|].
      apply (lw_trans _ _ _ _ LW _ e.1); [by apply (lw_sym _ _ _ _ LW)|done]. }
    done. }
  split; [|done]. intros h x Hx Hn. pose proof (proj1 (live_he_L m h x) Hx) as [HL Ex].
  assert (fc m h = None) as Hfc by (unfold fc; by rewrite Ex).
  pose proof (border_tw_In m (wf_si _ W) h HL Hfc) as [HLt Hft].
  destruct (fc m (tw m h)) as [f|] eqn:Ef; [|done].
  pose proof (cycle_face_side m f (tw m h) W HLt Ef) as Hw.
  assert (side_used m (tl m h) (hd m h)) as (g&w'&Hg).
  { apply Hclosed. eexists f, _. unfold tl in *. rewrite (tw_tw m (wf_si _ W)) in Hw by done. exact Hw. }
  destruct (cycle_face_inv m g _ _ _ (wf_si _ W) Hg) as (k&Hk1&Hk2&Hk3&Hk4&_).
  pose proof (wfs_emap _ (proj1 (WF_iff m) W)) as EM.
  assert (h = k) as ->; [|congruence].
  assert (runs m h (tl m h) (hd m h)) as R1%EM by (apply (runs_WF m); [apply wf_si, W|done]).
  assert (runs m k (tl m h) (hd m h)) as R2%EM by (apply (runs_WF m); [apply wf_si, W|done]). congruence.
Qed.
End claims.

(** ** The hypotheses are met *)
Definition zkey (p : Z) : option Z := Some (p / 10)%Z.
Definition anyorder (A : Type) (l : list A) : list A := reverse l.
Lemma zlaws : Lawful zkey Z.eqb anyorder eq.
Proof.
  split.
  - intros p q. apply Z.eqb_eq.
  - done.
  - done.
  - intros p q r -> ->. done.
  - intros p. unfold zkey. eauto.
  - intros p q ->. done.
  - intros A l. apply reverse_Permutation.
Qed.

(** two tetrahedra over a common triangle, with their own copies of its corners, and
    a removed face in the first one *)
Definition tet_a : list (op Z) :=
  [AddVertex 1%Z; AddVertex 2%Z; AddVertex 3%Z; AddVertex 4%Z; AddVertex 9%Z;
   AddTriangle 0 1 2; AddTriangle 0 4 1; RemoveTriangle 1; AddTriangle 1 0 3; AddTriangle 2 1 3; AddTriangle 0 2 3].
Definition tet_b : list (op Z) :=
  [AddVertex 3%Z; AddVertex 2%Z; AddVertex 1%Z; AddVertex 5%Z;
   AddTriangle 0 1 2; AddTriangle 1 0 3; AddTriangle 2 1 3; AddTriangle 0 2 3].
Definition never (_ _ _ _ : Z) : bool := false.
Definition mesh_of (ops : list (op Z)) : mesh Z := default mesh_new (exec_all never mesh_new ops).
Lemma mesh_of_wf ops : (if exec_all never mesh_new ops then true else false) = true →
  all_legalb never mesh_new ops = true → 8 * N.of_nat (length ops) ≤ umax → WellFormed (mesh_of ops).
Proof.
  intros E A B. apply (demo_wf never ops); [done|done|]. unfold mesh_of. destruct (exec_all never mesh_new ops); done.
Qed.
Definition tri_of (m : mesh Z) (f : N) : option (Z * Z * Z) :=
  t ← corners m f; p ← verts m !! t.1.1; q ← verts m !! t.1.2; r ← verts m !! t.2; Some (vpos p, vpos q, vpos r).
Lemma picked_compute m cls want S : WellFormed m →
  mapM (tri_of m) (filter (λ f, live_face m f ∧ cls !! N.to_nat f = Some want) (range (nfaces m))) = Some S →
  picked m cls want S.
Proof.
  intros HW%WF_iff E.
  exists (filter (λ f, live_face m f ∧ cls !! N.to_nat f = Some want) (range (nfaces m))).
  split; [apply filter_sorted, range_sorted|]. split.
  - intros f. rewrite elem_of_list_filter, range_spec. split; [by intros []|]. intros [Hf ?]. split; [done|].
    destruct Hf as (x&?&_). apply (si_fb _ _ (wf_si _ HW)). eauto.
  - apply mapM_Some in E. eapply Forall2_impl; [exact E|]. intros f s. unfold tri_of.
    destruct (corners m f) as [[[u v] w]|] eqn:Ec; [|done]. apply corners_ok in Ec; [|done]. cbn.
    destruct (verts m !! u) as [x|] eqn:Eu; [|done]. destruct (verts m !! v) as [y|] eqn:Ev; [|done].
    destruct (verts m !! w) as [z|] eqn:Ew; [|done]. cbn. intros [= <-]. exists u, v, w. cbn. by rewrite Eu, Ev, Ew.
Qed.
Lemma wf_a : WellFormed (mesh_of tet_a). Proof. apply mesh_of_wf; [vm_compute; reflexivity|vm_compute; reflexivity|vm_compute; discriminate]. Qed.
Lemma wf_b : WellFormed (mesh_of tet_b). Proof. apply mesh_of_wf; [vm_compute; reflexivity|vm_compute; reflexivity|vm_compute; discriminate]. Qed.

(** the common triangle is inside on both sides *)
Definition cls_a : list bool := [true; false; false; false; false].
Definition cls_b : list bool := [true; false; false; false].
Definition six : list (Z * Z * Z) :=
  ([(2, 1, 4); (3, 2, 4); (1, 3, 4)] ++ [(2, 3, 5); (1, 2, 5); (3, 1, 5)])%Z.
Lemma six_no_clash : no_clash eq six.
Proof.
  assert (NoDup (all_sides six)) as Hn. { apply (bool_decide_unpack _). vm_compute. exact I. }
  split.
  - intros i j [u v] [u' v'] Hi Hj. cbn. intros <- <-. by eapply NoDup_lookup.
  - assert (forallb (λ e, negb (Z.eqb e.1 e.2)) (all_sides six) = true) as Hd by (vm_compute; reflexivity).
    intros e He E. rewrite forallb_forall in Hd. specialize (Hd e). rewrite <- elem_of_list_In in Hd. specialize (Hd He).
    by rewrite E, Z.eqb_refl in Hd.
Qed.
Example C100_nonvacuous :
  Lawful zkey Z.eqb anyorder eq ∧ WellFormed (mesh_of tet_a) ∧ WellFormed (mesh_of tet_b) ∧
  N.of_nat (length cls_a) = nfaces (mesh_of tet_a) ∧ N.of_nat (length cls_b) = nfaces (mesh_of tet_b) ∧
  result_triangles OpUnion (mesh_of tet_a) (mesh_of tet_b) cls_a cls_b six ∧ no_clash eq six ∧
  (∀ e, e ∈ all_sides six → ∃ e', e' ∈ all_sides six ∧ e.1 = e'.2 ∧ e.2 = e'.1) ∧
  ((λ m, (nverts m, mapM (tri_of m) (range (nfaces m)))) <$>
     boolean_result zkey Z.eqb anyorder OpUnion (mesh_of tet_a) (mesh_of tet_b) cls_a cls_b) = Some (5, Some six).
Proof.
  split; [apply zlaws|]. split; [apply wf_a|]. split; [apply wf_b|].
  split; [vm_compute; reflexivity|]. split; [vm_compute; reflexivity|]. split.
  { eexists _, _. split; [|split; [|reflexivity]].
    - apply picked_compute; [apply wf_a|vm_compute; reflexivity].
    - apply picked_compute; [apply wf_b|vm_compute; reflexivity]. }
  split; [apply six_no_clash|]. split; [|vm_compute; reflexivity].
  intros e He.
  assert (forallb (λ e, bool_decide ((e.2, e.1) ∈ all_sides six)) (all_sides six) = true) as Hd by (vm_compute; reflexivity).
  rewrite forallb_forall in Hd. specialize (Hd e). rewrite <- elem_of_list_In in Hd. specialize (Hd He).
  apply bool_decide_eq_true in Hd. exists (e.2, e.1). done.
Qed.

(** C98, C99: a removed face goes, the two copies of each corner become one *)
Example C98_nonvacuous : WellFormed (mesh_of tet_a) ∧ ¬ live_face (mesh_of tet_a) 1 ∧
  ((λ m, (nfaces m, corners m 1, corners m 3)) <$> remove_invalidated_faces (mesh_of tet_a)) =
  Some (4, Some (1, 0, 3), Some (0, 2, 3)).
Proof.
  split; [apply wf_a|]. split; [|vm_compute; reflexivity].
  assert (bool_decide (live_face (mesh_of tet_a) 1) = false) as E by (vm_compute; reflexivity).
  by apply bool_decide_eq_false in E.
Qed.

(** a triangle, and another one over the opposite side with its own vertices *)
Definition flaps : list (op Z) :=
  [AddVertex 1%Z; AddVertex 2%Z; AddVertex 3%Z; AddVertex 2%Z; AddVertex 1%Z; AddVertex 4%Z;
   AddTriangle 0 1 2; AddTriangle 3 4 5].
Lemma wf_flaps : WellFormed (mesh_of flaps). Proof. apply mesh_of_wf; [vm_compute; reflexivity|vm_compute; reflexivity|vm_compute; discriminate]. Qed.
Example C99_nonvacuous : Lawful zkey Z.eqb anyorder eq ∧ WellFormed (mesh_of flaps) ∧
  ((λ r, (r.2, nverts r.1, face_vertices r.1 0, face_vertices r.1 1, vpos <$> verts r.1 !! 3)) <$>
    remove_duplicate_vertices zkey Z.eqb anyorder (mesh_of flaps)) =
  Some (2, 4, Some (0, 1, 2), Some (1, 0, 3), Some 4%Z).
Proof. split; [apply zlaws|]. split; [apply wf_flaps|]. vm_compute. reflexivity. Qed.

(** The two triangles of [flaps] now share a side, but their half-edges still have
    their old border twins: the mesh is no longer well formed. *)
Theorem C99_borders_not_welded_refuted : ∃ m m' n, WellFormed m ∧
  remove_duplicate_vertices zkey Z.eqb anyorder m = Some (m', n) ∧ ¬ WellFormed m'.
Proof.
  pose (r := remove_duplicate_vertices zkey Z.eqb anyorder (mesh_of flaps)).
  assert (match r with Some (m', _) =>
     bool_decide ((λ h, (x ← hes m' !! h; y ← hes m' !! htwin x; Some (hrem x, hrem y, hv y, hv x))) <$> [1; 6] =
                  [Some (false, false, 1, 0); Some (false, false, 1, 0)]) | None => false end = true) as E by (vm_compute; reflexivity).
  exists (mesh_of flaps). fold r. destruct r as [[m' n]|]; [|done]. exists m', n. split; [apply wf_flaps|]. split; [done|].
  apply bool_decide_eq_true in E. intros W.
  assert (∀ h, (x ← hes m' !! h; y ← hes m' !! htwin x; Some (hrem x, hrem y, hv y, hv x)) = Some (false, false, 1, 0) → runs m' h 1 0) as Hr.
  { intros h. destruct (hes m' !! h) as [x|] eqn:Ex; [|done]. cbn. destruct (hes m' !! htwin x) as [y|] eqn:Ey; [|done].
    cbn. intros [= ? ? ? ?]. exists x, y. done. }
  cbn in E. injection E as E1 E2. apply Hr, (wfs_emap _ W) in E1, E2. congruence.
Qed.

Print Assumptions C98_remove_invalidated_faces.
Print Assumptions C99_remove_duplicate_vertices.
Print Assumptions C100_boolean_result.
Print Assumptions C101_boolean_result_well_formed.
Print Assumptions C102_boolean_result_closed.
Print Assumptions C99_borders_not_welded_refuted.
