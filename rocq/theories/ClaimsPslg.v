(** Properties C115 to C117: the triangulation jobs made from intersection segments.
    Vocabulary: the model BoolPslgModel and the specifications MeshSpec, MeshQuerySpec,
    RaySpec, BoolCutSpec, BoolAllocSpec, BoolPslgSpec. *)
From Coq Require Import QArith Qabs.
From Verif Require Import MeshDemo ClaimsMeshRemesh ClaimsMeshCollapse MeshHistSpec BoolCut BoolAlloc MeshWF ClaimsRay ClaimsCut ClaimsAlloc BoolPslg BoolPslgChain.
From Verif Require ClaimsTriTri AllocKey.
From Verif Require Import BoolCutSpec BoolAllocSpec BoolPslgSpec.
Local Open Scope N_scope.
Implicit Types (m : mesh p3) (l : list (gseg p3)) (j : fjob).

(** C115: whatever the order in which the hash maps are walked, the construction does not
    panic and makes exactly one job for each live face in which a segment in use ends. The
    job has the corners of the face, then the ends on it, each once and with its weights in
    the face; its segments have two different ends and none of them occurs twice. *)
Theorem C115_jobs (order : ∀ A, list A → list A) m l : (∀ A k, order A k ≡ₚ k) →
  WellFormed m → nverts m ≤ umax → segs_in m l → faces_thick m l →
  ∃ js, build_face_pslgs_3 order m l = Some js ∧ NoDup (map j_face js) ∧
    (∀ f, f ∈ map j_face js ↔ live_face m f ∧ touched l f) ∧ ∀ j, j ∈ js → job_shape m l j.
Proof.
  intros Hord HW HU Hl Ht. destruct (jobs_made order Hord m HW HU l Hl Ht) as (js&E&N1&N2&N3).
  exists js. split; [done|]. split; [done|]. split; [done|]. intros j Hj.
  destruct (proj1 (N2 (j_face j)) (elem_of_list_fmap_1 j_face _ _ Hj)) as [H1 H2].
  exact (made_shape m HW HU l j Hl H1 H2 (N3 j Hj)).
Qed.
Print Assumptions C115_jobs.

(** C116: if the vertices lie on the faces for which they are named, the points of a job
    are in its triangle; each side of the triangle is a chain of segments through all the
    points on it, in order; a segment of the mesh between two points other than corners is
    such a chain, or its ends are close together, or a corner is close to it; each segment
    of the job is close to a side or to such a line, and to a side if it ends in a corner. *)
Theorem C116_chains (order : ∀ A, list A → list A) m l js j : (∀ A k, order A k ≡ₚ k) →
  WellFormed m → nverts m ≤ umax → segs_in m l → faces_thick m l → placed m l →
  build_face_pslgs_3 order m l = Some js → j ∈ js →
  (∀ n z, j_uv j !! n = Some z → in_unit z) ∧
  (∀ i k, outer i k → chain j i k) ∧
  (∀ i k x y, asked l j i k → (3 ≤ i)%nat → (3 ≤ k)%nat → j_uv j !! i = Some x → j_uv j !! k = Some y →
     chain j i k ∨ close_uv loose x y ∨ ∃ c z, (c < 3)%nat ∧ j_uv j !! c = Some z ∧ on_uv loose x y z) ∧
  (∀ e, e ∈ j_segs j → ∃ i k, (outer i k ∨ asked l j i k) ∧ near_line j i k e) ∧
  (∀ e, e ∈ j_segs j → (e.1 < 3 ∨ e.2 < 3)%nat → ∃ i k, outer i k ∧ near_line j i k e).
Proof.
  intros Hord HW HU Hl Ht Hp E Hj. destruct (jobs_made order Hord m HW HU l Hl Ht) as (js'&E'&_&_&N3).
  rewrite E in E'. injection E' as <-. destruct (N3 j Hj) as (prs&ia&ib&ic&p&q&r&st&s0&s1&s2&c0&c1&c2&ss&Ho&Pa&Pb&Pc&T&Hprs&J&Ev&Eu&Es).
  split. { intros n z Hz. rewrite Eu in Hz. eapply points_unit; eassumption. }
  split. { eapply sides_ok; eassumption. }
  split. { intros i k x y Ha Hi Hk Hx Hy. assert (close_uv loose x y ∨ (∃ c z, (c < 3)%nat ∧ j_uv j !! c = Some z ∧ on_uv loose x y z) ∨ chain j i k) as X by (eapply asked_ok; eassumption). tauto. }
  split; intros e He. { eapply seg_near; eassumption. } intros Hc. eapply corner_seg; eassumption.
Qed.
Print Assumptions C116_chains.

(** C115: after a search on operands in general position and the allocation of vertices,
    the conditions are met, whichever segments have been put out of use. *)
Definition all_thick m : Prop := ∀ f (p q r : p3), corners_at m f p q r → thick p q r.
Definition fans m : Prop := ∀ v, v < nverts m → one_fan m v.
Lemma grown_runs m l m' h v w : grown rat_hit m l m' → runs m' h v w ↔ runs m h v w.
Proof. intros [[Eh _] _ _ _ _]. unfold runs, live_he. by rewrite Eh. Qed.
Lemma grown_fan m l m' v : WellFormed m → grown rat_hit m l m' → fans m → one_fan m' v.
Proof.
  intros HW HG HF h h' w w' R1 R2. pose proof HG as [[Eh _] _ _ _ _].
  apply (grown_runs m l m') in R1, R2; [|done..]. assert (v < nverts m) as Hv.
  { destruct R1 as (x&y&_&Hy&<-&_). by eapply (wfs_head _ HW). }
  specialize (HF v Hv h h' w w' R1 R2). unfold same_fan, next_spoke, live_he in *. by rewrite Eh.
Qed.
Lemma grown_oriented m l m' f a b c : grown rat_hit m l m' → oriented_face m' f a b c ↔ oriented_face m f a b c.
Proof. intros [[Eh _] [Ef _] _ _ _]. unfold oriented_face, runs, live_he. by rewrite Eh, Ef. Qed.
Lemma oriented_verts m f a b c : WellFormed m → oriented_face m f a b c → a < nverts m ∧ b < nverts m ∧ c < nverts m.
Proof.
  intros HW (e0&e1&e2&x0&x1&x2&_&_&_&_&_&_&_&_&_&_&_&_&_&R1&R2&R3).
  assert (∀ h u v, runs m h u v → u < nverts m) as X. { intros h u v (x&y&_&Hy&<-&_). by eapply (wfs_head _ HW). }
  split; [|split]; by eapply X.
Qed.
Lemma grown_corners m l m' f p q r : WellFormed m → grown rat_hit m l m' → corners_at m' f p q r ↔ corners_at m f p q r.
Proof.
  intros HW HG. assert (∀ i x, i < nverts m → position m' i x ↔ position m i x) as X.
  { intros i x Hi. destruct HG as [_ _ _ [_ Hv] _]. unfold position. by rewrite Hv. }
  split; intros (i&j&k&Ho&A&B&C).
  - apply (grown_oriented m l) in Ho; [|done]. destruct (oriented_verts m f i j k HW Ho) as (Hi&Hj&Hk). exists i, j, k. rewrite <- !X by done. done.
  - destruct (oriented_verts m f i j k HW Ho) as (Hi&Hj&Hk). exists i, j, k. rewrite !X, (grown_oriented m l m') by done. done.
Qed.
(** the segments and their hints name faces of the mesh *)
Definition names_faces m l : Prop := ∀ s, s ∈ l → g_inv s = false → g_face s < nfaces m ∧ ∀ f, beside (g_a s) f ∨ beside (g_b s) f → f < nfaces m.
Lemma beside_after face h h' v f : h' = mkHints (Some (v, umax)) None None (faces_after face h) None → beside h' f → f = face ∨ beside h f.
Proof.
  intros -> [Hu (g&Hg)]. unfold faces_after in Hg. cbn in Hg. unfold beside.
  destruct (h_faces h) as [fs|]; [right; eauto|left]. destruct Hg as [Hg|Hg]; congruence.
Qed.
Theorem C115_after_allocation m l m' l' : WellFormed m → ends_ok m l → nverts m + 4 * N.of_nat (length l) < umax →
  names_faces m l → fans m → all_thick m → allocate m l = Some (m', l') →
  WellFormed m' ∧ nverts m' ≤ umax ∧ segs_in m' l' ∧ faces_thick m' l'.
Proof.
  intros HW OK Hn HN HF HT E. destruct (C113_allocation m l HW OK Hn) as (m1&l1&E1&HW'&HG&HA). rewrite E in E1. injection E1 as <- <-.
  split; [done|]. split; [apply (wfs_size _ HW')|]. split.
  2:{ intros f p q r _ Hc. apply (grown_corners m l) in Hc; [|done..]. by eapply HT. }
  intros t Ht Hi. apply elem_of_list_lookup in Ht as [n Hn']. destruct (Forall2_lookup_r _ _ _ _ _ HA Hn') as (s&Hs&A1&A2&A3&A4&A5&A6).
  apply elem_of_list_lookup_2 in Hs. rewrite A5 in Hi. rewrite Hi in A6. destruct A6 as (v&w&Ev&Ew&[Gv Hv]&[Gw Hw]).
  assert (∀ h p v, end_of l h p → gets point_key rat_hit m' l h p v → v < nverts m') as Hb.
  { intros h p i He (G1&G2&G3).
    assert (∀ i, vertex_with_key point_key l (point_key p) i → i < nverts m') as Hk.
    { intros i' (h'&q&He'&Hi'&_). destruct HG as [_ _ _ [Hle _] _]. destruct (OK h' q He') as [(i2&Hi2&Hlt)|[(?&?&?&?&?&?&Eh&_)|(?&(?&Eh)&_)]].
      - unfold at_vertex in *. rewrite Hi' in Hi2. injection Hi2 as ->. lia.
      - unfold at_vertex in Hi'. congruence.
      - unfold at_vertex in Hi'. congruence. }
    assert (∀ i q, answers rat_hit m' i q → i < nverts m') as Hq. { intros i' q (x&Hx&_). apply (wfs_verts _ HW'). eauto. }
    destruct (OK h p He) as [(i2&Hi2&_)|[(?&?&?&?&?&?&Eh&_)|(f&Hf&_)]].
    - apply Hk, G1. eauto.
    - destruct G3 as [G3|[_ G3]]; [by rewrite Eh|by apply Hk|by eapply Hq].
    - destruct (G2 f Hf) as (h'&q&_&_&_&Ha). by eapply Hq. }
  exists v, w. split; [done|]. split; [done|].
  split; [eapply Hb; [|exact Gv]; exists s; eauto|]. split; [eapply Hb; [|exact Gw]; exists s; eauto|].
  split; [exact (grown_fan m l m' v HW HG HF)|]. split; [exact (grown_fan m l m' w HW HG HF)|]. intros _. destruct (HN s Hs Hi) as [N1 N2].
  rewrite A3. destruct HG as [_ [_ Ef] _ _ _]. rewrite Ef. split; [done|]. intros f [Hf|Hf].
  - apply (beside_after _ _ _ _ _ Hv) in Hf as [->|Hf]; [done|]. eauto.
  - apply (beside_after _ _ _ _ _ Hw) in Hf as [->|Hf]; [done|]. eauto.
Qed.
Print Assumptions C115_after_allocation.

Lemma names_beside m f h x g : WellFormed m → live_face m f → names_place m f h x → beside h g → g < nfaces m.
Proof.
  intros HW Hf Hx [Hu (g'&Hg)].
  assert (∀ f, live_face m f → f < nfaces m) as HL. { intros f' (y&Hy&_). apply (wfs_faces _ HW). eauto. }
  assert (∀ f (i j k : N), cycle_face m f i j k → f < nfaces m) as HC.
  { intros f' i j k [Hc|[Hc|Hc]]; destruct Hc as (e0&e1&e2&x0&x1&x2&Hy&_); apply (wfs_faces _ HW); eauto. }
  destruct Hx as [(i&j&k&a&_&_&_&->)|[(i&j&k&a&b&s&e&g2&w&Hc&Hc2&_&_&_&_&_&_&->)|(a&b&c&l0&l1&l2&_&_&_&_&_&_&->)]]; cbn in Hg.
  - destruct Hg; discriminate.
  - assert (g = f ∨ g = g2) as [->| ->] by (destruct Hg as [Hg|Hg]; injection Hg as ? ?; subst; tauto); by eapply HC.
  - assert (g = f ∨ g = umax) as [->| ->] by (destruct Hg as [Hg|Hg]; injection Hg as ? ?; subst; tauto); [by apply HL|done].
Qed.
(** what is asked of an operand in addition: single fans of faces, no flat faces, and room
    for the vertices *)
Definition ready m (n : nat) : Prop := fans m ∧ all_thick m ∧ nverts m + 4 * N.of_nat n < umax.
Theorem C115_after_search gt select (order : ∀ A, list A → list A) ma mb la lb (fa fb : list bool) :
  TriTriSpec.tells_zero gt → (∀ n k, Permutation (select n k) k) → (∀ A k, order A k ≡ₚ k) →
  operand ma → operand mb → general_position ma mb →
  get_mesh_intersections_3 gt select ma mb = Some (la, lb) →
  length fa = length la → length fb = length lb → ready ma (length la) → ready mb (length lb) →
  (∃ m' l' js, allocate ma (zip_with seg_of la fa) = Some (m', l') ∧ build_face_pslgs_3 order m' l' = Some js ∧ ∀ j, j ∈ js → job_shape m' l' j) ∧
  (∃ m' l' js, allocate mb (zip_with seg_of lb fb) = Some (m', l') ∧ build_face_pslgs_3 order m' l' = Some js ∧ ∀ j, j ∈ js → job_shape m' l' j).
Proof.
  intros Hgt Hsel Hord OA OB HG E La Lb RA RB. destruct (C110_segments gt select ma mb Hgt Hsel OA OB HG) as (l&E1&H1&_&_).
  rewrite E in E1. injection E1 as -> ->.
  assert (∀ m (k : list cutseg) fl, WellFormed m → (∀ c, c ∈ k → ∃ f x y, live_face m f ∧ cut_on m f c x y) → length fl = length k →
    ready m (length k) → ∃ m' l' js, allocate m (zip_with seg_of k fl) = Some (m', l') ∧ build_face_pslgs_3 order m' l' = Some js ∧ ∀ j, j ∈ js → job_shape m' l' j) as HA.
  { intros m k fl HW Hk El (R1&R2&R3). 
    assert (ends_ok m (zip_with seg_of k fl)) as OK.
    { intros h p (s&Hs&_&Hc). apply elem_of_lookup_zip_with in Hs as (n&c&b&->&Hc'&_). apply elem_of_list_lookup_2 in Hc'.
      destruct (Hk c Hc') as (f&x&y&_&_&_&_&Hx&Hy). cbn in Hc. destruct Hc as [[-> _]|[-> _]]; by eapply names_hints. }
    assert (nverts m + 4 * N.of_nat (length (zip_with seg_of k fl)) < umax) as Hn by (rewrite zip_with_length_l by lia; done).
    assert (names_faces m (zip_with seg_of k fl)) as HN.
    { intros s Hs _. apply elem_of_lookup_zip_with in Hs as (n&c&b&->&Hc'&_). apply elem_of_list_lookup_2 in Hc'.
      destruct (Hk c Hc') as (f&x&y&Hf&<-&_&_&Hx&Hy). cbn. split. { destruct Hf as (z&Hz&_). apply (wfs_faces _ HW). eauto. }
      intros g [Hg|Hg]; [exact (names_beside m _ _ _ g HW Hf Hx Hg)|exact (names_beside m _ _ _ g HW Hf Hy Hg)]. }
    destruct (C113_allocation m _ HW OK Hn) as (m'&l'&Ea&_). destruct (C115_after_allocation m _ m' l' HW OK Hn HN R1 R2 Ea) as (W&S1&S2&S3).
    destruct (C115_jobs order m' l' Hord W S1 S2 S3) as (js&Ej&_&_&Hj). by exists m', l', js. }
  assert (∀ m f t, tri_at m f t → live_face m f) as HT.
  { intros m f t (i&j&k&(e0&e1&e2&x0&x1&x2&Hf&_)&_). by eexists. }
  split; (apply HA; [apply OA || apply OB| |done|done]).
  - intros c (s&->&Hs)%elem_of_list_fmap. destruct (H1 s Hs) as (f&?&?&?&x&y&Ht&_&_&Hc&_). exists f, x, y. split; [by eapply HT|done].
  - intros c (s&->&Hs)%elem_of_list_fmap. destruct (H1 s Hs) as (?&f&?&?&x&y&_&Ht&_&_&Hc&_). exists f, x, y. split; [by eapply HT|done].
Qed.
Print Assumptions C115_after_search.

(** ** Deciding the conditions on concrete meshes *)
Definition fansb m : bool := forallb (one_fanb m) (range (nverts m)).
Lemma fansb_ok m : WellFormed m → fansb m = true → fans m.
Proof.
  intros HW%WF_iff H v Hv. unfold fansb in H. rewrite forallb_forall in H. apply one_fanb_ok; [done|]. apply H.
  apply elem_of_list_In, range_spec. done.
Qed.
Definition thickb (a b c : p3) : bool :=
  let '(x0, y0, z0) := a in let '(x1, y1, z1) := b in let '(x3, y3, z3) := c in
  negb (Qeq_bool ((y1 - y0) * (z3 - z0)) ((z1 - z0) * (y3 - y0)) && Qeq_bool ((z1 - z0) * (x3 - x0)) ((x1 - x0) * (z3 - z0)) &&
        Qeq_bool ((x1 - x0) * (y3 - y0)) ((y1 - y0) * (x3 - x0)))%Q.
Lemma thickb_ok a b c : thickb a b c = true → thick a b c.
Proof.
  destruct a as [[x0 y0] z0], b as [[x1 y1] z1], c as [[x3 y3] z3]. cbn. intros Hb (A&B&C).
  apply Qeq_bool_iff in A, B, C. rewrite A, B, C in Hb. discriminate.
Qed.
Lemma all_thickb_ok m : WellFormed m → all_faces thickb m = true → all_thick m.
Proof. intros HW H f p q r Hc. apply thickb_ok. exact (all_faces_ok _ m f p q r HW H Hc). Qed.
Definition readyb m (n : nat) : bool := fansb m && all_faces thickb m && (nverts m + 4 * N.of_nat n <? umax).
Lemma readyb_ok m n : WellFormed m → readyb m n = true → ready m n.
Proof.
  intros HW. unfold readyb. rewrite !andb_true_iff, N.ltb_lt. intros [[A B] C].
  split; [by apply fansb_ok|]. split; [by apply all_thickb_ok|done].
Qed.
(** the pairs of a face and a vertex named for it *)
Definition hint_faces (h : hints) : list N := match h_faces h with Some (f, g) => [f; g] | None => [] end.
Definition pairs_named (s : gseg p3) : list (N * N) :=
  match g_va s, g_vb s with
  | Some a, Some b => (g_face s, a) :: (g_face s, b) :: map (λ f, (f, a)) (hint_faces (g_a s)) ++ map (λ f, (f, b)) (hint_faces (g_b s))
  | _, _ => []
  end.
Lemma hint_faces_ok h f : beside h f → f ∈ hint_faces h.
Proof. intros [_ (g&Hg)]. unfold hint_faces. destruct Hg as [->| ->]; [left|right; left]. Qed.
Lemma named_pairs l f v : named l f v → ∃ s, s ∈ l ∧ (f, v) ∈ pairs_named s.
Proof.
  unfold pairs_named. intros [(w&[(s&Hs&(_&Ea&Eb&_)&<-)|(s&Hs&(_&Ea&Eb&_)&<-)])|(s&a&b&Hs&(_&Ea&Eb&_)&_&Hc)]; exists s; (split; [done|]); rewrite Ea, Eb.
  - left.
  - right; left.
  - right; right. apply elem_of_app. destruct Hc as [[-> Hb]|[-> Hb]]; [left|right]; apply elem_of_list_fmap; exists f; (split; [done|]); by apply hint_faces_ok.
Qed.
(** weights computed by the model, then checked *)
Definition in_trib (p q r t : p3) : bool :=
  match GeomModel.barycentric_coords (coords t) (coords p) (coords q) (coords r) with
  | Some (u, v, _) => Qle_bool 0 u && Qle_bool 0 v && Qle_bool 0 (1 - u - v) && eq3b t (comb3 u v (1 - u - v) p q r)
  | None => false
  end.
Lemma in_trib_ok p q r t : in_trib p q r t = true → in_tri p q r t.
Proof.
  unfold in_trib. destruct (GeomModel.barycentric_coords _ _ _ _) as [[[u v] w]|]; [|done].
  rewrite !andb_true_iff, !Qle_bool_iff, eq3b_ok. intros [[[A B] C] D]. exists u, v, (1 - u - v)%Q.
  split; [done|]. split; [done|]. split; [done|]. split; [ring|done].
Qed.
Definition placedb m l : bool :=
  forallb (λ s, forallb (λ '(f, v), match face_pts m f, verts m !! v with
    | Some (p, q, r), Some x => in_trib p q r (vpos x) | _, _ => true end) (pairs_named s)) l.
Lemma placedb_ok m l : WellFormed m → placedb m l = true → placed m l.
Proof.
  intros HW H f v p q r t Hn Hc (x&Hx&<-). unfold placedb in H. rewrite forallb_forall in H. apply named_pairs in Hn as (s&Hs%elem_of_list_In&Hp%elem_of_list_In).
  specialize (H s Hs). rewrite forallb_forall in H. specialize (H _ Hp). cbn beta iota in H. apply face_pts_ok in Hc; [|done]. rewrite Hc, Hx in H. by apply in_trib_ok.
Qed.

(** ** The two tetrahedra of C110 *)
Definition walk (A : Type) (k : list A) : list A := k.
Lemma cuts_names ta tb : WellFormed (mesh_of ta) → WellFormed (mesh_of tb) → operandb (mesh_of ta) = true → operandb (mesh_of tb) = true → all_general (mesh_of ta) (mesh_of tb) = true →
  names_faces (mesh_of ta) (cuts ta tb).1 ∧ names_faces (mesh_of tb) (cuts ta tb).2.
Proof.
  intros WA WB A B G. destruct (C110_segments ClaimsTriTri.gtq in_order (mesh_of ta) (mesh_of tb)) as (l&E&H1&_&_).
  { apply ClaimsTriTri.gtq_tells. } { intros n k. done. } { by apply operandb_ok. } { by apply operandb_ok. } { by apply all_general_ok. }
  assert (∀ m f t, tri_at m f t → live_face m f) as HT.
  { intros m f t (i&k&n&(e0&e1&e2&x0&x1&x2&Hf&_)&_). by eexists. }
  assert (∀ m, WellFormed m → ∀ f, live_face m f → f < nfaces m) as HL. { intros m W f (y&Hy&_). apply (wfs_faces _ W). eauto. }
  unfold cuts. rewrite E. split; intros s (c&->&Hc')%elem_of_list_fmap _; apply elem_of_list_fmap in Hc' as (d&->&Hd);
    destruct (H1 d Hd) as (f&g&?&?&x&y&Tf%HT&Tg%HT&_&(X0&_&_&X1&X2)&(Y0&_&_&Y1&Y2)&_); cbn.
  - rewrite X0. split; [by apply HL|]. intros g' [Hg|Hg]; [exact (names_beside _ _ _ _ g' WA Tf X1 Hg)|exact (names_beside _ _ _ _ g' WA Tf X2 Hg)].
  - rewrite Y0. split; [by apply HL|]. intros g' [Hg|Hg]; [exact (names_beside _ _ _ _ g' WB Tg Y1 Hg)|exact (names_beside _ _ _ _ g' WB Tg Y2 Hg)].
Qed.
Definition jobs_of (r : option (mesh p3 * list (gseg p3))) : option (N * bool * option (list (N * list N * list (nat * nat)))) :=
  match r with Some (m, l) => Some (nverts m, placedb m l, option_map (map (λ j, (j_face j, j_verts j, j_segs j))) (build_face_pslgs_3 walk m l)) | None => None end.
(** the hypotheses of C115 and C116 hold for what the search and the allocation make of
    the two tetrahedra, and these are the jobs *)
Definition meets m l (n : N) (out : list (N * list N * list (nat * nat))) : Prop :=
  ∃ m' l' js, allocate m l = Some (m', l') ∧ nverts m' = n ∧ WellFormed m' ∧ nverts m' ≤ umax ∧ segs_in m' l' ∧ faces_thick m' l' ∧ placed m' l' ∧
    build_face_pslgs_3 walk m' l' = Some js ∧ map (λ j, (j_face j, j_verts j, j_segs j)) js = out.
Lemma meets_by m l n out : WellFormed m → ends_ok m l → names_faces m l → readyb m (length l) = true →
  jobs_of (allocate m l) = Some (n, true, Some out) → meets m l n out.
Proof.
  intros HW OK HN R E. apply readyb_ok in R as (R1&R2&R3); [|done]. unfold jobs_of in E. destruct (allocate m l) as [[m' l']|] eqn:Ea; [|discriminate].
  injection E as E1 E2 E3. destruct (build_face_pslgs_3 walk m' l') as [js|] eqn:Ej; [|discriminate]. injection E3 as E3.
  destruct (C115_after_allocation m l m' l' HW OK R3 HN R1 R2 Ea) as (W&S1&S2&S3). exists m', l', js.
  do 6 (split; [done|]). split; [by apply placedb_ok|done].
Qed.
Example C115_example :
  meets (mesh_of tet_a) (cuts tet_a tet_b).1 7 [(3, [1; 2; 3; 4; 5; 6], [(0, 1); (1, 2); (2, 0); (3, 4); (4, 5); (5, 3)]%nat)] ∧
  meets (mesh_of tet_b) (cuts tet_a tet_b).2 7
    [(0, [0; 2; 1; 4; 5], [(0, 3); (3, 1); (1, 2); (2, 4); (4, 0); (3, 4)]%nat);
     (1, [0; 1; 3; 5; 6], [(0, 3); (3, 1); (1, 2); (2, 4); (4, 0); (3, 4)]%nat);
     (2, [0; 3; 2; 4; 6], [(0, 4); (4, 1); (1, 2); (2, 3); (3, 0); (4, 3)]%nat)].
Proof.
  destruct (cuts_ok tet_a tet_b) as [X Y]; [apply tet_a_wf|apply tet_b_wf|vm_compute; reflexivity..|].
  destruct (cuts_names tet_a tet_b) as [X' Y']; [apply tet_a_wf|apply tet_b_wf|vm_compute; reflexivity..|].
  split.
  - apply meets_by; [exact tet_a_wf|exact X|exact X'|vm_compute; reflexivity|vm_compute; reflexivity].
  - apply meets_by; [exact tet_b_wf|exact Y|exact Y'|vm_compute; reflexivity|vm_compute; reflexivity].
Qed.

(** C117, that the ends of a segment across a face are points of its job and joined by a
    chain, is false for segments that end in a corner: they are dropped. Here two faces of
    a wedge meet in an edge that pierces two faces of a tetrahedron, and each passes
    through a corner of it. No vertex and no segment of the cut is left in the jobs. *)
Definition wedge : list (op pt) :=
  build [(1, -(9), 1); (1, 9, 1); (-(1), -(1), 7); (7, -(1), -(1))]%Q [(0, 2, 1); (0, 1, 3); (0, 3, 2); (1, 2, 3)].
Lemma wedge_wf : WellFormed (mesh_of wedge). Proof. by_wf. Qed.
Definition used (s : gseg p3) : option (N * N * N) :=
  match g_va s, g_vb s with Some a, Some b => if g_inv s || (a =? b) then None else Some (g_face s, a, b) | _, _ => None end.
Lemma used_across l f a b : Some (f, a, b) ∈ map used l → across l f a b.
Proof.
  intros (s&E&Hs)%elem_of_list_fmap. exists s. unfold used in E. split; [done|].
  destruct (g_va s) as [a'|] eqn:Ea; [|discriminate]. destruct (g_vb s) as [b'|] eqn:Eb; [|discriminate].
  destruct (g_inv s) eqn:Ei; [discriminate|]. cbn [orb] in E. destruct (N.eqb_spec a' b'); [discriminate|].
  injection E as <- <- <-. done.
Qed.
Theorem C117_refuted : ∃ ma mb : mesh p3, operand ma ∧ operand mb ∧ general_position ma mb ∧
  ∃ la lb m' l' js, get_mesh_intersections_3 ClaimsTriTri.gtq in_order ma mb = Some (la, lb) ∧ ready ma (length la) ∧
    allocate ma (map (λ c, seg_of c false) la) = Some (m', l') ∧ placed m' l' ∧
    build_face_pslgs_3 walk m' l' = Some js ∧
    across l' 1 3 4 ∧ across l' 1 1 4 ∧ across l' 3 3 5 ∧ across l' 3 1 5 ∧
    map (λ j, (j_face j, j_verts j, j_segs j)) js =
      [(1, [0; 1; 3], [(0, 1); (1, 2); (2, 0)]%nat); (3, [1; 2; 3], [(0, 1); (1, 2); (2, 0)]%nat)].
Proof.
  exists (mesh_of tet_a), (mesh_of wedge).
  assert (operandb (mesh_of tet_a) = true) as A by (vm_compute; reflexivity). assert (operandb (mesh_of wedge) = true) as B by (vm_compute; reflexivity).
  assert (all_general (mesh_of tet_a) (mesh_of wedge) = true) as G by (vm_compute; reflexivity).
  assert (match get_mesh_intersections_3 ClaimsTriTri.gtq in_order (mesh_of tet_a) (mesh_of wedge) with
    | Some (la, lb) => Some (readyb (mesh_of tet_a) (length la), match allocate (mesh_of tet_a) (map (λ c, seg_of c false) la) with
      | Some (m', l') => Some (map used l', jobs_of (Some (m', l'))) | None => None end)
    | None => None end = Some (true, Some ([None; Some (1, 3, 4); Some (1, 1, 4); None; Some (3, 3, 5); Some (3, 1, 5)],
       Some (6, true, Some [(1, [0; 1; 3], [(0, 1); (1, 2); (2, 0)]%nat); (3, [1; 2; 3], [(0, 1); (1, 2); (2, 0)]%nat)])))) as R by (vm_compute; reflexivity).
  pose proof tet_a_wf as WA. pose proof wedge_wf as WB. revert A B G R WA WB. generalize (mesh_of tet_a) as ma, (mesh_of wedge) as mb. intros ma mb A B G R WA WB.
  apply operandb_ok in A, B; [|done..]. apply all_general_ok in G; [|done..]. split; [done|]. split; [done|]. split; [done|].
  assert (∀ la lb, get_mesh_intersections_3 ClaimsTriTri.gtq in_order ma mb = Some (la, lb) → ends_ok ma (map (λ c, seg_of c false) la)) as HS.
  { intros la lb E. destruct (C110_segments ClaimsTriTri.gtq in_order ma mb ClaimsTriTri.gtq_tells (λ n k, Permutation_refl k) A B G) as (l&E'&H1&_&_).
    rewrite E in E'. injection E' as -> ->. intros h p (s&Hs&_&Hc). apply elem_of_list_fmap in Hs as (c&->&Hc'); apply elem_of_list_fmap in Hc' as (d&->&Hd);
    destruct (H1 d Hd) as (f&g&?&?&x&y&_&_&_&(_&_&_&X1&X2)&_); cbn in Hc. destruct Hc as [[-> _]|[-> _]]; by eapply names_hints. }
  destruct (get_mesh_intersections_3 _ _ ma mb) as [[la lb]|]; [|discriminate]. injection R as R1 R.
  destruct (allocate ma (map _ la)) as [[m' l']|] eqn:Ea; [|discriminate]. injection R as R2 R3 R4 R5.
  destruct (build_face_pslgs_3 walk m' l') as [js|] eqn:Ej; [|discriminate]. injection R5 as R5.
  exists la, lb, m', l', js. split; [done|]. assert (ready ma (length la)) as Hr by by apply readyb_ok. split; [done|]. split; [done|].
  split. { apply placedb_ok; [|done]. destruct (C113_allocation ma (map (λ c, seg_of c false) la) WA (HS la lb eq_refl)) as (m2&l2&E2&W2&_).
    - rewrite map_length. apply Hr.
    - rewrite Ea in E2. by injection E2 as <- <-. }
  split; [done|]. split; [apply used_across; rewrite R2; set_solver|]. split; [apply used_across; rewrite R2; set_solver|].
  split; [apply used_across; rewrite R2; set_solver|]. split; [apply used_across; rewrite R2; set_solver|]. done.
Qed.
Print Assumptions C117_refuted.
