(** Properties C129 to C131: the triangulation jobs of plane meshes.
    Vocabulary: the models PslgPlaneModel and CutPlaneModel and the specifications MeshSpec,
    BoolAllocSpec, BoolPslgSpec, CutPlaneSpec, PslgPlaneSpec. *)
From Coq Require Import QArith Qabs.
From Verif Require Import MeshInv MeshWF MeshOps MeshCompact MeshDemo RayProofs BoolAlloc CutPlane BoolPslg PslgPlane PslgPlaneChain ClaimsRay ClaimsCutPlane.
From Verif Require AllocKey ClaimsHash HashProofs.
From Verif Require Import BoolAllocSpec PslgPlaneSpec CutPlaneSpec.
Local Open Scope N_scope.
Implicit Types (m : mesh p2) (l : list (gseg p2)) (j : fjob).

(** C129: whatever the order in which the hash map is walked, the construction does not
    panic and makes exactly one job for each live face reached by a segment in use. The job
    has the corners of the face, then the other vertices held by it, each once and at its
    position; its segments have two different ends and none of them occurs twice. *)
Theorem C129_jobs (order : ∀ A, list A → list A) m l : (∀ A k, order A k ≡ₚ k) →
  WellFormed m → nverts m ≤ umax → segs_in_2 m l →
  ∃ js, build_face_pslgs_2 order m l = Some js ∧ NoDup (map j_face js) ∧
    (∀ f, f ∈ map j_face js ↔ live_face m f ∧ reached l f) ∧ ∀ j, j ∈ js → job_shape_2 m l j.
Proof.
  intros Hord HW HU Hl. destruct (jobs_made_2 order Hord m HW HU l Hl) as (js&E&N1&N2&N3).
  exists js. split; [done|]. split; [done|]. split; [done|]. intros j Hj.
  destruct (proj1 (N2 (j_face j)) (elem_of_list_fmap_1 j_face _ _ Hj)) as [H1 H2].
  exact (made_shape_2 m HW HU l j Hl H1 H2 (N3 j Hj)).
Qed.

(** C130, partial: for jobs in the unit square, a segment of the mesh between two points
    other than corners is a chain, or its ends are close together, or a corner is close to
    it; each segment of the job is close to a side or to such a line. If the sides are at
    least a tenth long and no point is close to a side without being on it, each side is a
    chain of segments through all the points on it, in order. Missing: the sides of smaller
    faces, for which it is false, see below. *)
Theorem C130_chains_partial (order : ∀ A, list A → list A) m l js j : (∀ A k, order A k ≡ₚ k) →
  WellFormed m → nverts m ≤ umax → segs_in_2 m l → build_face_pslgs_2 order m l = Some js → j ∈ js → in_square j →
  (∀ i k x y, linked l j i k → (3 ≤ i)%nat → (3 ≤ k)%nat → j_uv j !! i = Some x → j_uv j !! k = Some y →
     chain j i k ∨ close_uv loose x y ∨ ∃ c z, (c < 3)%nat ∧ j_uv j !! c = Some z ∧ on_uv loose x y z) ∧
  (∀ e, e ∈ j_segs j → ∃ i k, (outer i k ∨ linked l j i k) ∧ near_line j i k e) ∧
  (wide j → clear_sides j → ∀ i k, outer i k → chain j i k).
Proof.
  intros Hord HW HU Hl E Hj Hs. destruct (jobs_made_2 order Hord m HW HU l Hl) as (js'&E'&_&_&N3).
  rewrite E in E'. injection E' as <-. destruct (N3 j Hj) as (prs&ia&ib&ic&st&prs'&s0&s1&s2&c0&c1&c2&ss&Ho&Hprs&J&Ev&Eu&Es).
  split. { intros i k x y Ha Hi Hk Hx Hy. assert (close_uv loose x y ∨ (∃ c z, (c < 3)%nat ∧ j_uv j !! c = Some z ∧ on_uv loose x y z) ∨ chain j i k) as X; [|tauto].
    pose proof (linked_ok m HU l Hl j prs ia ib ic st prs' s0 s1 s2 c0 c1 c2 ss Hprs J Ev Eu Es Hs i k x y Ha Hi Hk Hx Hy). tauto. }
  split. { intros e He. eapply seg_near_2; eassumption. }
  intros Hw Hc i k Ho'. eapply sides_ok_2; eassumption.
Qed.

(** ** After the search and the allocation of vertices *)
Lemma rat_hit_2_refl p : rat_hit_2 p p = true.
Proof. unfold rat_hit_2. rewrite Z.eqb_refl, AllocKey.rat_near_eq. apply ClaimsHash.rapx_refl. Qed.
Lemma answers_by m v p : answers rat_hit_2 m v p → stands_by m v p.
Proof.
  intros (x&Hx&H). exists x. split; [done|]. unfold rat_hit_2 in H. apply andb_prop in H as [_ E]. rewrite AllocKey.rat_near_eq in E.
  destruct x as [[a b] o r], p as [a' b']. cbn [vpos fst snd HashProofs.apx] in *.
  match type of E with context[if ?t then false else if ?t' then false else _] => destruct t eqn:E1; [discriminate|]; destruct t' eqn:E2; [discriminate|] end.
  apply ClaimsHash.rfar_near in E1, E2. assert (ClaimsHash.bound < BoolAllocSpec.cell)%Q as Hb by reflexivity.
  split; apply Qlt_le_weak; (eapply Qlt_trans; [|exact Hb]); [exact E1|exact E2].
Qed.
(** the segment is put out of use, or not *)
Definition marked (s : gseg p2) (b : bool) : gseg p2 := mkG (g_a s) (g_b s) (g_pa s) (g_pb s) (g_face s) (g_cop s) b (g_va s) (g_vb s).
(** the vertices of the segments are allocated and the jobs are made, with the shape of
    C129; the vertices given to a segment on an edge stand at its ends and are points of the jobs of all faces
    at this edge *)
Definition built (order : ∀ A, list A → list A) m (k : list (gseg p2)) (out : list bool) : Prop :=
  ∃ m' l' js, allocate_2 m (zip_with marked k out) = Some (m', l') ∧ WellFormed m' ∧ segs_in_2 m' l' ∧ build_face_pslgs_2 order m' l' = Some js ∧
    NoDup (map j_face js) ∧ (∀ j, j ∈ js → job_shape_2 m' l' j) ∧
    ∀ n s (i j : N), k !! n = Some s → out !! n = Some false → h_verts (g_a s) = Some (i, j) →
      ∃ v w, stands_by m' v (g_pa s) ∧ stands_by m' w (g_pb s) ∧
        ∀ f x, cycle_face m f i j x ∨ cycle_face m f j i x → ∃ jb, jb ∈ js ∧ j_face jb = f ∧ v ∈ j_verts jb ∧ w ∈ j_verts jb.

Section after.
Context (order : ∀ A, list A → list A) (Hord : ∀ A k, order A k ≡ₚ k).
Context (m m0 : mesh p2) (HW : WellFormed m) (k : list (gseg p2)) (Hk : ∀ s, s ∈ k → cut_by m m0 s).
Context (out : list bool) (Hout : length out = length k) (Hn : nverts m + 4 * N.of_nat (length k) < umax).
Let L := zip_with marked k out.

Lemma L_at n t : L !! n = Some t → ∃ s b, k !! n = Some s ∧ out !! n = Some b ∧ t = marked s b.
Proof using. intros (s&b&E1&E2&E3)%lookup_zip_with_Some. eauto. Qed.
Lemma cycle_live f (i j x : N) : cycle_face m f i j x → live_face m f.
Proof using. intros [H|[H|H]]; destruct H as (e0&e1&e2&x0&x1&x2&Hf&Hr&_); (eexists; split; [exact Hf|done]). Qed.
Lemma edge_hints h p : end_of L h p → ∃ s f e (i j : N) a b g u, s ∈ k ∧ side_at m f e i j a b ∧ beyond m i j g ∧ g_face s = f ∧
  h = mkHints (Some (i, j)) (Some e) (Some u) (Some (f, g)) None.
Proof using Hk.
  intros (t&Ht&_&Hc). apply elem_of_list_lookup in Ht as [n Ht]. apply L_at in Ht as (s&b&Es&_&->).
  apply elem_of_list_lookup_2 in Es. destruct (Hk s Es) as (_&_&_&f&e&u0&u1&f'&e'&i'&j'&a'&b'&(i&j&a&b0&g&Hs&Hg&Hf&Ea&Eb&_)&_).
  cbn in Hc. destruct Hc as [[-> _]|[-> _]]; rewrite ?Ea, ?Eb; eexists s, f, e, i, j, a, b0, g, _; done.
Qed.
Lemma cuts_ends : ends_ok m L.
Proof using Hk.
  intros h p He. destruct (edge_hints h p He) as (s&f&e&i&j&a&b&g&u&_&(x&Hc&Hr&_)&_&_&->).
  right; left. exists i, j, e, u, f, g. split; [done|]. split; [done|]. by eapply cycle_live.
Qed.
Lemma no_corner_end c i : ¬ vertex_with_key point_key_2 L c i.
Proof using Hk.
  intros (h&p&He&Hv&_). destruct (edge_hints h p He) as (s&f&e&i'&j'&a&b&g&u&_&_&_&_&->). unfold at_vertex in Hv. discriminate Hv.
Qed.
Lemma beyond_lt (i j g : N) : beyond m i j g → g ≠ umax → g < nfaces m.
Proof using HW.
  intros [(x&H%cycle_live)|[_ ->]] Hu; [|done]. destruct H as (y&Hy&_). apply (wfs_faces _ HW). eauto.
Qed.

Lemma built_ok : built order m k out.
Proof using Hord HW Hk Hout Hn.
  assert (length L = length k) as El by (unfold L; rewrite zip_with_length_l by lia; done).
  destruct (allocate_ok point_key_2 rat_hit_2 u_low u_high bucket_u rat_hit_2_refl m L HW cuts_ends) as (m'&l'&Ea&HW'&HG&HA).
  { rewrite El. exact Hn. }
  exists m', l'. pose proof HG as [[Eh _] [Ef Enf] _ [Hle _] _].
  (* what each segment in use has become *)
  assert (∀ n s, k !! n = Some s → out !! n = Some false → ∃ t v w f e (i j : N) a b g, l' !! n = Some t ∧ uses t v w ∧ g_face t = f ∧
    h_faces (g_a t) = Some (f, g) ∧ h_faces (g_b t) = Some (f, g) ∧ side_at m f e i j a b ∧ beyond m i j g ∧
    answers rat_hit_2 m' v (g_pa s) ∧ answers rat_hit_2 m' w (g_pb s) ∧ h_verts (g_a s) = Some (i, j)) as HS.
  { intros n s Es Eb. assert (L !! n = Some (marked s false)) as Hn'. { apply lookup_zip_with_Some. eauto. }
    destruct (Forall2_lookup_l _ _ _ _ _ HA Hn') as (t&Et&_&_&A3&_&A5&A6). cbn in A3, A5, A6.
    destruct A6 as (v&w&Ev&Ew&[(_&_&Gv) Hv]&[(_&_&Gw) Hw]).
    assert (s ∈ k) as Hs by by eapply elem_of_list_lookup_2.
    destruct (Hk s Hs) as (_&_&_&f&e&u0&u1&f'&e'&i'&j'&a'&b'&(i&j&a&b0&g&Hd&Hg&Hf&E1&E2&_)&_).
    exists t, v, w, f, e, i, j, a, b0, g. rewrite E1 in Gv. rewrite E2 in Gw. cbn in Gv, Gw.
    split; [done|]. split; [done|]. split; [congruence|].
    split. { rewrite Hv, E1. done. } split. { rewrite Hw, E2. done. } split; [done|]. split; [done|].
    split. { destruct Gv as [G|[_ G]]; [done| |done]. by apply no_corner_end in G. }
    split. { destruct Gw as [G|[_ G]]; [done| |done]. by apply no_corner_end in G. }
    rewrite E1. done. }
  assert (segs_in_2 m' l') as HL.
  { intros t Ht Hi. apply elem_of_list_lookup in Ht as [n Ht]. destruct (Forall2_lookup_r _ _ _ _ _ HA Ht) as (t0&Et0&_&_&_&_&A5&_).
    apply L_at in Et0 as (s&b&Es&Eb&->). cbn in A5. assert (b = false) as -> by congruence.
    destruct (HS n s Es Eb) as (t'&v&w&f&e&i&j&a&b&g&Et&U&Gf&Fa&Fb&(x&Hc&_)&Hg&(xv&Hv&_)&(xw&Hw&_)&_).
    rewrite Ht in Et. injection Et as <-. exists v, w. split; [done|]. split; [apply (wfs_verts _ HW'); eauto|]. split; [apply (wfs_verts _ HW'); eauto|].
    assert (f < nfaces m) as Hlf. { destruct (cycle_live _ _ _ _ Hc) as (y&Hy&_). apply (wfs_faces _ HW). eauto. }
    rewrite Gf, Enf. split; [done|]. intros f1 [[Hu (g1&H)]|[Hu (g1&H)]]; rewrite ?Fa, ?Fb in H;
      (destruct H as [H|H]; injection H as <- <-; [done|by eapply beyond_lt]). }
  destruct (C129_jobs order m' l' Hord HW' (proj2 (proj2 (wfs_size _ HW'))) HL) as (js&Ej&J1&J2&J3).
  exists js. do 6 (split; [done|]).
  intros n s i j Es Eb Ev. destruct (HS n s Es Eb) as (t&v&w&f&e&i1&j1&a&b&g&Et&U&Gf&Fa&Fb&(x1&Hc&_)&Hg&Av&Aw&E1).
  rewrite Ev in E1. injection E1 as <- <-. exists v, w. split; [by apply answers_by|]. split; [by apply answers_by|].
  intros f1 x Hx. assert (t ∈ l') as Ht by by eapply elem_of_list_lookup_2.
  assert (holds l' f1 v ∧ holds l' f1 w) as [Hv Hw].
  { assert (f1 = f ∨ f1 = g ∧ f1 ≠ umax) as Hor.
    { destruct Hx as [Hx|Hx].
      - left. by destruct (side_unique m f1 f i j x x1 (proj2 (WF_iff m) HW) Hx Hc) as [-> _].
      - right. destruct Hg as [(x2&Hg)|[Hg _]].
        + destruct (side_unique m f1 g j i x x2 (proj2 (WF_iff m) HW) Hx Hg) as [-> _]. split; [done|]. destruct (cycle_live _ _ _ _ Hg) as (y&Hy&_). assert (g < nfaces m) by (apply (wfs_faces _ HW); eauto). destruct (wfs_size _ HW) as (_&Hs&_). lia.
        + destruct Hg. by exists f1, x. }
    destruct Hor as [->|[-> Hu]].
    - split; exists t, v, w; (split; [done|]); (split; [done|]); [left|right]; auto.
    - split; exists t, v, w; (split; [done|]); (split; [done|]); [left|right]; (split; [done|right]); (split; [done|]); eauto. }
  assert (live_face m' f1) as Hlive. { unfold live_face. rewrite Ef. destruct Hx as [Hx|Hx]; exact (cycle_live _ _ _ _ Hx). }
  assert (f1 ∈ map j_face js) as (jb&->&Hjb)%elem_of_list_fmap. { apply J2. split; [done|]. by exists v. }
  exists jb. split; [done|]. split; [done|]. destruct (J3 jb Hjb) as [_ _ _ Hvs _ _ _ _]. split; apply Hvs; by right.
Qed.
End after.

(** C131: after a search in the plane, whichever of its segments are put out of use, the
    allocation and the construction of jobs do not panic, the jobs have the shape of C129,
    and the points of a cut on an edge are in the jobs of all faces at the edge. *)
Theorem C131_after_search bucket select (order : ∀ A, list A → list A) (ma mb : mesh p2) la lb (fa fb : list bool) :
  (∀ u v, (u == v)%Q → bucket u = bucket v) → (∀ n q, Permutation (select n q) q) → (∀ A k, order A k ≡ₚ k) →
  WellFormed ma → WellFormed mb → 0 < nfaces mb → no_removed ma → no_removed mb →
  get_mesh_intersections_2 bucket select ma mb = Some (la, lb) → length fa = length la → length fb = length lb →
  nverts ma + 4 * N.of_nat (length la) < umax → nverts mb + 4 * N.of_nat (length lb) < umax →
  built order ma la fa ∧ built order mb lb fb.
Proof.
  intros Hb Hsel Hord WA WB Hn La Lb E Lf Lg Na Nb. destruct (intersections_2_ok bucket Hb ma mb WA WB select Hsel Hn La Lb) as (st&E'&[[I1 _] [I2 _]]&_).
  rewrite E in E'. injection E' as -> ->. split; [exact (built_ok order Hord ma mb WA _ I1 fa Lf Na)|exact (built_ok order Hord mb ma WB _ I2 fb Lg Nb)].
Qed.

(** ** Deciding the conditions on concrete jobs *)
Definition in_squareb j : bool := forallb (λ x : uv, Qle_bool 0 x.1 && Qle_bool x.1 1 && Qle_bool 0 x.2 && Qle_bool x.2 1) (j_uv j).
Lemma in_squareb_ok j : in_squareb j = true → in_square j.
Proof.
  intros H x Hx. unfold in_squareb in H. rewrite forallb_forall in H. specialize (H x ltac:(by apply elem_of_list_In)).
  rewrite !andb_true_iff, !Qle_bool_iff in H. tauto.
Qed.
Definition betweenb (d p q r : Q) : bool := Qle_bool (p - d) r && Qle_bool r (q + d) || Qle_bool (q - d) r && Qle_bool r (p + d).
Lemma betweenb_ok d p q r : betweenb d p q r = true ↔ BoolPslgSpec.between d p q r.
Proof. unfold betweenb, BoolPslgSpec.between. rewrite orb_true_iff, !andb_true_iff, !Qle_bool_iff. done. Qed.
Definition on_uvb (d : Q) (x y z : uv) : bool := Qle_bool (Qabs (turn x y z)) d && betweenb d x.1 y.1 z.1 && betweenb d x.2 y.2 z.2.
Lemma on_uvb_ok d x y z : on_uvb d x y z = true ↔ on_uv d x y z.
Proof. unfold on_uvb, on_uv. rewrite !andb_true_iff, Qle_bool_iff, !betweenb_ok. tauto. Qed.
Definition sides_by (c : uv → uv → bool) j : bool :=
  forallb (λ e : nat * nat, match j_uv j !! e.1, j_uv j !! e.2 with Some x, Some y => c x y | _, _ => true end) [(0, 1); (1, 2); (2, 0)]%nat.
Lemma sides_by_ok c j i k x y : sides_by c j = true → outer i k → j_uv j !! i = Some x → j_uv j !! k = Some y → c x y = true.
Proof.
  intros H Ho Hx Hy. unfold sides_by in H. rewrite forallb_forall in H. specialize (H (i, k) ltac:(by apply elem_of_list_In)).
  cbn [fst snd] in H. by rewrite Hx, Hy in H.
Qed.
Definition wideb j : bool := sides_by (λ x y, Qle_bool (1 # 100) (along x y y)) j.
Lemma wideb_ok j : wideb j = true → wide j.
Proof. intros H i k x y Ho Hx Hy. apply Qle_bool_iff. exact (sides_by_ok _ j i k x y H Ho Hx Hy). Qed.
Definition clear_sidesb j : bool := sides_by (λ x y, forallb (λ z, negb (on_uvb loose x y z) || on_uvb 0 x y z) (j_uv j)) j.
Lemma clear_sidesb_ok j : clear_sidesb j = true → clear_sides j.
Proof.
  intros H i k x y z Ho Hx Hy Hz L. pose proof (sides_by_ok _ j i k x y H Ho Hx Hy) as H'. cbn beta in H'. rewrite forallb_forall in H'.
  specialize (H' z ltac:(by apply elem_of_list_In)). apply on_uvb_ok in L. rewrite L in H'. by apply on_uvb_ok.
Qed.

(** ** Examples *)
Definition walk (A : Type) (k : list A) : list A := k.
Definition show (j : fjob) : N * list N * list (p2) * list (nat * nat) := (j_face j, j_verts j, map (λ x, (Qred x.1, Qred x.2)) (j_uv j), j_segs j).
Definition plain (k : list (gseg p2)) : list bool := map (λ _, false) k.
(** the hypotheses of C129 and C130 hold for what the search and the allocation make of the
    first of two meshes, and these are the jobs *)
Definition meets m m' (out : list (N * list N * list p2 * list (nat * nat))) : Prop :=
  ∃ la lb m1 l1 js, get_mesh_intersections_2 bkt in_order m m' = Some (la, lb) ∧
    allocate_2 m (zip_with marked la (plain la)) = Some (m1, l1) ∧ WellFormed m1 ∧ nverts m1 ≤ umax ∧ segs_in_2 m1 l1 ∧
    build_face_pslgs_2 walk m1 l1 = Some js ∧ map show js = out ∧ ∀ j, j ∈ js → in_square j ∧ wide j ∧ clear_sides j.
Definition checked m m' : option (list (N * list N * list p2 * list (nat * nat)) * bool * bool) :=
  l ← get_mesh_intersections_2 bkt in_order m m';
  r ← allocate_2 m (zip_with marked l.1 (plain l.1));
  js ← build_face_pslgs_2 walk r.1 r.2;
  Some (map show js, forallb (λ j, in_squareb j && wideb j && clear_sidesb j) js, nverts m + 4 * N.of_nat (length l.1) <? umax).
Lemma built_by m m' la lb : WellFormed m → WellFormed m' → 0 < nfaces m' → no_removed m → no_removed m' →
  get_mesh_intersections_2 bkt in_order m m' = Some (la, lb) → nverts m + 4 * N.of_nat (length la) < umax → built walk m la (plain la).
Proof.
  intros W W' Hn L L' E Hl. destruct (intersections_2_ok bkt bkt_eq m m' W W' in_order (λ n k, Permutation_refl k) Hn L L') as (st&E'&[[I1 _] _]&_).
  rewrite E in E'. injection E' as -> ->. apply (built_ok walk (λ A k, Permutation_refl k) m m'); [done|done|unfold plain; by rewrite map_length|done].
Qed.
Lemma meets_by m m' out : WellFormed m → WellFormed m' → live2 m && long2 m && (0 <? nfaces m) = true → live2 m' && long2 m' && (0 <? nfaces m') = true →
  checked m m' = Some (out, true, true) → meets m m' out.
Proof.
  intros W W' (L&_&_)%fit (L'&_&Hn)%fit E; [|done..]. unfold checked in E.
  destruct (get_mesh_intersections_2 bkt in_order m m') as [[la lb]|] eqn:E1; [|discriminate]. cbn [mbind option_bind fst snd] in E.
  destruct (allocate_2 m (zip_with marked la (plain la))) as [[m1 l1]|] eqn:E2; [|discriminate]. cbn [mbind option_bind fst snd] in E.
  destruct (build_face_pslgs_2 walk m1 l1) as [js|] eqn:E3; [|discriminate]. cbn [mbind option_bind fst snd] in E.
  injection E as E4 E5 E6. apply N.ltb_lt in E6. destruct (built_by m m' la lb W W' Hn L L' E1 E6) as (m2&l2&js2&B1&B2&B3&B4&_).
  rewrite E2 in B1. injection B1 as <- <-. exists la, lb, m1, l1, js. split; [done|]. split; [done|]. split; [done|]. split; [apply (wfs_size _ B2)|].
  split; [done|]. split; [done|]. split; [done|]. intros j Hj. rewrite forallb_forall in E5. specialize (E5 j ltac:(by apply elem_of_list_In)).
  rewrite !andb_true_iff in E5. destruct E5 as [[A B] C]. split; [by apply in_squareb_ok|]. split; [by apply wideb_ok|by apply clear_sidesb_ok].
Qed.

(** two faces sharing the side (0,0)-(1,1); the side is cut by a triangle, and overlaps
    with a side of another one *)
Definition sq_a : mesh p2 := plane_mesh [(0, 0); (1, 0); (1, 1); (0, 1)]%Q [(0, 1, 2); (0, 2, 3)].
Definition sq_b : mesh p2 := plane_mesh [(-(1), 1 # 4); (1 # 2, 1 # 4); (-(1), 1 # 3)]%Q [(0, 1, 2)].
Definition sq_c : mesh p2 := plane_mesh [(1 # 4, 1 # 4); (3 # 4, 3 # 4); (1 # 4, 3 # 4)]%Q [(0, 1, 2)].
Lemma sq_a_wf : WellFormed sq_a. Proof. apply plane_wf. vm_compute. reflexivity. Qed.
Lemma sq_b_wf : WellFormed sq_b. Proof. apply plane_wf. vm_compute. reflexivity. Qed.
Lemma sq_c_wf : WellFormed sq_c. Proof. apply plane_wf. vm_compute. reflexivity. Qed.
Example C129_example :
  meets sq_a sq_b
    [(0, [0; 1; 2; 4; 5], [(0, 0); (1, 0); (1, 1); (1 # 4, 1 # 4); (5 # 19, 5 # 19)]%Q, [(0, 1); (1, 2); (2, 4); (4, 3); (3, 0)]%nat);
     (1, [0; 2; 3; 4; 5; 6; 7], [(0, 0); (1, 1); (0, 1); (1 # 4, 1 # 4); (5 # 19, 5 # 19); (0, 1 # 4); (0, 5 # 18)]%Q,
        [(0, 3); (3, 4); (4, 1); (1, 2); (2, 6); (6, 5); (5, 0)]%nat)] ∧
  meets sq_a sq_c
    [(0, [0; 1; 2; 4; 5], [(0, 0); (1, 0); (1, 1); (3 # 4, 3 # 4); (1 # 4, 1 # 4)]%Q, [(0, 1); (1, 2); (2, 3); (3, 4); (4, 0)]%nat);
     (1, [0; 2; 3; 4; 5], [(0, 0); (1, 1); (0, 1); (3 # 4, 3 # 4); (1 # 4, 1 # 4)]%Q, [(0, 4); (4, 3); (3, 1); (1, 2); (2, 0)]%nat)].
Proof.
  split.
  - apply meets_by; [exact sq_a_wf|exact sq_b_wf|vm_compute; reflexivity..].
  - apply meets_by; [exact sq_a_wf|exact sq_c_wf|vm_compute; reflexivity..].
Qed.
(** the hypotheses of C131 *)
Example C131_example : ∃ la lb, get_mesh_intersections_2 bkt in_order sq_a sq_b = Some (la, lb) ∧ length la = 6%nat ∧ length lb = 6%nat ∧
  (no_removed sq_a ∧ long_sides sq_a ∧ 0 < nfaces sq_a) ∧ (no_removed sq_b ∧ long_sides sq_b ∧ 0 < nfaces sq_b) ∧
  nverts sq_a + 4 * N.of_nat (length la) < umax ∧ nverts sq_b + 4 * N.of_nat (length lb) < umax.
Proof.
  assert ((λ r, (length r.1, length r.2)) <$> get_mesh_intersections_2 bkt in_order sq_a sq_b = Some (6, 6)%nat) as R by (vm_compute; reflexivity).
  destruct (get_mesh_intersections_2 bkt in_order sq_a sq_b) as [[la lb]|]; [|discriminate R]. cbn [fmap option_fmap option_map fst snd] in R. injection R as R1 R2.
  exists la, lb. split; [reflexivity|]. rewrite R1, R2. split; [reflexivity|]. split; [reflexivity|].
  split; [apply fit; [exact sq_a_wf|vm_compute; reflexivity]|]. split; [apply fit; [exact sq_b_wf|vm_compute; reflexivity]|]. split; vm_compute; reflexivity.
Qed.

(** ** What goes wrong *)
(** C130: in a face of a few millionths, cut by a larger triangle, no segment of the job
    lies on the side from the first corner to the second, though a point of the cut is on it *)
Definition tri_s : mesh p2 := plane_mesh [(1 # 200000, 0); (0, 1 # 200000); (0, 0)]%Q [(0, 1, 2)].
Definition tri_e : mesh p2 := plane_mesh [(-(1), 1 # 400000); (1, 1 # 400000); (0, 9)]%Q [(0, 1, 2)].
Lemma tri_s_wf : WellFormed tri_s. Proof. apply plane_wf. vm_compute. reflexivity. Qed.
Lemma tri_e_wf : WellFormed tri_e. Proof. apply plane_wf. vm_compute. reflexivity. Qed.
Definition bare j : bool :=
  match j_uv j !! 0%nat, j_uv j !! 1%nat, j_uv j !! 3%nat with
  | Some x, Some y, Some z => on_uvb 0 x y z && negb (Qeq_bool (along x y y) 0) &&
      forallb (λ e : nat * nat, match j_uv j !! e.1, j_uv j !! e.2 with Some p, Some q => negb (on_uvb 0 x y p && on_uvb 0 x y q) | _, _ => false end) (j_segs j)
  | _, _, _ => false
  end.
Theorem C130_small_refuted : ∃ (ma mb : mesh p2) la lb m' l' js j x y z,
  WellFormed ma ∧ WellFormed mb ∧ no_removed ma ∧ no_removed mb ∧ long_sides ma ∧ long_sides mb ∧
  get_mesh_intersections_2 bkt in_order ma mb = Some (la, lb) ∧
  allocate_2 ma (zip_with marked la (plain la)) = Some (m', l') ∧ build_face_pslgs_2 walk m' l' = Some js ∧ j ∈ js ∧
  j_uv j !! 0%nat = Some x ∧ j_uv j !! 1%nat = Some y ∧ j_uv j !! 3%nat = Some z ∧ ¬ (along x y y == 0)%Q ∧ on_uv 0 x y z ∧
  ∀ i k p q, (i, k) ∈ j_segs j → j_uv j !! i = Some p → j_uv j !! k = Some q → ¬ (on_uv 0 x y p ∧ on_uv 0 x y q).
Proof.
  exists tri_s, tri_e. pose proof (fit tri_s tri_s_wf ltac:(vm_compute; reflexivity)) as (L1&L2&_). pose proof (fit tri_e tri_e_wf ltac:(vm_compute; reflexivity)) as (K1&K2&_).
  assert (match get_mesh_intersections_2 bkt in_order tri_s tri_e with
    | Some (la, _) => match allocate_2 tri_s (zip_with marked la (plain la)) with
      | Some (m', l') => match build_face_pslgs_2 walk m' l' with Some [j] => bare j | _ => false end | None => false end
    | None => false end = true) as R by (vm_compute; reflexivity).
  pose proof tri_s_wf as WA. pose proof tri_e_wf as WB. revert R L1 L2 K1 K2 WA WB. generalize tri_s as ma, tri_e as mb. intros ma mb R L1 L2 K1 K2 WA WB.
  destruct (get_mesh_intersections_2 bkt in_order ma mb) as [[la lb]|]; [|discriminate].
  destruct (allocate_2 ma (zip_with marked la (plain la))) as [[m' l']|] eqn:E2; [|discriminate].
  destruct (build_face_pslgs_2 walk m' l') as [[|j [|? ?]]|] eqn:E3; [discriminate| |discriminate|discriminate].
  unfold bare in R. destruct (j_uv j !! 0%nat) as [x|] eqn:X; [|discriminate]. destruct (j_uv j !! 1%nat) as [y|] eqn:Y; [|discriminate].
  destruct (j_uv j !! 3%nat) as [z|] eqn:Z; [|discriminate]. rewrite !andb_true_iff, negb_true_iff, forallb_forall in R. destruct R as [[R1 R2] R3].
  exists la, lb, m', l', [j], j, x, y, z. do 9 (split; [done|]). split; [left|]. do 3 (split; [done|]).
  split. { intros E%Qeq_bool_iff. congruence. } split; [by apply on_uvb_ok|].
  intros i k p q He Hp Hq [A%on_uvb_ok B%on_uvb_ok]. specialize (R3 (i, k) ltac:(by apply elem_of_list_In)). cbn [fst snd] in R3.
  rewrite Hp, Hq, A, B in R3. discriminate.
Qed.
Print Assumptions C129_jobs.
Print Assumptions C130_chains_partial.
Print Assumptions C130_small_refuted.
Print Assumptions C131_after_search.
