(** Properties C113 and C114: the vertices allocated for intersection segments.
    Vocabulary: the model BoolAllocModel and the specifications MeshSpec, BoolCutSpec,
    BoolAllocSpec. *)
From Coq Require Import QArith Qabs.
From Verif Require Import MeshDemo ClaimsMeshRemesh ClaimsMeshCollapse MeshHistSpec BoolCut BoolAlloc MeshWF ClaimsRay ClaimsCut.
From Verif Require ClaimsTriTri AllocKey.
From Verif Require Import BoolCutSpec BoolAllocSpec.
Local Open Scope N_scope.
Implicit Types (m : mesh p3) (l : list (gseg p3)).

(** C113: the allocation does not panic. It only adds vertices, each at an end of a segment
    in use where no vertex answered, and gives every end its vertex. *)
Theorem C113_allocation m l : WellFormed m → ends_ok m l → nverts m + 4 * N.of_nat (length l) < umax →
  ∃ m' l', allocate m l = Some (m', l') ∧ WellFormed m' ∧ grown rat_hit m l m' ∧
    Forall2 (allotted point_key rat_hit m' l) l l'.
Proof. intros HW OK Hn. apply allocate_ok; [apply AllocKey.rat_hit_refl|done..]. Qed.
Print Assumptions C113_allocation.

(** C113: around the origin, the vertex given to an end is at most 2.002 millionths away in
    each coordinate, if ends on vertices are at most a millionth away from them. *)
Lemma within_trans d e (p q r : p3) : within d p q → within e q r → within (d + e) p r.
Proof.
  destruct p as [[x y] z], q as [[x' y'] z'], r as [[x2 y2] z2]. intros (A&B&C) (A'&B'&C').
  assert (∀ a b c : Q, Qabs (a - b) <= d → Qabs (b - c) <= e → Qabs (a - c) <= d + e)%Q as T.
  { intros a b c H1 H2. apply Qabs_Qle_condition in H1, H2. apply Qabs_Qle_condition. Lqa.lra. }
  split; [|split]; eapply T; eassumption.
Qed.
Lemma within_weak d e (p q : p3) : (d <= e)%Q → within d p q → within e p q.
Proof. destruct p as [[x y] z], q as [[x' y'] z']. intros Hd (A&B&C). split; [|split]; eapply Qle_trans; eassumption. Qed.
Theorem C113_distance m l m' l' h p v : WellFormed m → ends_ok m l → nverts m + 4 * N.of_nat (length l) < umax →
  (∀ h q, end_of l h q → around_origin q) →
  (∀ h q i, end_of l h q → at_vertex h i → ∃ x, verts m !! i = Some x ∧ within (1 # 1000000) (vpos x) q) →
  allocate m l = Some (m', l') → given l l' h p v →
  ∃ x, verts m' !! v = Some x ∧ within (2002 # 1000000000) (vpos x) p.
Proof.
  intros HW OK Hn HO HV E Hg. destruct (C113_allocation m l HW OK Hn) as (m1&l1&E1&HW'&HG&HF). rewrite E in E1. injection E1 as <- <-.
  destruct (given_gets point_key rat_hit m' l l' h p v HF Hg) as [He (G1&G2&G3)].
  assert (∀ q, answers rat_hit m' v q → ∃ x, verts m' !! v = Some x ∧ within cell (vpos x) q) as HA.
  { intros q (x&Hx&Hh). exists x. split; [done|]. by apply AllocKey.hit_within. }
  assert (∀ h' q, end_of l h' q → point_key q = point_key p → within cell q p) as HK.
  { intros h' q He' Ek. apply AllocKey.key_within; [by eapply HO|by eapply HO|done]. }
  assert (vertex_with_key point_key l (point_key p) v → ∃ x, verts m' !! v = Some x ∧ within (2002 # 1000000000) (vpos x) p) as Hw.
  { intros (h'&q&He'&Hi&Ek). destruct (HV h' q v He' Hi) as (x&Hx&Hd). exists x. split.
    - destruct HG as [_ _ _ [_ Hold] _]. rewrite Hold; [done|]. apply WF_iff in HW. apply (si_vb _ _ (wf_si _ HW)). eauto.
    - eapply within_weak; [|eapply within_trans; [exact Hd|by eapply HK]]. unfold cell. cbn. discriminate. }
  destruct (OK h p He) as [(i&Hi&_)|[(i&j&e&u&f&g&Eh&_)|(f&Hf&_)]].
  - apply Hw, G1. eauto.
  - destruct G3 as [G3|[_ G3]]; [by rewrite Eh|by apply Hw|]. destruct (HA _ G3) as (x&Hx&Hd). exists x. split; [done|].
    eapply within_weak; [|exact Hd]. discriminate.
  - destruct (G2 f Hf) as (h'&q&He'&_&Hk&Ha). destruct (HA _ Ha) as (x&Hx&Hd). exists x. split; [done|].
    eapply within_weak; [|eapply within_trans; [exact Hd|by eapply HK]]. discriminate.
Qed.
Print Assumptions C113_distance.

(** C113: the segments found by the search meet the conditions on the hints, whichever of
    them have been put out of use. *)
Lemma names_hints m f h x : WellFormed m → names_place m f h x → hints_ok m h.
Proof.
  intros HW [(i&j&k&a&Hc&Hp&_&->)|[(i&j&k&a&b&s&e&g&w&Hc&Hg&Hr&_&_&_&_&_&->)|(a&b&c&l0&l1&l2&(i&j&k&Hc&_)&_&_&_&_&_&->)]].
  - left. exists i. split; [done|]. apply (wfs_verts _ HW). destruct Hp as (y&Hy&_). eauto.
  - right; left. exists i, j, e, s, f, g. split; [done|]. split; [done|].
    destruct Hc as [Hc|[Hc|Hc]]; destruct Hc as (e0&e1&e2&x0&x1&x2&Hf&_); by eexists.
  - right; right. exists f. split; [eexists; done|].
    destruct Hc as (e0&e1&e2&x0&x1&x2&Hf&_); by eexists.
Qed.
Theorem C113_after_search gt select ma mb la lb (fa fb : list bool) :
  TriTriSpec.tells_zero gt → (∀ n k, Permutation (select n k) k) →
  operand ma → operand mb → general_position ma mb →
  get_mesh_intersections_3 gt select ma mb = Some (la, lb) →
  length fa = length la → length fb = length lb →
  nverts ma + 4 * N.of_nat (length la) < umax → nverts mb + 4 * N.of_nat (length lb) < umax →
  (∃ m' l', allocate ma (zip_with seg_of la fa) = Some (m', l') ∧ WellFormed m') ∧
  (∃ m' l', allocate mb (zip_with seg_of lb fb) = Some (m', l') ∧ WellFormed m').
Proof.
  intros Hgt Hsel OA OB HG E La Lb Na Nb. destruct (C110_segments gt select ma mb Hgt Hsel OA OB HG) as (l&E1&H1&_&_).
  rewrite E in E1. injection E1 as -> ->.
  assert (∀ m (k : list cutseg) fl, WellFormed m → (∀ c, c ∈ k → ∃ f x y, cut_on m f c x y) → length fl = length k →
    nverts m + 4 * N.of_nat (length k) < umax → ∃ m' l', allocate m (zip_with seg_of k fl) = Some (m', l') ∧ WellFormed m') as HA.
  { intros m k fl HW Hk El Hn. destruct (C113_allocation m (zip_with seg_of k fl)) as (m'&l'&Ea&W&_); [done| | |by eauto].
    - intros h p (s&Hs&_&Hc). apply elem_of_lookup_zip_with in Hs as (n&c&b&->&Hc'&_). apply elem_of_list_lookup_2 in Hc'.
      destruct (Hk c Hc') as (f&x&y&_&_&_&Hx&Hy). cbn in Hc. destruct Hc as [[-> _]|[-> _]]; by eapply names_hints.
    - rewrite zip_with_length_l by lia. done. }
  split; (apply HA; [apply OA || apply OB| |done|done]).
  - intros c (s&->&Hs)%elem_of_list_fmap. destruct (H1 s Hs) as (f&?&?&?&x&y&_&_&_&Hc&_). by exists f, x, y.
  - intros c (s&->&Hs)%elem_of_list_fmap. destruct (H1 s Hs) as (?&f&?&?&x&y&_&_&_&_&Hc&_). by exists f, x, y.
Qed.
Print Assumptions C113_after_search.

(** C114: if the points are around the origin and those at different places differ by more
    than 1.001 millionths in some coordinate, if ends on vertices are exactly there, and if
    the mesh has no two vertices at the same place, then every end gets a vertex exactly at
    its point, two ends get the same vertex exactly if they are at the same point, and
    there are still no two vertices at the same place. *)
Lemma eq3_equiv : Equivalence GeomSpec.eq3.
Proof.
  split.
  - intros [[x y] z]. done.
  - intros [[x y] z] [[x' y'] z'] (A&B&C). split; [|split]; by symmetry.
  - intros [[x y] z] [[x' y'] z'] [[x2 y2] z2] (A&B&C) (A'&B'&C'). split; [|split]; etrans; eassumption.
Qed.
Theorem C114_exact m l m' l' : WellFormed m → ends_ok m l → nverts m + 4 * N.of_nat (length l) < umax →
  separated m l → vertices_right eq3 m l → no_double eq3 m →
  allocate m l = Some (m', l') →
  no_double eq3 m' ∧ (∀ h p v, given l l' h p v → stands eq3 m' v p) ∧
  (∀ h p v h' q w, given l l' h p v → given l l' h' q w → v = w ↔ eq3 p q).
Proof.
  intros HW OK Hn HS HV HD E. destruct (C113_allocation m l HW OK Hn) as (m1&l1&E1&HW'&HG&HF). rewrite E in E1. injection E1 as <- <-.
  apply (allocate_exact point_key rat_hit eq3 eq3_equiv m l m' l'); try done.
  - intros h p h' q He He' Ek. assert (point_of m l p) as P1 by (right; eauto). assert (point_of m l q) as P2 by (right; eauto).
    apply HS; [done|done|]. apply AllocKey.key_within; [by eapply HS|by eapply HS|done].
  - intros q p Pq Pp. split; [|apply AllocKey.hit_eq3]. intros Hh. apply HS; [done|done|]. by apply AllocKey.hit_within.
Qed.
Print Assumptions C114_exact.

(** ** Deciding the conditions on concrete meshes *)
Definition pts (m : mesh p3) : list p3 := map (λ e, vpos e.2) (map_to_list (verts m)).
Definition eps (l : list (gseg p3)) : list p3 := flat_map (λ s, [g_pa s; g_pb s]) l.
Definition withinb (d : Q) (p q : p3) : bool :=
  let '(x, y, z) := p in let '(x', y', z') := q in Qle_bool (Qabs (x - x')) d && Qle_bool (Qabs (y - y')) d && Qle_bool (Qabs (z - z')) d.
Definition eq3b (p q : p3) : bool := let '(x, y, z) := p in let '(x', y', z') := q in Qeq_bool x x' && Qeq_bool y y' && Qeq_bool z z'.
Definition aroundb (p : p3) : bool := let '(x, y, z) := p in Qle_bool (Qabs x) 1000 && Qle_bool (Qabs y) 1000 && Qle_bool (Qabs z) 1000.
Definition separatedb m l : bool :=
  let ps := pts m ++ eps l in forallb (λ p, aroundb p && forallb (λ q, negb (withinb cell p q) || eq3b p q) ps) ps.
Definition singleb m : bool :=
  let vs := map_to_list (verts m) in forallb (λ e, forallb (λ e', negb (eq3b (vpos e.2) (vpos e'.2)) || (e.1 =? e'.1)) vs) vs.
Definition no_vertex_ends l : bool := forallb (λ s, is_some (h_faces (g_a s)) && is_some (h_faces (g_b s))) l.
Lemma eq3b_ok p q : eq3b p q = true ↔ eq3 p q.
Proof. destruct p as [[x y] z], q as [[x' y'] z']. cbn. rewrite !andb_true_iff, !Qeq_bool_iff. tauto. Qed.
Lemma point_of_pts m l p : point_of m l p → p ∈ pts m ++ eps l.
Proof.
  intros [(v&x&Hx&<-)|(h&s&Hs&_&Hc)]; apply elem_of_app.
  - left. apply elem_of_list_In, in_map_iff. exists (v, x). split; [done|]. by apply elem_of_list_In, elem_of_map_to_list.
  - right. apply elem_of_list_In, in_flat_map. exists s. split; [by apply elem_of_list_In|]. destruct Hc as [[_ ->]|[_ ->]]; [by left|right; by left].
Qed.
Lemma separatedb_ok m l : separatedb m l = true → separated m l.
Proof.
  unfold separatedb. rewrite forallb_forall. intros H p q Hp%point_of_pts%elem_of_list_In Hq%point_of_pts%elem_of_list_In.
  specialize (H p Hp). apply andb_true_iff in H as [H1 H2]. rewrite forallb_forall in H2. specialize (H2 q Hq). split.
  - destruct p as [[x y] z]. unfold aroundb in H1. rewrite !andb_true_iff, !Qle_bool_iff in H1. cbn. tauto.
  - intros Hw. apply orb_true_iff in H2 as [H2%negb_true_iff|H2]; [|by apply eq3b_ok]. exfalso.
    assert (withinb cell p q = true) as X; [|congruence]. destruct p as [[x y] z], q as [[x' y'] z']. cbn in Hw |- *. rewrite !andb_true_iff, !Qle_bool_iff. tauto.
Qed.
Lemma singleb_ok m : singleb m = true → no_double eq3 m.
Proof.
  unfold singleb. rewrite forallb_forall. intros H v w x y Hx Hy E. specialize (H (v, x)). feed specialize H.
  { by apply elem_of_list_In, elem_of_map_to_list. }
  rewrite forallb_forall in H. specialize (H (w, y)). feed specialize H. { by apply elem_of_list_In, elem_of_map_to_list. }
  cbn [fst snd] in H. apply eq3b_ok in E. rewrite E in H. by apply N.eqb_eq.
Qed.
Lemma no_vertex_ends_ok m l : no_vertex_ends l = true → vertices_right eq3 m l.
Proof.
  unfold no_vertex_ends. rewrite forallb_forall. intros H h p i (s&Hs&_&Hc) Hi. exfalso. apply elem_of_list_In in Hs. specialize (H s Hs).
  apply andb_true_iff in H as [H1 H2]. unfold at_vertex in Hi. destruct Hc as [[-> _]|[-> _]]; rewrite Hi in *; discriminate.
Qed.

(** the segments found on the two tetrahedra of C110, and the vertices they get *)
Definition cuts (ta tb : list (op pt)) : list (gseg p3) * list (gseg p3) :=
  match get_mesh_intersections_3 ClaimsTriTri.gtq in_order (mesh_of ta) (mesh_of tb) with
  | Some (la, lb) => (map (λ c, seg_of c false) la, map (λ c, seg_of c false) lb)
  | None => ([], [])
  end.
Definition allocated (r : option (mesh p3 * list (gseg p3))) : option (N * list (option N * option N)) :=
  match r with Some (m, l) => Some (nverts m, map (λ s, (g_va s, g_vb s)) l) | None => None end.
Lemma cuts_ok ta tb : WellFormed (mesh_of ta) → WellFormed (mesh_of tb) → operandb (mesh_of ta) = true → operandb (mesh_of tb) = true → all_general (mesh_of ta) (mesh_of tb) = true →
  ends_ok (mesh_of ta) (cuts ta tb).1 ∧ ends_ok (mesh_of tb) (cuts ta tb).2.
Proof.
  intros WA WB A B G. destruct (C110_segments ClaimsTriTri.gtq in_order (mesh_of ta) (mesh_of tb)) as (l&E&H1&_&_).
  { apply ClaimsTriTri.gtq_tells. } { intros n k. done. } { by apply operandb_ok. } { by apply operandb_ok. } { by apply all_general_ok. }
  unfold cuts. rewrite E. split; intros h p (s&Hs&_&Hc); apply elem_of_list_fmap in Hs as (c&->&Hc'); apply elem_of_list_fmap in Hc' as (d&->&Hd);
    destruct (H1 d Hd) as (f&g&?&?&x&y&_&_&_&(_&_&_&X1&X2)&(_&_&_&Y1&Y2)&_); cbn in Hc.
  - destruct Hc as [[-> _]|[-> _]]; by eapply names_hints.
  - destruct Hc as [[-> _]|[-> _]]; by eapply names_hints.
Qed.
Example C113_example : let ma := mesh_of tet_a in let mb := mesh_of tet_b in
  WellFormed ma ∧ WellFormed mb ∧ ends_ok ma (cuts tet_a tet_b).1 ∧ ends_ok mb (cuts tet_a tet_b).2 ∧
  separated ma (cuts tet_a tet_b).1 ∧ separated mb (cuts tet_a tet_b).2 ∧
  vertices_right eq3 ma (cuts tet_a tet_b).1 ∧ vertices_right eq3 mb (cuts tet_a tet_b).2 ∧ no_double eq3 ma ∧ no_double eq3 mb ∧
  allocated (allocate ma (cuts tet_a tet_b).1) = Some (7, [(Some 4, Some 5); (Some 5, Some 6); (Some 6, Some 4)]) ∧
  allocated (allocate mb (cuts tet_a tet_b).2) = Some (7, [(Some 4, Some 5); (Some 5, Some 6); (Some 6, Some 4)]).
Proof.
  cbv zeta. split; [apply tet_a_wf|]. split; [apply tet_b_wf|].
  destruct (cuts_ok tet_a tet_b) as [X Y]; [apply tet_a_wf|apply tet_b_wf|vm_compute; reflexivity..|]. split; [exact X|]. split; [exact Y|].
  split; [apply separatedb_ok; vm_compute; reflexivity|]. split; [apply separatedb_ok; vm_compute; reflexivity|].
  split; [apply no_vertex_ends_ok; vm_compute; reflexivity|]. split; [apply no_vertex_ends_ok; vm_compute; reflexivity|].
  split; [apply singleb_ok; vm_compute; reflexivity|]. split; [apply singleb_ok; vm_compute; reflexivity|].
  split; vm_compute; reflexivity.
Qed.

(** C114 without the condition on distances is false, with exact arithmetic too: a corner
    of one tetrahedron reaches about two millionths into another one. They cut each other
    along three segments longer than a millionth, and on the first of them all the ends get
    one and the same vertex. *)
Definition small_a := tetra (-(1)) (-(1)) (-(1)) (12582910 # 4194304).
Definition small_b := tetra (-(2 # 4194304)) (-(2 # 4194304)) (-(2 # 4194304)) 8.
Lemma small_a_wf : WellFormed (mesh_of small_a). Proof. by_wf. Qed.
Lemma small_b_wf : WellFormed (mesh_of small_b). Proof. by_wf. Qed.
Definition tinyb (a b : p3) : bool := Qle_bool (TriTriSpec.dsq a b) ((1 # 1000000) * (1 # 1000000)).
Theorem C114_small_refuted : ∃ ma mb : mesh p3, ∃ la lb,
  operand ma ∧ operand mb ∧ general_position ma mb ∧ no_double eq3 ma ∧ no_double eq3 mb ∧
  get_mesh_intersections_3 ClaimsTriTri.gtq in_order ma mb = Some (la, lb) ∧
  length la = 3%nat ∧ (∀ c, c ∈ la → ¬ tiny (ct_pa c) (ct_pb c)) ∧
  allocated (allocate ma (map (λ c, seg_of c false) la)) = Some (5, [(Some 4, Some 4); (Some 4, Some 4); (Some 4, Some 4)]) ∧
  allocated (allocate mb (map (λ c, seg_of c false) lb)) = Some (7, [(Some 4, Some 5); (Some 5, Some 6); (Some 6, Some 4)]).
Proof.
  exists (mesh_of small_a), (mesh_of small_b).
  assert (operandb (mesh_of small_a) = true) as A by (vm_compute; reflexivity). assert (operandb (mesh_of small_b) = true) as B by (vm_compute; reflexivity).
  assert (all_general (mesh_of small_a) (mesh_of small_b) = true) as G by (vm_compute; reflexivity).
  assert (singleb (mesh_of small_a) = true) as SA by (vm_compute; reflexivity). assert (singleb (mesh_of small_b) = true) as SB by (vm_compute; reflexivity).
  assert (match get_mesh_intersections_3 ClaimsTriTri.gtq in_order (mesh_of small_a) (mesh_of small_b) with
    | Some (la, lb) => Some (length la, forallb (λ c, negb (tinyb (ct_pa c) (ct_pb c))) la, allocated (allocate (mesh_of small_a) (map (λ c, seg_of c false) la)), allocated (allocate (mesh_of small_b) (map (λ c, seg_of c false) lb)))
    | None => None end = Some (3%nat, true, Some (5, [(Some 4, Some 4); (Some 4, Some 4); (Some 4, Some 4)]), Some (7, [(Some 4, Some 5); (Some 5, Some 6); (Some 6, Some 4)]))) as R by (vm_compute; reflexivity).
  pose proof small_a_wf as WA. pose proof small_b_wf as WB. revert A B G SA SB R WA WB. generalize (mesh_of small_a) as ma, (mesh_of small_b) as mb. intros ma mb A B G SA SB R WA WB.
  destruct (get_mesh_intersections_3 _ _ ma mb) as [[la lb]|]; [|discriminate]. exists la, lb.
  split; [by apply operandb_ok|]. split; [by apply operandb_ok|]. split; [by apply all_general_ok|]. split; [by apply singleb_ok|]. split; [by apply singleb_ok|].
  split; [done|]. injection R as R1 R2 R3 R4. split; [done|]. split; [|done].
  intros c Hc%elem_of_list_In E%Qle_bool_iff. rewrite forallb_forall in R2. specialize (R2 c Hc). unfold tinyb in R2. rewrite E in R2. discriminate.
Qed.
Print Assumptions C114_small_refuted.
