(** Properties C110 and C111: the intersection segments of two meshes.
    Vocabulary: the model BoolCutModel and the specifications MeshSpec, RaySpec,
    TriTriSpec, BoolCutSpec. *)
From Coq Require Import QArith.
From Verif Require Import MeshDemo ClaimsMeshRemesh ClaimsMeshCollapse MeshHistSpec BoolCut MeshWF ClaimsRay.
From Verif Require ClaimsTriTri.
From Verif Require Import BoolCutSpec.
Local Open Scope N_scope.

(** C110: for two closed meshes without removed faces, in general position, the search
    does not panic and answers with pairs of segments, one of each mesh. Each pair is the
    common part of a face of one and a face of the other, with hints that name where the
    ends are on these faces. Any two faces that share a point have exactly one pair. *)
Theorem C110_segments gt select ma mb :
  TriTriSpec.tells_zero gt → (∀ n l, Permutation (select n l) l) →
  operand ma → operand mb → general_position ma mb →
  ∃ l, get_mesh_intersections_3 gt select ma mb = Some (map fst l, map snd l) ∧
    (∀ s, s ∈ l → cut_of ma mb s) ∧
    (∀ fa fb p q, tri_at ma fa p → tri_at mb fb q → (∃ x, shared p q x) → ∃ s, s ∈ l ∧ ct_face s.1 = fa ∧ ct_face s.2 = fb) ∧
    NoDup (map (λ s, (ct_face s.1, ct_face s.2)) l).
Proof. intros Hgt Hsel OA OB. by apply intersections_ok. Qed.
Print Assumptions C110_segments.

(** C111: under the same conditions the answer is empty exactly if the surfaces share no
    point. *)
Lemma shared_surface (ma mb : mesh p3) x : (∃ fa fb p q, tri_at ma fa p ∧ tri_at mb fb q ∧ shared p q x) ↔ on_surface ma x ∧ on_surface mb x.
Proof.
  split.
  - intros (fa&fb&p&q&Hp&Hq&[H1 H2]). split; eexists _, _, _, _; done.
  - intros [(fa&a&b&c&Hc&Hi) (fb&a'&b'&c'&Hc'&Hi')]. exists fa, fb, (a, b, c), (a', b', c'). done.
Qed.
Theorem C111_empty gt select ma mb :
  TriTriSpec.tells_zero gt → (∀ n l, Permutation (select n l) l) →
  operand ma → operand mb → general_position ma mb →
  get_mesh_intersections_3 gt select ma mb = Some ([], []) ↔ ∀ x, ¬ (on_surface ma x ∧ on_surface mb x).
Proof.
  intros Hgt Hsel OA OB HG. destruct (C110_segments gt select ma mb Hgt Hsel OA OB HG) as (l&E&H1&H2&_). rewrite E. split.
  - intros [= El _] x (fa&fb&p&q&Hp&Hq&Hx)%shared_surface. destruct (H2 fa fb p q Hp Hq (ex_intro _ x Hx)) as (s&Hs&_).
    destruct l; [by apply elem_of_nil in Hs|discriminate].
  - intros H. destruct l as [|s l]; [done|]. exfalso. destruct (H1 s ltac:(left)) as (fa&fb&p&q&x&y&Hp&Hq&[Hx _]&_).
    apply (H x), shared_surface. by exists fa, fb, p, q.
Qed.
Print Assumptions C111_empty.

(** ** Deciding the conditions on concrete meshes *)
Definition operandb (m : mesh p3) : bool := (0 <? nfaces m) && all_live m && closedb m.
Lemma operandb_ok m : WellFormed m → operandb m = true → operand m.
Proof.
  intros HW H. apply andb_true_iff in H as [[H1 H2]%andb_true_iff H3]. split; [done|]. split; [by apply N.ltb_lt|].
  split; [intros f Hf; by apply all_live_ok|]. apply closedb_ok in H3; [|done]. by destruct H3 as (_&H3&_).
Qed.
Definition no_edgeb (p q : tri) : bool :=
  let i t k := ClaimsTriTri.in_planeb t k in
  negb ((i q (corner_of p 0) || i q (corner_of p 1)) && (i q (corner_of p 1) || i q (corner_of p 2)) && (i q (corner_of p 0) || i q (corner_of p 2))).
Definition generalb (p q : tri) : bool :=
  negb (TriTriModel.vzero (TriTriModel.normal p)) && negb (TriTriModel.vzero (TriTriModel.normal q)) && no_edgeb p q && no_edgeb q p.
Lemma generalb_ok p q : generalb p q = true → general p q.
Proof.
  unfold generalb, no_edgeb. rewrite !andb_true_iff, !negb_true_iff. intros [[[S1 S2] N1] N2].
  apply ClaimsTriTri.no_edge in N1 as [N1 N3], N2 as [N2 _]. split; [by apply ClaimsTriTri.solid_b|]. split; [by apply ClaimsTriTri.solid_b|].
  split; [done|]. by split.
Qed.
Definition all_general (ma mb : mesh p3) : bool := all_faces (λ a b c, all_faces (λ a' b' c', generalb (a, b, c) (a', b', c')) mb) ma.
Lemma all_general_ok ma mb : WellFormed ma → WellFormed mb → all_general ma mb = true → general_position ma mb.
Proof.
  intros WA WB H fa fb p q Hp Hq _. pose proof (all_faces_ok _ ma _ _ _ _ WA H Hp) as H'. cbn beta in H'.
  pose proof (all_faces_ok _ mb _ _ _ _ WB H' Hq) as H''. cbn beta in H''. apply generalb_ok.
  by destruct p as [[? ?] ?], q as [[? ?] ?].
Qed.

Definition tetra (x y z s : Q) : list (op pt) :=
  build [(x, y, z); (x + s, y, z); (x, y + s, z); (x, y, z + s)]%Q [(0, 2, 1); (0, 1, 3); (0, 3, 2); (1, 2, 3)].
Definition tet_a := tetra 0 0 0 4.
Definition tet_b := tetra 1 (1 # 2) (1 # 4) 4.
Definition tet_c := tetra 7 (1 # 2) (1 # 4) 1.
Lemma tet_a_wf : WellFormed (mesh_of tet_a). Proof. by_wf. Qed.
Lemma tet_b_wf : WellFormed (mesh_of tet_b). Proof. by_wf. Qed.
Lemma tet_c_wf : WellFormed (mesh_of tet_c). Proof. by_wf. Qed.
Definition nsegs (r : option (list cutseg * list cutseg)) : option (nat * nat) :=
  match r with Some (a, b) => Some (length a, length b) | None => None end.

Example C110_example : let ma := mesh_of tet_a in let mb := mesh_of tet_b in
  operand ma ∧ operand mb ∧ general_position ma mb ∧
  nsegs (get_mesh_intersections_3 ClaimsTriTri.gtq in_order ma mb) = Some (3%nat, 3%nat).
Proof.
  cbv zeta. assert (operandb (mesh_of tet_a) = true) as A by (vm_compute; reflexivity). assert (operandb (mesh_of tet_b) = true) as B by (vm_compute; reflexivity).
  assert (all_general (mesh_of tet_a) (mesh_of tet_b) = true) as G by (vm_compute; reflexivity).
  split; [apply operandb_ok; [apply tet_a_wf|exact A]|]. split; [apply operandb_ok; [apply tet_b_wf|exact B]|].
  split; [apply all_general_ok; [apply tet_a_wf|apply tet_b_wf|exact G]|]. vm_compute. reflexivity.
Qed.

(** two tetrahedra that do not meet *)
Example C111_example : let ma := mesh_of tet_a in let mb := mesh_of tet_c in
  operand ma ∧ operand mb ∧ general_position ma mb ∧
  get_mesh_intersections_3 ClaimsTriTri.gtq in_order ma mb = Some ([], []).
Proof.
  cbv zeta. assert (operandb (mesh_of tet_a) = true) as A by (vm_compute; reflexivity). assert (operandb (mesh_of tet_c) = true) as B by (vm_compute; reflexivity).
  assert (all_general (mesh_of tet_a) (mesh_of tet_c) = true) as G by (vm_compute; reflexivity).
  split; [apply operandb_ok; [apply tet_a_wf|exact A]|]. split; [apply operandb_ok; [apply tet_c_wf|exact B]|].
  split; [apply all_general_ok; [apply tet_a_wf|apply tet_c_wf|exact G]|]. vm_compute. reflexivity.
Qed.

(** ** What goes wrong *)
(** C110: if an edge on the border of an open mesh meets the other mesh, the search panics *)
Definition sheet : list (op pt) := build [(-(1), 1, 1); (2, 1, 1); (1, 1, 9)]%Q [(0, 1, 2)].
Lemma sheet_wf : WellFormed (mesh_of sheet). Proof. by_wf. Qed.
Theorem C110_border_refuted : ∃ ma mb : mesh p3, WellFormed ma ∧ 0 < nfaces ma ∧ no_removed ma ∧ operand mb ∧ general_position ma mb ∧
  get_mesh_intersections_3 ClaimsTriTri.gtq in_order ma mb = None.
Proof.
  exists (mesh_of sheet), (mesh_of tet_a). assert (operandb (mesh_of tet_a) = true) as B by (vm_compute; reflexivity).
  assert (all_general (mesh_of sheet) (mesh_of tet_a) = true) as G by (vm_compute; reflexivity).
  assert (all_live (mesh_of sheet) = true) as L by (vm_compute; reflexivity).
  split; [apply sheet_wf|]. split; [vm_compute; reflexivity|]. split; [intros f Hf; by apply all_live_ok|].
  split; [apply operandb_ok; [apply tet_a_wf|exact B]|].
  split; [apply all_general_ok; [apply sheet_wf|apply tet_a_wf|exact G]|]. vm_compute. reflexivity.
Qed.

(** C111: a removed face is still cut: the surfaces share no point, and segments are
    reported *)
Definition gone : list (op pt) :=
  build [(-(9), -(9), 1); (20, -(9), 1); (-(9), 20, 1); (50, 0, 0); (54, 0, 0); (50, 4, 0)]%Q [(0, 1, 2); (3, 4, 5)] ++ [RemoveTriangle 0].
Lemma gone_wf : WellFormed (mesh_of gone). Proof. by_wf. Qed.
Definition lowb (a b c : p3) : bool := let x (p : p3) := p.1.1 in Qle_bool (x a) 10 && Qle_bool (x b) 10 && Qle_bool (x c) 10.
Definition highb (a b c : p3) : bool := let x (p : p3) := p.1.1 in Qle_bool 50 (x a) && Qle_bool 50 (x b) && Qle_bool 50 (x c).
Theorem C111_removed_refuted : ∃ ma mb : mesh p3, operand ma ∧ WellFormed mb ∧ 0 < nfaces mb ∧
  (∀ x, ¬ (on_surface ma x ∧ on_surface mb x)) ∧
  ∃ n, nsegs (get_mesh_intersections_3 ClaimsTriTri.gtq in_order ma mb) = Some (S n, S n).
Proof.
  exists (mesh_of tet_a), (mesh_of gone). assert (operandb (mesh_of tet_a) = true) as A by (vm_compute; reflexivity).
  split; [apply operandb_ok; [apply tet_a_wf|exact A]|]. split; [apply gone_wf|]. split; [vm_compute; reflexivity|]. split.
  - assert (all_faces lowb (mesh_of tet_a) = true) as H1 by (vm_compute; reflexivity). assert (all_faces highb (mesh_of gone) = true) as H2 by (vm_compute; reflexivity).
    pose proof tet_a_wf as W1. pose proof gone_wf as W2. revert H1 H2 W1 W2. generalize (mesh_of tet_a) as ma, (mesh_of gone) as mb. clear.
    intros ma mb H1 H2 W1 W2 x [(f&a&b&c&Hc&Hi) (g&a'&b'&c'&Hc'&Hi')].
    pose proof (all_faces_ok _ ma _ _ _ _ W1 H1 Hc) as X. pose proof (all_faces_ok _ mb _ _ _ _ W2 H2 Hc') as Y. unfold lowb, highb in X, Y.
    rewrite !andb_true_iff, !Qle_bool_iff in X, Y. destruct x as [[x0 x1] x2], a as [[a0 a1] a2], b as [[b0 b1] b2], c as [[c0 c1] c2], a' as [[d0 d1] d2], b' as [[e0 e1] e2], c' as [[f0 f1] f2].
    cbn [fst snd] in *. destruct Hi as (u&v&w&U&V&W&S&E&_), Hi' as (u'&v'&w'&U'&V'&W'&S'&E'&_).
    assert (x0 <= 10)%Q as L1 by Lqa.nra. assert (50 <= x0)%Q as L2 by Lqa.nra. Lqa.lra.
  - eexists. vm_compute. reflexivity.
Qed.
Print Assumptions C110_border_refuted.
Print Assumptions C111_removed_refuted.
