(** Properties C137 and C138: the face adjacency graph and the face pairs beside
    segments. Vocabulary: AdjGraphModel, AdjGraphSpec. *)
From Verif Require Import AdjGraph ClaimsMeshQuery MeshDemo MeshHistSpec.
From Verif Require Import AdjGraphSpec.
Local Open Scope N_scope.

(** C137, faces in use: whenever the graph is returned it has one entry for each face
    number, and the entry of a face in use lists the faces across its three sides, one
    for each side that has one, in the order of the sides. *)
Theorem C137_live_partial : ∀ P (m : mesh P) G, WellFormed m → build_face_adjacency_graph m = Some G →
  (∀ f, is_Some (G !! f) ↔ f < nfaces m) ∧
  (∀ f a b c, oriented_face m f a b c → ∃ o0 o1 o2, G !! f = Some (omap id [o0; o1; o2]) ∧
    other_side m a b o0 ∧ other_side m b c o1 ∧ other_side m c a o2).
Proof.
  intros P m G W HG. pose proof (graph_ok m G HG) as Hl. split.
  - intros f. rewrite Hl. destruct (N.ltb_spec f (nfaces m)) as [Hlt|Hge]; [|split; [by intros []|lia]].
    split; [done|]. intros _. unfold build_face_adjacency_graph in HG. destruct (mapM _ _) as [ls|] eqn:E; [|done].
    assert (is_Some (mapM (λ f, l ← graph_entry m f; Some (f, l)) (range (nfaces m)))) as Hs by (rewrite E; eauto).
    rewrite mapM_is_Some, Forall_forall in Hs. destruct (Hs f) as [y Hy]; [by apply range_spec|]. cbn in Hy.
    destruct (graph_entry m f); [eauto|done].
  - intros f a b c Ho. destruct (graph_entry_ok m f a b c) as (o0&o1&o2&E&H); [by apply WF_iff|done|].
    exists o0, o1, o2. split; [|done]. rewrite Hl, E. rewrite (proj2 (N.ltb_lt _ _)); [done|].
    apply (wfs_faces _ W). destruct Ho as (?&?&?&?&?&?&?). naive_solver.
Qed.
Print Assumptions C137_live_partial.

(** C137, neighbours: among faces in use the graph is the relation of sharing a side, so
    it lists every neighbour on both sides and no face beside itself. *)
Theorem C137_neighbours_partial : ∀ P (m : mesh P) G f g l, WellFormed m → build_face_adjacency_graph m = Some G →
  live_face m f → live_face m g → G !! f = Some l → 
  (g ∈ l ↔ share_edge m f g) ∧ (∃ l', G !! g = Some l' ∧ (f ∈ l' ↔ g ∈ l)) ∧ f ∉ l ∧ (length l ≤ 3)%nat.
Proof.
  intros P m G f g l W HG Hf Hg Hl. destruct (C137_live_partial P m G W HG) as [_ H].
  assert (∀ f l, live_face m f → G !! f = Some l → (∀ g, g ∈ l ↔ share_edge m f g) ∧ (length l ≤ 3)%nat) as K.
  { clear f l Hf Hl. intros f l Hf Hl. destruct (wfs_face _ W f Hf) as (a&b&c&Ho). destruct (H f a b c Ho) as (o0&o1&o2&E&H0&H1&H2).
    rewrite Hl in E. apply Some_inj in E. subst l. split.
    - intros g'. rewrite elem_of_list_omap. unfold share_edge, cycle_face. split.
      + intros (o&Ho'&Eo). unfold id in Eo. subst o. rewrite !elem_of_cons, elem_of_nil in Ho'. destruct Ho' as [E|[E|[E|[]]]].
        * apply eq_sym, H0 in E as [w Hw]. exists a, b, c, w. split; [by left|exact Hw].
        * apply eq_sym, H1 in E as [w Hw]. exists b, c, a, w. split; [by right; right|exact Hw].
        * apply eq_sym, H2 in E as [w Hw]. exists c, a, b, w. split; [by right; left|exact Hw].
      + intros (u&v&w&w'&Hc&Hc'). exists (Some g'). split; [|done]. rewrite !elem_of_cons.
        assert (∀ a' b' c', oriented_face m f a' b' c' → (a', b', c') = (a, b, c)) as Hu.
        { intros a' b' c' Ho'. apply WF_iff in W as HW.
          destruct (face_half_edges_ok m HW f _ _ _ Ho) as (?&?&?&_&_&_&_&_&_&E1).
          destruct (face_half_edges_ok m HW f _ _ _ Ho') as (?&?&?&_&_&_&_&_&_&E2). congruence. }
        destruct Hc as [Hc|[Hc|Hc]]; apply Hu in Hc; injection Hc as ? ? ?; subst.
        * left. symmetry. apply H0. by exists w'.
        * right; right; left. symmetry. apply H2. by exists w'.
        * right; left. symmetry. apply H1. by exists w'.
    - destruct o0, o1, o2; cbn; lia. }
  destruct (K f l Hf Hl) as [K1 K2]. split; [apply K1|]. split; [|split; [|done]].
  - destruct (wfs_face _ W g Hg) as (a&b&c&Ho). destruct (H g a b c Ho) as (o0&o1&o2&E&_). eexists. split; [exact E|].
    rewrite (proj1 (K g _ Hg E)), K1. unfold share_edge. split; intros (u&v&w&w'&?&?); by exists v, u, w', w.
  - rewrite K1. intros (u&v&w&w'&H1&H2). apply WF_iff in W as HW. 
    destruct (cycle_face_inv _ _ _ _ _ (wf_si _ HW) H1) as (h&HL&Hfh&Et&Eh&_).
    destruct (cycle_face_inv _ _ _ _ _ (wf_si _ HW) H2) as (k&HLk&Hfk&Etk&Ehk&_).
    assert (tw m h = k) as Ek by (apply (same_tw m); try done; congruence).
    apply (no_self_glue m (wf_si _ HW) h f (wf_fh _ HW) HL Hfh). by rewrite Ek.
Qed.
Print Assumptions C137_neighbours_partial.

(** C137, when the graph is returned: if every face number is in use, or is out of use
    and the half-edge recorded for it too. The entries of the latter are empty. *)
Definition gone (P : Type) (m : mesh P) (f : N) : Prop :=
  ∃ x y, faces m !! f = Some x ∧ frem x = true ∧ hes m !! fhe x = Some y ∧ hrem y = true.
Theorem C137_total_partial : ∀ P (m : mesh P), WellFormed m →
  (∀ f, f < nfaces m → live_face m f ∨ gone P m f) →
  ∃ G, build_face_adjacency_graph m = Some G ∧ ∀ f, gone P m f → G !! f = Some [].
Proof.
  intros P m W H. 
  assert (∀ f, gone P m f → graph_entry m f = Some []) as Hgone.
  { intros f (x&y&Hx&_&Hy&Hr). unfold graph_entry, get_face_half_edges_iterative.
    assert (f < nfaces m) as Hlt by (apply (wfs_faces _ W); eauto).
    rewrite (proj2 (N.leb_gt _ _)) by done. change (getF m f) with (faces m !! f). rewrite Hx. cbn [mbind option_bind].
    destruct (fhe x =? umax); [done|]. change (getH m (fhe x)) with (hes m !! fhe x). rewrite Hy. cbn [mbind option_bind]. by rewrite Hr. }
  destruct (graph_total m) as [G HG].
  { intros f Hf. destruct (H f Hf) as [Hl|Hg]; [|rewrite Hgone; eauto].
    destruct (wfs_face _ W f Hl) as (a&b&c&Ho). destruct (graph_entry_ok m f a b c) as (?&?&?&E&_); [by apply WF_iff|done|].
    rewrite E. eauto. }
  exists G. split; [done|]. intros f Hg. rewrite (graph_ok m G HG). rewrite (proj2 (N.ltb_lt _ _)); [by apply Hgone|].
  apply (wfs_faces _ W). destruct Hg as (x&y&Hx&_). eauto.
Qed.
Print Assumptions C137_total_partial.

(** C137 is false with removed faces: the entry of a removed face lists faces in use,
    whose own entries do not list it, *)
Definition tetra_ops : list (op Z) :=
  [AddVertex 0%Z; AddVertex 1%Z; AddVertex 2%Z; AddVertex 3%Z;
   AddTriangle 0 1 2; AddTriangle 0 3 1; AddTriangle 1 3 2; AddTriangle 2 3 0].
Definition open_tetra : mesh Z := build (tetra_ops ++ [RemoveTriangle 0]).
Theorem C137_removed_refuted : ∃ (m : mesh Z) G, WellFormed m ∧ build_face_adjacency_graph m = Some G ∧
  ¬ live_face m 0 ∧ live_face m 1 ∧ G !! 0 = Some [1; 2; 3] ∧ ∃ l, G !! 1 = Some l ∧ 0 ∉ l.
Proof.
  assert (WellFormed open_tetra) as W by (apply build_wf; by vm_compute).
  destruct (build_face_adjacency_graph open_tetra) as [G|] eqn:E; [|by vm_compute in E].
  assert (match build_face_adjacency_graph open_tetra with Some G => G !! 0 = Some [1; 2; 3] ∧ G !! 1 = Some [3; 2] | None => False end) as HG by (vm_compute; split; reflexivity).
  rewrite E in HG. destruct HG as [G0 G1]. exists open_tetra, G.
  split; [exact W|]. split; [exact E|]. split; [|split; [|split; [exact G0|]]].
  - intros (x&Hx&Hr). vm_compute in Hx. injection Hx as <-. done.
  - eexists. split; by vm_compute.
  - exists [3; 2]. split; [exact G1|]. rewrite !elem_of_cons, elem_of_nil. lia.
Qed.
Print Assumptions C137_removed_refuted.

(** and no graph is returned at all if the half-edge recorded for a removed face lies on
    a border of more than ten half-edges. *)
Definition fan_ops : list (op Z) :=
  AddVertex 0%Z :: ((λ i : N, AddVertex (Z.of_N (i + 1))) <$> range 12) ++
  ((λ i, AddTriangle 0 (i + 1) (i + 2)) <$> range 11) ++ [AddTriangle 0 12 1].
Theorem C137_panic_refuted : ∃ m : mesh Z, WellFormed m ∧ build_face_adjacency_graph m = None.
Proof. exists (build (fan_ops ++ [RemoveTriangle 0])). split; [apply build_wf|]; by vm_compute. Qed.
Print Assumptions C137_panic_refuted.

(** the hypotheses of C137: a closed tetrahedron *)
Example C137_case : WellFormed (build tetra_ops) ∧
  (∀ f, f < nfaces (build tetra_ops) → live_face (build tetra_ops) f ∨ gone Z (build tetra_ops) f) ∧
  match build_face_adjacency_graph (build tetra_ops) with
  | Some G => G !! 0 = Some [1; 2; 3] ∧ G !! 1 = Some [3; 2; 0] ∧ size G = 4%nat
  | None => False
  end.
Proof.
  split; [apply build_wf; by vm_compute|]. split; [|vm_compute; split_and!; reflexivity].
  intros f Hf. left. assert (f < 4) as Hf' by (revert Hf; by vm_compute).
  assert (f = 0 ∨ f = 1 ∨ f = 2 ∨ f = 3) as [->|[->|[->| ->]]] by lia; eexists; split; by vm_compute.
Qed.

(** C138: the face pairs are returned exactly if every segment is a point or an edge
    between two faces, and then they are the pairs of faces that such an edge separates,
    each once, with the smaller number first. *)
Theorem C138_boundary_map : ∀ P split contains nearer lr (m : mesh P) segs, WellFormed m →
  (is_Some (build_boundary_map split contains nearer lr m segs ∅) ↔ between_faces m segs) ∧
  (∀ S, build_boundary_map split contains nearer lr m segs ∅ = Some S →
    ∀ f g, (f, g) ∈ S ↔ f < g ∧ apart m segs f g).
Proof.
  intros P split contains nearer lr m segs W%WF_iff. destruct (boundary_ok split contains nearer lr m segs W ∅) as [H1 H2].
  split; [split; [intros [S HS]; by apply (H2 S)|done]|]. intros S HS f g. rewrite (proj2 (H2 S HS)). 
  rewrite elem_of_empty. tauto.
Qed.
Print Assumptions C138_boundary_map.

(** two edges of the tetrahedron, one of them given in both directions, and a point *)
Definition tetra_segs : list (iseg Z) :=
  [mkSeg (Some 0) (Some 1) 0%Z 1%Z false false; mkSeg (Some 1) (Some 0) 1%Z 0%Z false false;
   mkSeg (Some 2) (Some 2) 2%Z 2%Z false false; mkSeg (Some 3) (Some 2) 3%Z 2%Z false false].
Example C138_case : WellFormed (build tetra_ops) ∧
  (elements <$> build_boundary_map ∅ (λ _ _ _, false) (λ _ _ _ _, false) (λ _ _ _, None) (build tetra_ops) tetra_segs ∅)
    = Some [(0, 1); (2, 3)].
Proof. split; [apply build_wf; by vm_compute|]. vm_compute. reflexivity. Qed.
