(** Property C136: find_valid_half_edge finds a half-edge in use that holds the point.
    Vocabulary: FindHalfModel, FindHalfSpec, PointLocSpec. *)
From Verif Require Import FindHalf PointLoc ClaimsPointLoc GeomBase GeomLine MeshDemo.
From Verif Require Import MeshHistSpec.
From Verif Require Import FindHalfSpec.
Local Open Scope Q_scope.

(** C136, with recorded parts: if the parts of [h] still in use are not all gone, one of
    them is returned; no other one is nearer to the point, and it holds the point if one
    of them does. *)
Theorem C136_descendants : ∀ n fsplit split (m : mesh point) h p, WellFormed m → in_dim n m → length p = n →
  (nhes m < 1000000)%N → (h < nhes m)%N → (∀ k c, part_of split m k c → (c < nhes m)%N) →
  (∃ k, descendant split m h k) →
  ∃ k, find_half_edge fsplit split m h p = Some k ∧ descendant split m h k ∧
    (∀ k', descendant split m h k' → at_least_as_near m p k k') ∧
    ((∃ k', descendant split m h k' ∧ lies_on m p k') → lies_on m p k).
Proof.
  intros n fsplit split m h p W D Dp Hsz Hh Hin (k0&Hr0&u0&v0&Hu0).
  assert (∀ k, (∃ u v, runs m k u v) ↔ in_use m k) as Huse.
  { intros k. split; [intros (u&v&x&y&[Hx Hr]&_); by apply (live_from_to m W k x)|]. intros (a&b&u&v&H&_). eauto. }
  unfold find_half_edge, find_valid_half_edge.
  destruct (loop_ok n m p W D Dp split Hsz Hin h (2 * fuel_of m) [h] ∅ 0%N None) as (r&->&Hr).
  { intros k [->%elem_of_list_singleton|Hk]; [done|]. by apply elem_of_empty in Hk. }
  { right. by left. }
  { intros k c Hk. by apply elem_of_empty in Hk. }
  { intros k Hk. by apply elem_of_empty in Hk. }
  { done. }
  { done. }
  { rewrite size_empty. unfold fuel_of. cbn [length]. lia. }
  cbn [mbind option_bind]. unfold descendant. destruct r as [k|[k|]].
  - destruct Hr as (Hk&Hu&Hl). exists k. split; [done|]. split; [by rewrite Huse|]. split; [|done].
    intros k' [_ Hk'%Huse]. apply (gap_near n m p D Dp); [done..|]. apply (gap_zero n m p D Dp k Hu) in Hl.
    pose proof (gap_nonneg n m p D Dp k' Hk'). lra.
  - destruct Hr as [Hm Hb]. destruct (Hb k eq_refl) as [Hk Hu]. exists k. split; [done|]. split; [by rewrite Huse|]. split.
    + intros k' [Hk' Hu'%Huse]. apply (gap_near n m p D Dp); [done..|]. destruct (Hm k' Hk' Hu') as (b&[= <-]&Hg). done.
    + intros (k'&[Hk' Hu'%Huse]&Hl). destruct (Hm k' Hk' Hu') as (b&[= <-]&Hg).
      apply (gap_zero n m p D Dp k' Hu') in Hl. apply (gap_zero n m p D Dp k Hu). pose proof (gap_nonneg n m p D Dp k Hu). lra.
  - exfalso. destruct Hr as [Hm _]. destruct (Hm k0 Hr0) as (b&?&_); [|done]. apply Huse. eauto.
Qed.

(** C136, without recorded parts: the answer is a half-edge in use that fits a place of the
    foot of the point on some face: the side, the twin of some side of the face of the
    corner, or the nearest side.  Missing: that it holds the point (refuted below). *)
Theorem C136_left_over_partial : ∀ n fsplit split (m : mesh point) h f p k, WellFormed m → in_dim n m → length p = n →
  left_over split m h f → find_half_edge fsplit split m h p = Some k →
  (∃ u v, runs m k u v) ∧ ∃ r, located m p r ∧ chosen m p r k.
Proof.
  intros n fsplit split m h f p k W D Dp Hl Hk. pose proof (left_over_ok n m p W D Dp fsplit split h f Hl) as H.
  destruct (find_valid_face fsplit m f p) as [r|]; [|congruence]. destruct H as (k'&Ek&(a&b&u&v&Hr&_)&Hloc&Hc).
  assert (k' = k) as -> by congruence. split; eauto.
Qed.
(** C136, without recorded parts in space: there is an answer if the foot of the point on
    some face lies on that face *)
Theorem C136_left_over_space_partial : ∀ fsplit split (m : mesh point) h f g p, WellFormed m → in_dim 3 m → length p = 3%nat →
  no_flat_face m → split_ok m fsplit → left_over split m h f → (f < nfaces m)%N → touches m p g →
  ∃ k, find_half_edge fsplit split m h p = Some k.
Proof.
  intros fsplit split m h f g p W D Dp NF SO Hl Hf Ht. pose proof (left_over_ok 3 m p W D Dp fsplit split h f Hl) as H.
  destruct (find_space 3 m p W D Dp fsplit NF SO f g eq_refl Hf) as [r Er]; [|done|].
  { destruct Ht as (i&j&k&a&b&c&x&y&z&Hc&_). by eapply corners_live. }
  rewrite Er in H. destruct H as (k&Ek&_). eauto.
Qed.

(** C136 in the plane: a half-edge left over from a removed face is never found again; the
    search panics, whatever the point. *)
Lemma flat_ends a b c : same_dim a b → same_dim a c → ¬ flat a b c →
  is_zero (dot (psub b a) (psub b a)) || is_zero (dot (psub c a) (psub c a)) || is_zero (dot (psub c b) (psub c b)) = false.
Proof.
  intros E1 E2 NF.
  assert (∀ t, t == 0 ∨ t == 1 → length (lerp a b t) = length a ∧ (t == 0 → peq a (lerp a b t)) ∧ (t == 1 → peq b (lerp a b t))) as Hl.
  { intros t _. split; [by apply len_lerp|]. clear -E1. unfold same_dim in E1. revert b E1.
    induction a as [|x a IH]; intros [|y b] E; cbn in E; try discriminate; [split; constructor|].
    injection E as E. destruct (IH b E) as [I0 I1]. split; intros Ht; constructor; [rewrite Ht; ring|by apply I0|rewrite Ht; ring|by apply I1]. }
  assert (∀ x y : point, same_dim x y → is_zero (dot (psub y x) (psub y x)) = true → peq x y) as Hz.
  { intros x y E H. apply dot_zero; [done|]. by apply Qeq_bool_iff. }
  destruct (is_zero (dot (psub b a) (psub b a))) eqn:Z1; [exfalso; apply NF; left; by apply Hz|].
  destruct (is_zero (dot (psub c a) (psub c a))) eqn:Z2.
  { exfalso. apply NF. right. exists 0. apply (ClaimsPointLoc.peq_trans c a); [|apply Hl; lra].
    apply Hz in Z2; [|done]. clear -Z2. induction Z2; constructor; [by symmetry|done]. }
  destruct (is_zero (dot (psub c b) (psub c b))) eqn:Z3; [|done].
  exfalso. apply NF. right. exists 1. apply (ClaimsPointLoc.peq_trans c b); [|apply Hl; lra].
  apply Hz in Z3; [|unfold same_dim in *; congruence]. clear -Z3. induction Z3; constructor; [by symmetry|done].
Qed.
Lemma scan_plane (m : mesh point) p fs : WellFormed m → in_dim 2 m → length p = 2%nat → no_flat_face m → (∀ f, f ∈ fs → (f < nfaces m)%N) →
  face_scan m p fs None None = None ∨ face_scan m p fs None None = Some None.
Proof.
  intros W D Dp NF. induction fs as [|f fs IH]; intros Hin; [by right|]. cbn [face_scan].
  destruct (wfs_faces _ W f) as [_ [x Hx]]; [apply Hin; by left|]. unfold getF. rewrite Hx. cbn [mbind option_bind].
  destruct (frem x) eqn:Er; [apply IH; intros; apply Hin; by right|]. left.
  destruct (corners_ex m W f) as (i&j&k&a&b&c&Ho&Hc); [by exists x|].
  destruct (corners_dims 2 m p D Dp _ _ _ _ _ _ _ Hc) as (E1&E2&_).
  pose proof (NF _ _ _ _ _ _ _ Hc) as Hnf. destruct Hc as (_&A&B&C).
  unfold live_face_degenerate. rewrite (face_vertices_at m _ _ _ _ Ho). cbn [mbind option_bind].
  rewrite (place_of_ok m _ _ A), (place_of_ok m _ _ B), (place_of_ok m _ _ C). cbn [mbind option_bind]. cbv zeta.
  rewrite (flat_ends a b c E1 E2 Hnf).
  apply (dim_at 2 m D) in A, B. destruct a as [|a1 [|a2 []]]; try discriminate. destruct b as [|b1 [|b2 []]]; try discriminate. done.
Qed.
Theorem C136_plane_refuted : ∀ split (m : mesh point) h f p, WellFormed m → in_dim 2 m → length p = 2%nat →
  no_flat_face m → left_over split m h f → (f < nfaces m)%N → ¬ live_face m f →
  find_half_edge ∅ split m h p = None.
Proof.
  intros split m h f p W D Dp NF Hl Hf Hnl. pose proof (left_over_ok 2 m p W D Dp ∅ split h f Hl) as H.
  assert (find_valid_face ∅ m f p = None) as E; [|by rewrite E in H].
  unfold find_valid_face. destruct (wfs_faces _ W f) as [_ [x Hx]]; [done|].
  assert (∃ k, face_fuel ∅ m = S (S k)) as [k ->] by (unfold face_fuel; eexists; reflexivity).
  cbn [face_bfs]. rewrite bool_decide_eq_false_2 by set_solver. change (getF m f) with (faces m !! f). rewrite Hx. cbn [mbind option_bind].
  assert (frem x = true) as ->. { destruct (frem x) eqn:Er; [done|]. exfalso. apply Hnl. by exists x. }
  cbn [negb]. rewrite lookup_empty. cbn [mbind option_bind].
  destruct (scan_plane m p (range (nfaces m)) W D Dp NF) as [-> | ->]; [intros g Hg; by apply range_spec|done..].
Qed.

(** ** Concrete meshes *)
(** a square of two triangles whose diagonal was split, and a tetrahedron with a split edge *)
Definition square_ops (d : list Q) : list (op point) :=
  map AddVertex [[0; 0] ++ d; [4; 0] ++ d; [4; 4] ++ d; [0; 4] ++ d] ++
  map (λ '(a, b, c), AddTriangle a b c) [(0, 1, 2); (0, 2, 3)]%N ++ [SplitEdgeBy 4%N None ([2; 2] ++ d)].
Definition mesh_of (l : list (op point)) : mesh point := default mesh_new (exec_all any_degen mesh_new l).
Definition square : mesh point := mesh_of (square_ops [0]).
Definition square_2 : mesh point := mesh_of (square_ops []).
Definition cut_tet : mesh point := mesh_of (tet_ops ++ [SplitEdgeBy 2%N None [2; 2; 0]]).
Definition mesh_okb (l : list (op point)) : bool :=
  all_legalb any_degen mesh_new l && (8 * N.of_nat (length l) <=? umax)%N && match exec_all any_degen mesh_new l with Some _ => true | None => false end.
Lemma mesh_of_wf l : mesh_okb l = true → WellFormed (mesh_of l).
Proof.
  unfold mesh_okb, mesh_of. rewrite !andb_true_iff, N.leb_le. intros [[H1 H2] H3].
  destruct (exec_all any_degen mesh_new l) as [m|] eqn:E; [|done]. by apply (demo_wf any_degen l).
Qed.
Lemma square_wf : WellFormed square.
Proof. apply mesh_of_wf. vm_compute. reflexivity. Qed.
Lemma square_2_wf : WellFormed square_2.
Proof. apply mesh_of_wf. vm_compute. reflexivity. Qed.
Lemma cut_tet_wf : WellFormed cut_tet.
Proof. apply mesh_of_wf. vm_compute. reflexivity. Qed.

(** no live face is flat *)
Definition solid_live (m : mesh point) (p : point) : bool :=
  forallb (λ f, match faces m !! f with
                | Some x => frem x || match face_vertices m f with
                                      | Some vs => match bary_of m p vs with Some _ => true | None => false end
                                      | None => false
                                      end
                | None => false
                end) (range (nfaces m)).
Lemma solid_live_test n (m : mesh point) p : WellFormed m → in_dim n m → length p = n → solid_live m p = true → no_flat_face m.
Proof.
  intros W D Dp Hs f i j k a b c Hc Hf.
  pose proof (corners_live _ _ _ _ _ _ _ _ Hc) as Hl. destruct (live_tri m W f Hl) as (i'&j'&k'&a'&b'&c'&Ho&Hc'&Ev).
  unfold solid_live in Hs. rewrite forallb_forall in Hs. specialize (Hs f). destruct Hl as (x&Hx&Hr). rewrite <- elem_of_list_In, Hx, Hr, Ev in Hs.
  pose proof (bary_at n m p D Dp _ _ _ _ _ _ _ Hc') as Hb.
  destruct (bary_of m p (i', j', k')) as [[[u v] w]|] eqn:Eb.
  - apply (proj1 Hb). destruct (corners_dims n m p D Dp _ _ _ _ _ _ _ Hc') as (E1&E2&_).
    assert ((a, b, c) = (a', b', c') ∨ (a, b, c) = (b', c', a') ∨ (a, b, c) = (c', a', b')) as He.
    { destruct Hc as (Hcy&A&B&C), Hc' as (_&A'&B'&C').
      destruct Hcy as [H|[H|H]]; apply face_vertices_at in H; rewrite Ev in H; injection H as -> -> ->; simplify_eq; tauto. }
    destruct He as [He|[He|He]]; injection He as -> -> ->; [done|..].
    + apply flat_turn; [unfold same_dim in *; congruence..|done].
    + apply flat_turn; [unfold same_dim in *; congruence..|]. apply flat_turn; [unfold same_dim in *; congruence..|done].
  - discriminate Hs. apply range_spec. apply (wfs_faces _ W). by exists x.
Qed.
(** tests for half-edges *)
Definition left_overb (split : gmap N (N * N)) (m : mesh point) (h f : N) : bool :=
  match split !! h, hes m !! h with
  | None, Some x => hrem x && match hes m !! htwin x, hface x with Some _, Some g => (g =? f)%N | _, _ => false end
  | _, _ => false
  end.
Lemma left_over_test split m h f : left_overb split m h f = true → left_over split m h f.
Proof.
  unfold left_overb, left_over. destruct (split !! h); [done|]. destruct (hes m !! h) as [x|]; [|done]. rewrite andb_true_iff. intros [Hr H].
  destruct (hes m !! htwin x) as [y|] eqn:Ey; [|done]. destruct (hface x) as [g|] eqn:Ef; [|done]. apply N.eqb_eq in H. subst. split; [done|].
  exists x, y. split_and!; try done. by left.
Qed.
Lemma holds_by n m p h : WellFormed m → in_dim n m → length p = n → (∃ x, hes m !! h = Some x ∧ hrem x = false) →
  contains_exact m h p = true ↔ lies_on m p h.
Proof. intros W D Dp (x&Hx&Hr). apply (contains_ok n); [done..|]. by apply (live_from_to m W h x). Qed.
Definition liveb (m : mesh point) (h : N) : bool := match hes m !! h with Some x => negb (hrem x) | None => false end.
Lemma live_test m h : liveb m h = true → ∃ x, hes m !! h = Some x ∧ hrem x = false.
Proof. unfold liveb. destruct (hes m !! h) as [x|]; [|done]. intros H%negb_true_iff. by exists x. Qed.

(** C136: asked for the half-edge that was split with an end of it, the answer does not
    hold that point, though half-edges in use do. *)
Theorem C136_corner_refuted : ∃ (m : mesh point) h f p k k', WellFormed m ∧ in_dim 3 m ∧ length p = 3%nat ∧ no_flat_face m ∧
  left_over ∅ m h f ∧ lies_on m p k' ∧ find_half_edge ∅ ∅ m h p = Some k ∧ ¬ lies_on m p k.
Proof.
  exists square, 4%N, 0%N, [4; 4; 0], 13%N, 11%N. pose proof square_wf as W.
  assert (in_dim 3 square) as D by (apply dims_test; vm_compute; reflexivity).
  assert (solid_live square [1; 3; 0] = true) as Hs by (vm_compute; reflexivity).
  assert (left_overb ∅ square 4 0 = true) as Hl by (vm_compute; reflexivity).
  assert (contains_exact square 11 [4; 4; 0] = true ∧ liveb square 11 = true) as [H1 L1] by (split; vm_compute; reflexivity).
  assert (contains_exact square 13 [4; 4; 0] = false ∧ liveb square 13 = true) as [H2 L2] by (split; vm_compute; reflexivity).
  assert (find_half_edge ∅ ∅ square 4 [4; 4; 0] = Some 13%N) as Hf by (vm_compute; reflexivity).
  generalize dependent square. intros m W D Hs Hl H1 L1 H2 L2 Hf.
  split; [exact W|]. split; [exact D|]. split; [reflexivity|]. split; [apply (solid_live_test 3 m [1; 3; 0]); [exact W|exact D|reflexivity|exact Hs]|].
  split; [exact (left_over_test _ _ _ _ Hl)|].
  split; [apply (holds_by 3 m [4; 4; 0] 11 W D eq_refl (live_test _ _ L1)); exact H1|]. split; [exact Hf|].
  intros H. apply (holds_by 3 m [4; 4; 0] 13 W D eq_refl (live_test _ _ L2)) in H. rewrite H2 in H. discriminate H.
Qed.
(** C136: asked with a point inside the edge that was split, the answer can lie elsewhere,
    on the foot of the point on another face *)
Theorem C136_space_refuted : ∃ (m : mesh point) h f p k k', WellFormed m ∧ in_dim 3 m ∧ length p = 3%nat ∧ no_flat_face m ∧
  left_over ∅ m h f ∧ lies_on m p k' ∧ find_half_edge ∅ ∅ m h p = Some k ∧ ¬ lies_on m p k.
Proof.
  exists cut_tet, 2%N, 0%N, [1; 3; 0], 5%N, 13%N. pose proof cut_tet_wf as W.
  assert (in_dim 3 cut_tet) as D by (apply dims_test; vm_compute; reflexivity).
  assert (solid_live cut_tet [1; 3; 0] = true) as Hs by (vm_compute; reflexivity).
  assert (left_overb ∅ cut_tet 2 0 = true) as Hl by (vm_compute; reflexivity).
  assert (contains_exact cut_tet 13 [1; 3; 0] = true ∧ liveb cut_tet 13 = true) as [H1 L1] by (split; vm_compute; reflexivity).
  assert (contains_exact cut_tet 5 [1; 3; 0] = false ∧ liveb cut_tet 5 = true) as [H2 L2] by (split; vm_compute; reflexivity).
  assert (find_half_edge ∅ ∅ cut_tet 2 [1; 3; 0] = Some 5%N) as Hf by (vm_compute; reflexivity).
  generalize dependent cut_tet. intros m W D Hs Hl H1 L1 H2 L2 Hf.
  split; [exact W|]. split; [exact D|]. split; [reflexivity|]. split; [apply (solid_live_test 3 m [1; 3; 0]); [exact W|exact D|reflexivity|exact Hs]|].
  split; [exact (left_over_test _ _ _ _ Hl)|].
  split; [apply (holds_by 3 m [1; 3; 0] 13 W D eq_refl (live_test _ _ L1)); exact H1|]. split; [exact Hf|].
  intros H. apply (holds_by 3 m [1; 3; 0] 5 W D eq_refl (live_test _ _ L2)) in H. rewrite H2 in H. discriminate H.
Qed.

(** the hypotheses are met: parts recorded for the diagonal of the square, nothing recorded,
    and the square in the plane *)
Example C136_descendants_case : let split : gmap N (N * N) := {[4%N := (11%N, 12%N)]} in
  (nhes square < 1000000)%N ∧ (4 < nhes square)%N ∧ (∀ k c, part_of split square k c → (c < nhes square)%N) ∧
  (∃ k, descendant split square 4 k) ∧ find_half_edge ∅ split square 4 [1; 1; 0] = Some 12%N ∧ find_half_edge ∅ split square 4 [4; 4; 0] = Some 11%N.
Proof.
  intros split. pose proof square_wf as W.
  assert (nhes square = 18%N) as Hn by (vm_compute; reflexivity).
  assert (left_overb ∅ square 4 0 = true ∧ liveb square 11 = true) as [Hl L1] by (split; vm_compute; reflexivity).
  assert (find_half_edge ∅ split square 4 [1; 1; 0] = Some 12%N ∧ find_half_edge ∅ split square 4 [4; 4; 0] = Some 11%N) as [F1 F2] by (split; vm_compute; reflexivity).
  generalize dependent square. intros m W Hn Hl L1 F1 F2. split; [lia|]. split; [lia|]. split; [|split; [|split; [exact F1|exact F2]]].
  - intros k c (_&_&cc&Hc&Hcc). unfold split in Hc. apply lookup_singleton_Some in Hc as [_ <-]. cbn in Hcc. lia.
  - exists 11%N. apply live_test in L1 as (x&Hx&Hr). destruct (live_from_to m W 11 x Hx Hr) as (a&b&u&v&Hr'&_).
    split; [|by exists u, v]. apply rtc_once. apply left_over_test in Hl as (_&y&z&Hy&Hry&_).
    split; [by exists y|]. split; [done|]. exists (11%N, 12%N). split; [apply lookup_singleton|by left].
Qed.
Example C136_left_over_case : left_over ∅ square 4 0 ∧ (0 < nfaces square)%N ∧ in_dim 3 square ∧
  find_half_edge ∅ ∅ square 4 [1; 1; 0] = Some 12%N ∧ find_half_edge ∅ ∅ square 4 [3; 2; 0] = Some 10%N.
Proof.
  split; [apply left_over_test; vm_compute; reflexivity|]. split; [vm_compute; reflexivity|].
  split; [apply dims_test; vm_compute; reflexivity|]. split; vm_compute; reflexivity.
Qed.
Example C136_plane_case : in_dim 2 square_2 ∧ no_flat_face square_2 ∧ left_over ∅ square_2 4 0 ∧ (0 < nfaces square_2)%N ∧ ¬ live_face square_2 0.
Proof.
  assert (in_dim 2 square_2) as D by (apply dims_test; vm_compute; reflexivity). split; [done|].
  split; [apply (solid_live_test 2 square_2 [1; 3]); [exact square_2_wf|exact D|reflexivity|vm_compute; reflexivity]|].
  split; [apply left_over_test; vm_compute; reflexivity|]. split; [vm_compute; reflexivity|].
  assert (frem <$> faces square_2 !! 0%N = Some true) as H by (vm_compute; reflexivity). intros (x&Hx&Hr). rewrite Hx in H. cbn in H. congruence.
Qed.

Print Assumptions C136_descendants.
Print Assumptions C136_left_over_partial.
Print Assumptions C136_left_over_space_partial.
Print Assumptions C136_plane_refuted.
Print Assumptions C136_corner_refuted.
Print Assumptions C136_space_refuted.
