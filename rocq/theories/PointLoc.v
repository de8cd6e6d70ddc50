(** Proofs about PointLocModel. *)
From Verif Require Export PointLocSpec.
From Verif Require Import GeomBase GeomLine GeomTri VertexRay MeshInv MeshWF MeshQuery2.
From Verif Require Import PointLocSpec.
Local Open Scope Q_scope.

(** ** Feet *)
Lemma inner_dot p q a b : inner p q a b == dot (psub p q) (psub b a).
Proof. revert q a b. induction p as [|x p IH]; intros [|y q] [|s a] [|t b]; cbn; try reflexivity. rewrite IH. reflexivity. Qed.

Lemma comb_peq x y z x' y' z' a b c : x == x' → y == y' → z == z' → peq (comb x y z a b c) (comb x' y' z' a b c).
Proof.
  intros Hx Hy Hz. revert b c. induction a as [|s a IH]; intros [|t b] [|u c]; cbn; try constructor.
  - rewrite Hx, Hy, Hz. reflexivity.
  - apply IH.
Qed.
Lemma inner_peq p q q' a b : peq q q' → inner p q a b == inner p q' a b.
Proof.
  intros H. revert p a b. induction H as [|x y q q' E H IH]; intros [|z p] [|s a] [|t b]; cbn; try reflexivity.
  rewrite IH, E. reflexivity.
Qed.
Lemma foot_ext p a b c x y z x' y' z' : x == x' → y == y' → z == z' → foot p a b c x y z → foot p a b c x' y' z'.
Proof.
  intros Hx Hy Hz (H1&H2&H3). split; [lra|].
  pose proof (comb_peq x y z x' y' z' a b c Hx Hy Hz) as E.
  by rewrite <- !(inner_peq p _ _ _ _ E).
Qed.
Lemma comb_turn x y z a b c : same_dim a b → same_dim a c → peq (comb x y z a b c) (comb y z x b c a).
Proof.
  unfold same_dim. revert b c. induction a as [|s a IH]; intros [|t b] [|u c] E1 E2; cbn in *; try discriminate; constructor.
  - ring.
  - apply IH; congruence.
Qed.
Lemma inner_turn p q a b c : length p = length a → length q = length a → same_dim a b → same_dim a c →
  inner p q b c == inner p q a c - inner p q a b.
Proof.
  unfold same_dim. revert p q b c. induction a as [|s a IH]; intros [|x p] [|y q] [|t b] [|u c] E1 E2 E3 E4; cbn in *; try discriminate; [ring|].
  rewrite IH by congruence. ring.
Qed.
Lemma inner_rev p q a b : inner p q b a == - inner p q a b.
Proof. revert q a b. induction p as [|x p IH]; intros [|y q] [|s a] [|t b]; cbn; try reflexivity. rewrite IH. ring. Qed.
Lemma len_comb x y z a b c : same_dim a b → same_dim a c → length (comb x y z a b c) = length a.
Proof.
  unfold same_dim, comb. intros. rewrite !len_map2; rewrite ?map_length; try done.
  - rewrite len_map2; rewrite !map_length; congruence.
Qed.
Lemma foot_turn p a b c x y z : length p = length a → same_dim a b → same_dim a c →
  foot p a b c x y z → foot p b c a y z x.
Proof.
  intros Ep Eb Ec (H1&H2&H3). split; [lra|]. pose proof (comb_turn x y z a b c Eb Ec) as E.
  rewrite <- !(inner_peq p _ _ _ _ E). pose proof (len_comb x y z a b c Eb Ec) as El. split.
  - rewrite (inner_turn p _ a b c) by done. lra.
  - rewrite inner_rev. lra.
Qed.

Lemma foot_dots p a b c x y z : same_dim a b → same_dim a c → same_dim a p → foot p a b c x y z →
  dot (psub p a) (psub b a) == y * dot (psub b a) (psub b a) + z * dot (psub b a) (psub c a) ∧
  dot (psub p a) (psub c a) == y * dot (psub b a) (psub c a) + z * dot (psub c a) (psub c a).
Proof.
  intros E1 E2 E3 H. apply (foot_ext _ _ _ _ _ _ _ (1 - y - z) y z) in H; [|destruct H; lra|reflexivity..].
  destruct H as (_&H2&H3). rewrite inner_dot in H2, H3.
  rewrite dot_comb in H2 by (try assumption; unfold same_dim in *; rewrite len_psub; unfold same_dim; congruence).
  rewrite dot_comb in H3 by (try assumption; unfold same_dim in *; rewrite len_psub; unfold same_dim; congruence).
  rewrite (dot_comm (psub c a) (psub b a)) in H2. split; lra.
Qed.

(** the coordinates computed are the weights of the foot *)
Lemma bary_foot p a b c : same_dim a b → same_dim a c → same_dim a p →
  match barycentric_coords p a b c with
  | None => flat a b c
  | Some (u, v, w) => ¬ flat a b c ∧ foot p a b c u v w
  end.
Proof.
  intros E1 E2 E3. destruct (barycentric_ok p a b c E1 E2 E3) as [H1 H2].
  destruct (barycentric_coords p a b c) as [[[u v] w]|]; [|by apply H1].
  destruct (H2 u v w eq_refl) as (S&D1&D2&_). split; [intros H; by apply H1 in H|].
  split; [done|]. by rewrite !inner_dot.
Qed.
Lemma foot_unique p a b c x y z x' y' z' : same_dim a b → same_dim a c → same_dim a p → ¬ flat a b c →
  foot p a b c x y z → foot p a b c x' y' z' → x == x' ∧ y == y' ∧ z == z'.
Proof.
  intros E1 E2 E3 Hf H H'. destruct (foot_dots _ _ _ _ _ _ _ E1 E2 E3 H) as [A B]. destruct (foot_dots _ _ _ _ _ _ _ E1 E2 E3 H') as [A' B'].
  assert (~ gram a b c == 0) as Hg by (by rewrite gram_zero). unfold gram in Hg.
  revert A B A' B' Hg. generalize (dot (psub p a) (psub b a)) (dot (psub p a) (psub c a)) (dot (psub b a) (psub b a)) (dot (psub b a) (psub c a)) (dot (psub c a) (psub c a)).
  intros s t k l n A B A' B' Hg.
  assert ((y - y') * (k * n - l * l) == 0) as Y.
  { transitivity ((y * k + z * l - (y' * k + z' * l)) * n - (y * l + z * n - (y' * l + z' * n)) * l); [ring|]. rewrite <- A, <- B, <- A', <- B'. ring. }
  assert ((z - z') * (k * n - l * l) == 0) as Z.
  { transitivity ((y * l + z * n - (y' * l + z' * n)) * k - (y * k + z * l - (y' * k + z' * l)) * l); [ring|]. rewrite <- A, <- B, <- A', <- B'. ring. }
  apply Qmult_integral in Y as [Y|]; [|tauto]. apply Qmult_integral in Z as [Z|]; [|tauto].
  destruct H as [S _], H' as [S' _]. split_and!; lra.
Qed.

(** flatness does not depend on the first corner *)
Lemma flat_turn a b c : same_dim a b → same_dim a c → flat b c a → flat a b c.
Proof.
  unfold same_dim. intros E1 E2 H. apply gram_zero; [done..|]. apply gram_zero in H; [|unfold same_dim; congruence..].
  rewrite <- H. unfold gram.
  assert (∀ s t u v : point, dot (psub s t) (psub u v) == inner s t v u) as Hi by (intros; by rewrite inner_dot).
  rewrite !Hi.
  assert (inner c b b c == inner b a a b - 2 * inner b a a c + inner c a a c ∧ inner c b b a == inner b a a b - inner b a a c ∧ inner a b b a == inner b a a b) as (->&->&->); [|ring].
  clear -E1 E2. revert b c E1 E2. induction a as [|s a IH]; intros [|t b] [|u c] E1 E2; cbn in *; try discriminate; [split_and!; ring|].
  destruct (IH b c ltac:(congruence) ltac:(congruence)) as (->&->&->). split_and!; ring.
Qed.

Lemma in_rev_elem {A} (l : list A) x : x ∈ l ↔ x ∈ rev l.
Proof. by rewrite !elem_of_list_In, <- in_rev. Qed.

Section mesh.
Variables (n : nat) (m : mesh point) (p : point).
Hypothesis (W : WellFormed m) (D : in_dim n m) (Dp : length p = n).

Lemma dim_at v a : vpos <$> verts m !! v = Some a → length a = n.
Proof. destruct (verts m !! v) as [x|] eqn:E; [|done]. cbn. intros [= <-]. by apply (D v). Qed.
Lemma place_of_ok v a : vpos <$> verts m !! v = Some a → place_of m v = Some a.
Proof. unfold place_of, getV. destruct (verts m !! v); [|done]. cbn. congruence. Qed.

Lemma runs_fun_at h h' u v : runs m h u v → runs m h' u v → h = h'.
Proof. intros H K. apply (wfs_emap _ W) in H, K. congruence. Qed.
Lemma corners_turn f i j k a b c : corners_at m f i j k a b c → corners_at m f j k i b c a.
Proof. intros (H&?&?&?). split; [|tauto]. unfold cycle_face in *. tauto. Qed.
Lemma corners_dims f i j k a b c : corners_at m f i j k a b c → same_dim a b ∧ same_dim a c ∧ same_dim a p.
Proof. intros (_&A%dim_at&B%dim_at&C%dim_at). unfold same_dim. split_and!; congruence. Qed.

(** a live face has corners *)
Lemma corners_ex f : live_face m f → ∃ i j k a b c, oriented_face m f i j k ∧ corners_at m f i j k a b c.
Proof.
  intros H. destruct (wfs_face _ W f H) as (i&j&k&Ho). pose proof Ho as (e0&e1&e2&x0&x1&x2&_&L0&L1&L2&_&_&_&_&_&_&_&_&_&R0&R1&R2).
  assert (∀ h x u v, live_he m h x → runs m h u v → ∃ q, vpos <$> verts m !! v = Some q) as Hp.
  { intros h x u v Hx (x'&y&Hx'&_&_&<-). assert (x' = x) as -> by (destruct Hx, Hx'; congruence).
    pose proof (wfs_head _ W h x Hx) as Hv. apply (wfs_verts _ W) in Hv as [q Hq]. exists (vpos q). by rewrite Hq. }
  destruct (Hp _ _ _ _ L2 R2) as [a Ha]. destruct (Hp _ _ _ _ L0 R0) as [b Hb]. destruct (Hp _ _ _ _ L1 R1) as [c Hc].
  exists i, j, k, a, b, c. split; [done|]. split; [by left|done].
Qed.
Lemma corners_live f i j k a b c : corners_at m f i j k a b c → live_face m f.
Proof. intros ([H|[H|H]]&_); destruct H as (e0&_&_&_&_&_&E&_); by eexists. Qed.

Lemma face_edges_ok f i j k : oriented_face m f i j k →
  ∃ e0 e1 e2, face_edges m f = Some (e0, e1, e2) ∧ is_side m f e0 i j ∧ is_side m f e1 j k ∧ is_side m f e2 k i.
Proof.
  intros (e0&e1&e2&x0&x1&x2&E&[L0 _]&[L1 _]&[L2 _]&F0&F1&F2&N0&N1&N2&_&_&_&R0&R1&R2).
  exists e0, e1, e2. unfold face_edges, getF, getH. rewrite E. cbn [mbind option_bind fhe]. rewrite L0. cbn [mbind option_bind].
  rewrite N0, L1. cbn [mbind option_bind]. rewrite N1, L2. cbn [mbind option_bind]. rewrite N2, N.eqb_refl. cbn [assertb mbind option_bind].
  split; [done|]. unfold is_side. split_and!; try done; eexists; done.
Qed.
Lemma face_vertices_at f i j k : oriented_face m f i j k → face_vertices m f = Some (i, j, k).
Proof.
  intros (e0&e1&e2&x0&x1&x2&Ef&[L0 _]&[L1 _]&[L2 _]&_&_&_&N0&N1&N2&P0&_&_&R0&R1&R2).
  unfold face_vertices, getF, getH. rewrite Ef. cbn [mbind option_bind fhe]. rewrite L0. cbn [mbind option_bind].
  rewrite N0, L1. cbn [mbind option_bind]. rewrite P0, L2. cbn [mbind option_bind].
  destruct R0 as (y0&z0&[Y0 _]&_&_&E0). destruct R1 as (y1&z1&[Y1 _]&_&_&E1). destruct R2 as (y2&z2&[Y2 _]&_&_&E2).
  congruence.
Qed.

Lemma bary_of_ok i j k a b c : vpos <$> verts m !! i = Some a → vpos <$> verts m !! j = Some b → vpos <$> verts m !! k = Some c →
  bary_of m p (i, j, k) = barycentric_coords p a b c.
Proof. intros A B C. unfold bary_of. by rewrite (place_of_ok _ _ A), (place_of_ok _ _ B), (place_of_ok _ _ C). Qed.
Lemma bary_at f i j k a b c : corners_at m f i j k a b c →
  match bary_of m p (i, j, k) with
  | None => flat a b c
  | Some (u, v, w) => ¬ flat a b c ∧ foot p a b c u v w
  end.
Proof.
  intros H. destruct (corners_dims _ _ _ _ _ _ _ H) as (E1&E2&E3). destruct H as (_&A&B&C).
  rewrite (bary_of_ok _ _ _ _ _ _ A B C). by apply bary_foot.
Qed.

Lemma clamp_id u : 0 <= u → u <= 1 → clamp_unit u = u.
Proof.
  intros H0 H1. unfold clamp_unit. cbv zeta. rewrite (proj2 (is_negative_f u)) by lra. by rewrite (proj2 (is_positive_f (u - 1))) by lra.
Qed.

Lemma flat_turn2 f i j k a b c : corners_at m f i j k a b c → ¬ flat a b c → ¬ flat b c a.
Proof. intros H Hf Hb. destruct (corners_dims _ _ _ _ _ _ _ H) as (E1&E2&_). by apply Hf, flat_turn. Qed.

(** location_on_face *)
Lemma location_ok f i j k a b c u v w : oriented_face m f i j k → corners_at m f i j k a b c →
  bary_of m p (i, j, k) = Some (u, v, w) →
  ∃ r, location_on_face m f p = Some r ∧ face_of r = f ∧
    (0 <= u → 0 <= v → 0 <= w → located m p r) ∧
    (~ u == 0 → ~ v == 0 → ~ w == 0 → r = PInside f (u, v, w)).
Proof.
  intros Ho Hc Hb. pose proof (bary_at _ _ _ _ _ _ _ Hc) as Hf. rewrite Hb in Hf. destruct Hf as [Hnf Hft].
  destruct (corners_dims _ _ _ _ _ _ _ Hc) as (E1&E2&E3).
  destruct (face_edges_ok _ _ _ _ Ho) as (e0&e1&e2&Ee&S0&S1&S2).
  pose proof (corners_turn _ _ _ _ _ _ _ Hc) as Hc1. pose proof (corners_turn _ _ _ _ _ _ _ Hc1) as Hc2.
  pose proof (flat_turn2 _ _ _ _ _ _ _ Hc Hnf) as Hn1. pose proof (flat_turn2 _ _ _ _ _ _ _ Hc1 Hn1) as Hn2.
  destruct (corners_dims _ _ _ _ _ _ _ Hc1) as (E4&E5&E6).
  assert (foot p b c a v w u) as Hft1 by (apply foot_turn; [by unfold same_dim in *|done..]).
  assert (foot p c a b w u v) as Hft2 by (apply foot_turn; [by unfold same_dim in *|done..]).
  pose proof Hft as (Hs&_).
  unfold location_on_face. rewrite (face_vertices_at _ _ _ _ Ho). cbn [mbind option_bind]. rewrite Hb. cbn [mbind option_bind].
  unfold zeros, edge_and_u_from_bary_zero, vertex_from_bary_zero. rewrite (face_vertices_at _ _ _ _ Ho), Ee. cbn [mbind option_bind].
  destruct (is_zero u) eqn:Zu, (is_zero v) eqn:Zv, (is_zero w) eqn:Zw; cbn [b2n Nat.add Nat.eqb Nat.leb mbind option_bind andb]; qb.
  all: eexists; split; [reflexivity|]; split; [reflexivity|]; split; [|intros; try tauto; try done].
  - exfalso. lra.
  - intros. exists i, j, c, a, b. split; [done|]. split; [done|]. apply (foot_ext p c a b w u v); [lra..|done].
  - intros. exists k, i, b, c, a. split; [done|]. split; [done|]. apply (foot_ext p b c a v w u); [lra..|done].
  - intros. rewrite clamp_id by lra. exists j, k, i, b, c, a. split; [done|]. split; [done|]. split; [done|].
    split; [apply (foot_ext p b c a v w u); [lra..|done]|]. split; lra.
  - intros. exists j, k, a, b, c. split; [done|]. split; [done|]. apply (foot_ext p a b c u v w); [lra..|done].
  - intros. rewrite clamp_id by lra. exists k, i, j, c, a, b. split; [done|]. split; [done|]. split; [done|].
    split; [apply (foot_ext p c a b w u v); [lra..|done]|]. split; lra.
  - intros. rewrite clamp_id by lra. exists i, j, k, a, b, c. split; [done|]. split; [done|]. split; [done|].
    split; [apply (foot_ext p a b c u v w); [lra..|done]|]. split; lra.
  - intros. exists i, j, k, a, b, c. split_and!; try done; lra.
Qed.

Lemma location_flat f i j k a b c : oriented_face m f i j k → corners_at m f i j k a b c → flat a b c →
  location_on_face m f p = None.
Proof.
  intros Ho Hc Hf. pose proof (bary_at _ _ _ _ _ _ _ Hc) as Hb. unfold location_on_face.
  rewrite (face_vertices_at _ _ _ _ Ho). cbn [mbind option_bind].
  destruct (bary_of m p (i, j, k)) as [[[? ?] ?]|]; [tauto|done].
Qed.

Lemma off_face_f u v w : off_face (u, v, w) = false → 0 <= u ∧ 0 <= v ∧ 0 <= w.
Proof. unfold off_face. intros H. qb. done. Qed.
Lemma off_face_t u v w : off_face (u, v, w) = true → u < 0 ∨ v < 0 ∨ w < 0.
Proof. unfold off_face. intros H. apply orb_true_iff in H as [[H|H]%orb_true_iff|H]; qb; tauto. Qed.

(** a face passes the test exactly when it is touched *)
Lemma touch_test f i j k a b c u v w : corners_at m f i j k a b c → bary_of m p (i, j, k) = Some (u, v, w) →
  off_face (u, v, w) = true → ¬ touches m p f.
Proof.
  intros Hc Hb Hoff (i'&j'&k'&a'&b'&c'&x&y&z&Hc'&Hf'&Hft'&Hx&Hy&Hz).
  assert (∃ x y z, corners_at m f i' j' k' a' b' c' ∧ foot p a' b' c' x y z ∧ 0 <= x ∧ 0 <= y ∧ 0 <= z) as H' by eauto 10.
  clear x y z Hft' Hx Hy Hz Hc' Hf'.
  assert (∃ x y z, foot p a b c x y z ∧ 0 <= x ∧ 0 <= y ∧ 0 <= z) as (x&y&z&Hft&Hx&Hy&Hz).
  { destruct H' as (x&y&z&Hc'&Hft&Hx&Hy&Hz).
    assert (∀ i j k a b c, corners_at m f i j k a b c → ∃ i0 j0 k0 a0 b0 c0, oriented_face m f i0 j0 k0 ∧
      ((i0, j0, k0, a0, b0, c0) = (i, j, k, a, b, c) ∨ (i0, j0, k0, a0, b0, c0) = (j, k, i, b, c, a) ∨ (i0, j0, k0, a0, b0, c0) = (k, i, j, c, a, b))) as Hr.
    { clear. intros i j k a b c ([H|[H|H]]&_); eauto 20. }
    assert (∃ x y z, foot p a' b' c' x y z ∧ (0 <= x ∧ 0 <= y ∧ 0 <= z)) as Hft0 by eauto 10.
    assert (∀ i j k a b c, corners_at m f i j k a b c → (∃ x y z, foot p a b c x y z ∧ (0 <= x ∧ 0 <= y ∧ 0 <= z)) →
      ∃ x y z, foot p b c a x y z ∧ (0 <= x ∧ 0 <= y ∧ 0 <= z)) as Ht.
    { clear -D Dp. intros i j k a b c Hc (x&y&z&H&?&?&?). destruct (corners_dims _ _ _ _ _ _ _ Hc) as (E1&E2&E3).
      exists y, z, x. split; [|tauto]. apply foot_turn; [by unfold same_dim in *|done..]. }
    pose proof (corners_turn _ _ _ _ _ _ _ Hc') as Hc1. pose proof (corners_turn _ _ _ _ _ _ _ Hc1) as Hc2.
    pose proof (Ht _ _ _ _ _ _ Hc' Hft0) as Hft1. pose proof (Ht _ _ _ _ _ _ Hc1 Hft1) as Hft2.
    assert ((i, j, k) = (i', j', k') ∨ (i, j, k) = (j', k', i') ∨ (i, j, k) = (k', i', j')) as He.
    { destruct (Hr _ _ _ _ _ _ Hc) as (i0&j0&k0&a0&b0&c0&Ho&HH). destruct (Hr _ _ _ _ _ _ Hc') as (i1&j1&k1&a1&b1&c1&Ho1&HH1).
      apply face_vertices_at in Ho, Ho1. rewrite Ho in Ho1. injection Ho1 as <- <- <-.
      destruct HH as [HH|[HH|HH]], HH1 as [HH1|[HH1|HH1]]; injection HH as -> -> -> -> -> ->; injection HH1; intros; subst; tauto. }
    destruct Hc as (_&Pa&Pb&Pc), Hc' as (_&Pa'&Pb'&Pc').
    destruct He as [He|[He|He]]; injection He as -> -> ->; rewrite Pa' in *; rewrite Pb' in *; rewrite Pc' in *.
    - injection Pa as ->. injection Pb as ->. injection Pc as ->. destruct Hft0 as (?&?&?&?&?&?&?). eauto 10.
    - injection Pa as ->. injection Pb as ->. injection Pc as ->. destruct Hft1 as (?&?&?&?&?&?&?). eauto 10.
    - injection Pa as ->. injection Pb as ->. injection Pc as ->. destruct Hft2 as (?&?&?&?&?&?&?). eauto 10. }
  pose proof (bary_at _ _ _ _ _ _ _ Hc) as HH. rewrite Hb in HH. destruct HH as [Hnf Hft1].
  destruct (corners_dims _ _ _ _ _ _ _ Hc) as (E1&E2&E3).
  destruct (foot_unique _ _ _ _ _ _ _ _ _ _ E1 E2 E3 Hnf Hft1 Hft) as (?&?&?).
  apply off_face_t in Hoff. destruct Hoff as [?|[?|?]]; lra.
Qed.

(** ** The neighbours *)
Lemma neighbour_ok f h i j (seen : gset N) : is_side m f h i j →
  ∃ l, neighbour m seen h = Some l ∧ (length l ≤ 1)%nat ∧ (∀ g, g ∈ l → live_face m g) ∧
    ∀ g k, cycle_face m g j i k → g ∈ seen ∨ g ∈ l.
Proof.
  intros [(x&y&Hx&Hy&Ei&Ej) _]. destruct (wfs_twin _ W h x Hx) as (y'&Hy'&Et&_).
  assert (y' = y) as -> by (destruct Hy, Hy'; congruence).
  unfold neighbour, getH. rewrite (proj1 Hx). cbn [mbind option_bind]. rewrite (proj1 Hy). cbn [mbind option_bind].
  assert (∀ g k, cycle_face m g j i k → hface y = Some g) as Hg.
  { intros g k Hc. assert (∃ h' x', runs m h' j i ∧ hes m !! h' = Some x' ∧ hface x' = Some g) as (h'&x'&R&Hx'&Hf).
    { clear -Hc. destruct Hc as [H|[H|H]]; destruct H as (e0&e1&e2&x0&x1&x2&_&[L0 _]&[L1 _]&[L2 _]&F0&F1&F2&_&_&_&_&_&_&R0&R1&R2); eauto 10. }
    assert (runs m (htwin x) j i) as R' by (exists y, x; rewrite Et; tauto).
    assert (h' = htwin x) as -> by (eapply runs_fun_at; eassumption).
    destruct Hy. congruence. }
  destruct (hface y) as [g|] eqn:Ef.
  - destruct (wfs_side _ W _ _ _ Hy Ef) as (e0&x0&Hf&_). unfold getF. rewrite Hf. cbn [mbind option_bind frem negb andb].
    eexists. split; [reflexivity|]. destruct (bool_decide_reflect (g ∈ seen)) as [Hs|Hs]; cbn [negb].
    + split; [cbn; lia|]. split; [by intros ? []%elem_of_nil|]. intros g' k Hc. left. specialize (Hg _ _ Hc). congruence.
    + split; [cbn; lia|]. split; [|]. { intros g' ->%elem_of_list_singleton. by eexists. }
      intros g' k Hc. right. specialize (Hg _ _ Hc). apply elem_of_list_singleton. congruence.
  - exists []. split; [done|]. split; [cbn; lia|]. split; [by intros ? []%elem_of_nil|]. intros g k Hc. specialize (Hg _ _ Hc). done.
Qed.

Lemma neighbours_ok f i j k (seen : gset N) : oriented_face m f i j k →
  ∃ l, live_neighbours m f seen = Some l ∧ (length l ≤ 3)%nat ∧ (∀ g, g ∈ l → live_face m g) ∧
    ∀ g, beside m f g → g ∈ seen ∨ g ∈ l.
Proof.
  intros Ho. destruct (face_edges_ok _ _ _ _ Ho) as (e0&e1&e2&Ee&S0&S1&S2).
  destruct (neighbour_ok _ _ _ _ seen S0) as (l0&N0&K0&L0&G0). destruct (neighbour_ok _ _ _ _ seen S1) as (l1&N1&K1&L1&G1).
  destruct (neighbour_ok _ _ _ _ seen S2) as (l2&N2&K2&L2&G2).
  unfold live_neighbours. rewrite Ee. cbn [mbind option_bind]. rewrite N0, N1, N2. cbn [mbind option_bind].
  eexists. split; [reflexivity|]. split; [rewrite !app_length; lia|]. split.
  { intros g. rewrite !elem_of_app. intros [?|[?|?]]; eauto. }
  intros g (u&v&[w Hf]&[w' Hg]). rewrite !elem_of_app.
  assert ((u, v) = (i, j) ∨ (u, v) = (j, k) ∨ (u, v) = (k, i)) as He.
  { pose proof (face_vertices_at _ _ _ _ Ho) as E. destruct Hf as [H|[H|H]]; apply face_vertices_at in H; rewrite E in H; injection H as -> -> ->; tauto. }
  destruct He as [He|[He|He]]; injection He as -> ->; [destruct (G0 _ _ Hg)|destruct (G1 _ _ Hg)|destruct (G2 _ _ Hg)]; tauto.
Qed.

(** ** The search *)
Variable split : gmap N (list (N * (N * N * N))).

Lemma live_test f x : getF m f = Some x → negb (frem x) = true → live_face m f.
Proof. unfold getF. intros E H%negb_true_iff. by exists x. Qed.
Lemma live_tri f : live_face m f → ∃ i j k a b c, oriented_face m f i j k ∧ corners_at m f i j k a b c ∧ face_vertices m f = Some (i, j, k).
Proof.
  intros H. destruct (corners_ex f H) as (i&j&k&a&b&c&Ho&Hc). exists i, j, k, a, b, c. split; [done|]. split; [done|]. by apply face_vertices_at.
Qed.

Lemma bfs_sound fuel : ∀ q seen r, face_bfs split fuel m p q seen = Some (Some r) → located m p r.
Proof.
  induction fuel as [|fuel IH]; intros q seen r; [done|]. cbn [face_bfs].
  destruct q as [|f q]; [done|]. destruct (bool_decide (f ∈ seen)); [apply IH|].
  destruct (getF m f) as [x|] eqn:Ef; [|done]. cbn [mbind option_bind].
  destruct (negb (frem x)) eqn:Er.
  - destruct (live_tri f (live_test _ _ Ef Er)) as (i&j&k&a&b&c&Ho&Hc&Ev). rewrite Ev. cbn [mbind option_bind].
    destruct (bary_of m p (i, j, k)) as [[[u v] w]|] eqn:Eb; [|done]. cbn [mbind option_bind].
    destruct (off_face (u, v, w)) eqn:Eo.
    + destruct (live_neighbours m f _); [|done]. cbn [mbind option_bind]. apply IH.
    + destruct (location_ok _ _ _ _ _ _ _ _ _ _ Ho Hc Eb) as (r'&->&_&Hl&_). cbn [mbind option_bind]. intros [= <-].
      apply off_face_f in Eo as (?&?&?). by apply Hl.
  - destruct (split !! f) as [tris|]; [|apply IH].
    destruct (sort_triangles m p tris) as [[inn bnd]|]; [|done]. cbn [mbind option_bind]. apply IH.
Qed.

Lemma scan_one f i j k u v w he t : oriented_face m f i j k → bary_of m p (i, j, k) = Some (u, v, w) →
  zeros u v w = 1%nat → edge_and_u_from_bary_zero m f u v w = Some (Some (he, t)) →
  location_on_face m f p = Some (POnEdge f he (clamp_unit t)).
Proof.
  intros Ho Eb Ez Ee. unfold location_on_face. rewrite (face_vertices_at _ _ _ _ Ho). cbn [mbind option_bind]. rewrite Eb. cbn [mbind option_bind].
  rewrite Ez. cbn [Nat.eqb]. by rewrite Ee.
Qed.
Lemma scan_two f i j k u v w x : oriented_face m f i j k → bary_of m p (i, j, k) = Some (u, v, w) →
  (2 <= zeros u v w)%nat → vertex_from_bary_zero m f u v w = Some (Some x) →
  location_on_face m f p = Some (POnVertex f x).
Proof.
  intros Ho Eb Ez Ee. unfold location_on_face. rewrite (face_vertices_at _ _ _ _ Ho). cbn [mbind option_bind]. rewrite Eb. cbn [mbind option_bind].
  rewrite (proj2 (Nat.eqb_neq _ _)) by lia. cbn [mbind option_bind]. rewrite (proj2 (Nat.leb_le _ _)) by lia. by rewrite Ee.
Qed.
Lemma scan_zero f i j k u v w : oriented_face m f i j k → bary_of m p (i, j, k) = Some (u, v, w) →
  zeros u v w = 0%nat → location_on_face m f p = Some (PInside f (u, v, w)).
Proof.
  intros Ho Eb Ez. unfold location_on_face. rewrite (face_vertices_at _ _ _ _ Ho). cbn [mbind option_bind]. rewrite Eb. cbn [mbind option_bind].
  rewrite Ez. done.
Qed.

Definition found_ok (bv : option (N * N)) (bi : option (N * (Q * Q * Q))) : Prop :=
  (∀ f v, bv = Some (f, v) → located m p (POnVertex f v)) ∧ (∀ f b, bi = Some (f, b) → located m p (PInside f b)).

Lemma scan_sound fs : ∀ bv bi r, found_ok bv bi → face_scan m p fs bv bi = Some (Some r) → located m p r.
Proof.
  induction fs as [|f fs IH]; intros bv bi r [Hv Hi]; cbn [face_scan].
  { destruct bv as [[f v]|]; [intros [= <-]; by apply Hv|]. destruct bi as [[f b]|]; [intros [= <-]; by apply Hi|done]. }
  destruct (getF m f) as [x|] eqn:Ef; [|done]. cbn [mbind option_bind].
  destruct (frem x) eqn:Er; [by apply IH|].
  destruct (live_face_degenerate m f) as [[]|]; [cbn [mbind option_bind]; by apply IH|cbn [mbind option_bind]|done].
  destruct (live_tri f) as (i&j&k&a&b&c&Ho&Hc&Ev); [by apply (live_test _ x); [|rewrite Er]|].
  rewrite Ev. cbn [mbind option_bind].
  destruct (bary_of m p (i, j, k)) as [[[u v] w]|] eqn:Eb; [|done]. cbn [mbind option_bind].
  destruct (off_face (u, v, w)) eqn:Eo; [by apply IH|]. apply off_face_f in Eo as (?&?&?).
  destruct (location_ok _ _ _ _ _ _ _ _ _ _ Ho Hc Eb) as (r'&Er'&_&Hl&_).
  destruct (Nat.eqb_spec (zeros u v w) 1) as [Z|Z].
  { destruct (edge_and_u_from_bary_zero m f u v w) as [[[he t]|]|] eqn:Ee; [|by apply IH|done]. cbn [mbind option_bind]. intros [= <-].
    pose proof (scan_one _ _ _ _ _ _ _ _ _ Ho Eb Z Ee) as E. rewrite Er' in E. injection E as ->. by apply Hl. }
  destruct (Nat.leb_spec 2 (zeros u v w)) as [Z2|Z2]; cbn [andb].
  - destruct (is_none bv); cbn [andb].
    + destruct (vertex_from_bary_zero m f u v w) as [o|] eqn:Ee; [|done]. cbn [mbind option_bind]. apply IH.
      split; [|done]. destruct o as [y|]; [|done]. intros ? ? [= <- <-].
      pose proof (scan_two _ _ _ _ _ _ _ _ Ho Eb Z2 Ee) as E. rewrite Er' in E. injection E as ->. by apply Hl.
    + destruct (Nat.eqb_spec (zeros u v w) 0) as [Z0|Z0]; [lia|]. by apply IH.
  - destruct (Nat.eqb_spec (zeros u v w) 0) as [Z0|Z0]; [|lia]. cbn [andb]. destruct (is_none bi); apply IH; [|done].
    split; [done|]. intros ? ? [= <- <-]. pose proof (scan_zero _ _ _ _ _ _ _ Ho Eb Z0) as E. rewrite Er' in E. injection E as ->. by apply Hl.
Qed.

Lemma find_sound start r : find_valid_face split m start p = Some r → located m p r.
Proof.
  unfold find_valid_face. destruct (face_bfs split _ m p [start] ∅) as [[r'|]|] eqn:Eb; cbn [mbind option_bind]; [|..].
  - intros [= <-]. by eapply bfs_sound.
  - destruct (face_scan m p _ None None) as [o|] eqn:Es; [|done]. cbn [mbind option_bind]. intros ->.
    eapply scan_sound; [|exact Es]. split; done.
  - done.
Qed.

(** ** It terminates and finds *)
Definition unseen_weight (seen : gset N) (l : list N) : nat :=
  foldr (λ f k, ((if bool_decide (f ∈ seen) then 0 else weight split f) + k)%nat) 0%nat l.
Lemma unseen_mono (s s' : gset N) l : s ⊆ s' → (unseen_weight s' l <= unseen_weight s l)%nat.
Proof.
  intros Hs. unfold unseen_weight. induction l as [|f l IH]; cbn [foldr]; [lia|].
  destruct (bool_decide_reflect (f ∈ s')), (bool_decide_reflect (f ∈ s)); [lia|lia|set_solver|lia].
Qed.
Lemma unseen_drop (s : gset N) f l : f ∈ l → f ∉ s → (unseen_weight ({[f]} ∪ s) l + weight split f <= unseen_weight s l)%nat.
Proof.
  intros Hf Hs. induction l as [|g l IH]; [by apply elem_of_nil in Hf|]. unfold unseen_weight in *. cbn [foldr].
  destruct (decide (g = f)) as [->|Hne].
  - rewrite bool_decide_true by set_solver. rewrite (bool_decide_false (f ∈ s)) by done.
    pose proof (unseen_mono s ({[f]} ∪ s) l ltac:(set_solver)) as Hm. unfold unseen_weight in Hm. lia.
  - apply elem_of_cons in Hf as [?|Hf]; [done|]. specialize (IH Hf).
    assert (bool_decide (g ∈ {[f]} ∪ s) = bool_decide (g ∈ s)) as ->; [apply bool_decide_ext; set_solver|]. lia.
Qed.
Lemma unseen_empty l : unseen_weight ∅ l = foldr (λ f k, (weight split f + k)%nat) 0%nat l.
Proof. unfold unseen_weight. induction l as [|f l IH]; [done|]. cbn [foldr]. rewrite IH. by rewrite bool_decide_false by set_solver. Qed.

Lemma sort_ok l : (∀ g i j k, (g, (i, j, k)) ∈ l → (g < nfaces m)%N ∧
    ∃ a b c, vpos <$> verts m !! i = Some a ∧ vpos <$> verts m !! j = Some b ∧ vpos <$> verts m !! k = Some c ∧ ¬ flat a b c) →
  ∃ inn bnd, sort_triangles m p l = Some (inn, bnd) ∧ (length inn + length bnd <= length l)%nat ∧
    ∀ g, g ∈ inn ∨ g ∈ bnd ∨ g ∈ map fst l → (g < nfaces m)%N.
Proof.
  induction l as [|[g [[i j] k]] l IH]; intros H.
  { exists [], []. split; [done|]. split; [cbn; lia|]. intros g [[]%elem_of_nil|[[]%elem_of_nil|[]%elem_of_nil]]. }
  destruct IH as (inn&bnd&E&Hl&Hg). { intros. by apply (H g0 i0 j0 k0), elem_of_cons; right. }
  destruct (H g i j k) as (Hlt&a&b&c&A&B&C&Hf); [by apply elem_of_cons; left|].
  cbn [sort_triangles]. rewrite (bary_of_ok _ _ _ _ _ _ A B C).
  pose proof (bary_foot p a b c) as Hb.
  assert (same_dim a b ∧ same_dim a c ∧ same_dim a p) as (E1&E2&E3) by (apply dim_at in A, B, C; unfold same_dim; split_and!; congruence).
  specialize (Hb E1 E2 E3). destruct (barycentric_coords p a b c) as [[[u v] w]|]; [|tauto]. cbn [mbind option_bind]. rewrite E. cbn [mbind option_bind].
  destruct (off_face (u, v, w)); [|destruct (Nat.leb 1 (zeros u v w))]; eexists _, _; (split; [reflexivity|]);
    (split; [cbn [length]; lia|]); cbn [map fst]; intros g'; rewrite ?elem_of_cons; intros HH; naive_solver.
Qed.

Hypothesis (NF : no_flat_face m) (SO : split_ok m split).

Definition searched (seen : gset N) (q : list N) : Prop :=
  (∀ f, f ∈ q → (f < nfaces m)%N) ∧
  ∀ f, f ∈ seen → live_face m f → ¬ touches m p f ∧ ∀ g, beside m f g → g ∈ seen ∨ g ∈ q.

Lemma bfs_complete fuel : ∀ q seen, searched seen q →
  (length q + unseen_weight seen (range (nfaces m)) < fuel)%nat →
  ∃ o, face_bfs split fuel m p q seen = Some o ∧
    (o = None → ∃ seen', (∀ f, f ∈ seen ∨ f ∈ q → f ∈ seen') ∧ searched seen' []).
Proof.
  induction fuel as [|fuel IH]; intros q seen [Hq Hs] Hfuel; [lia|]. cbn [face_bfs].
  destruct q as [|f q].
  { exists None. split; [done|]. intros _. exists seen. split; [|done]. intros f [?|[]%elem_of_nil]; done. }
  destruct (bool_decide_reflect (f ∈ seen)) as [Hf|Hf].
  { destruct (IH q seen) as (o&Eo&Ho); [|cbn in Hfuel; lia|].
    { split; [intros; apply Hq; by apply elem_of_cons; right|]. intros g Hg Hlg. destruct (Hs g Hg Hlg) as [? Hn]. split; [done|].
      intros g' Hg'. destruct (Hn g' Hg') as [?|[->|?]%elem_of_cons]; tauto. }
    exists o. split; [done|]. intros HN. destruct (Ho HN) as (s'&H1&H2). exists s'. split; [|done].
    intros g [?|[->|?]%elem_of_cons]; apply H1; tauto. }
  assert (f < nfaces m)%N as Hlt by (apply Hq; by apply elem_of_cons; left).
  pose proof (unseen_drop seen f (range (nfaces m)) ltac:(by apply range_spec) Hf) as Hdrop. cbn [length] in Hfuel.
  pose proof (proj2 (wfs_faces _ W f) Hlt) as [x Hx]. unfold getF. rewrite Hx. cbn [mbind option_bind].
  assert (∀ l, (∀ g, g ∈ l → (g < nfaces m)%N) → (length l <= weight split f + length q)%nat → (∀ g, g ∈ q → g ∈ l) →
    (live_face m f → ¬ touches m p f ∧ ∀ g, beside m f g → g ∈ {[f]} ∪ seen ∨ g ∈ l) →
    ∃ o, face_bfs split fuel m p l ({[f]} ∪ seen) = Some o ∧
    (o = None → ∃ seen', (∀ g, g ∈ seen ∨ g ∈ f :: q → g ∈ seen') ∧ searched seen' [])) as Hgo.
  { intros l Hl Hlen Hin Hnew. destruct (IH l ({[f]} ∪ seen)) as (o&Eo&Ho); [|lia|].
    { split; [done|]. intros g [->%elem_of_singleton|Hg]%elem_of_union Hlg; [by apply Hnew|]. destruct (Hs g Hg Hlg) as [? Hn]. split; [done|].
      intros g' Hg'. destruct (Hn g' Hg') as [?|[->|?]%elem_of_cons]; [set_solver..|]. right. by apply Hin. }
    exists o. split; [done|]. intros HN. destruct (Ho HN) as (s'&H1&H2). exists s'. split; [|done].
    intros g [?|[->|?]%elem_of_cons]; apply H1; [set_solver..|]. right. by apply Hin. }
  destruct (negb (frem x)) eqn:Er.
  - destruct (live_tri f (live_test _ _ Hx Er)) as (i&j&k&a&b&c&Ho&Hc&Ev). rewrite Ev. cbn [mbind option_bind].
    pose proof (bary_at _ _ _ _ _ _ _ Hc) as Hb.
    destruct (bary_of m p (i, j, k)) as [[[u v] w]|] eqn:Eb; [|by destruct (NF _ _ _ _ _ _ _ Hc)]. cbn [mbind option_bind].
    destruct (off_face (u, v, w)) eqn:Eo.
    + destruct (neighbours_ok _ _ _ _ ({[f]} ∪ seen) Ho) as (l&->&Hl3&Hll&Hlb). cbn [mbind option_bind]. apply Hgo.
      * intros g [?|Hg]%elem_of_app; [apply Hq; by apply elem_of_cons; right|]. destruct (Hll g Hg) as (y&Hy&_). apply (wfs_faces _ W). by exists y.
      * rewrite app_length. unfold weight. lia.
      * intros; apply elem_of_app; tauto.
      * intros _. split; [by eapply touch_test|]. intros g Hg. destruct (Hlb g Hg); [tauto|]. right. apply elem_of_app. tauto.
    + destruct (location_ok _ _ _ _ _ _ _ _ _ _ Ho Hc Eb) as (r&->&_). cbn [mbind option_bind]. eexists. split; [reflexivity|]. done.
  - assert (¬ live_face m f) as Hd. { intros (y&Hy&Hyr). rewrite Hx in Hy. injection Hy as ->. by rewrite Hyr in Er. }
    destruct (split !! f) as [tris|] eqn:Et.
    + destruct (sort_ok tris) as (inn&bnd&->&Hlen&Hlts); [intros; by eapply SO|]. cbn [mbind option_bind].
      assert (∀ l, length (unseen ({[f]} ∪ seen) l) <= length l)%nat as Hu by (intros; apply filter_length).
      apply Hgo; [| | |done].
      * intros g. rewrite !elem_of_app, <- in_rev_elem. unfold unseen. rewrite !elem_of_list_filter. intros HH.
        assert (g ∈ q ∨ g ∈ inn ∨ g ∈ bnd ∨ g ∈ map fst tris) as [?|?] by tauto; [apply Hq; by apply elem_of_cons; right|by apply Hlts].
      * rewrite !app_length, rev_length. unfold weight. rewrite Et. cbn [default].
        pose proof (Hu inn). pose proof (Hu bnd). pose proof (Hu (map fst tris)) as H3. rewrite map_length in H3. cbn. lia.
      * intros. rewrite !elem_of_app. tauto.
    + apply Hgo; [| | |done].
      * intros; apply Hq; by apply elem_of_cons; right.
      * lia.
      * done.
Qed.

Lemma linked_searched seen f g : searched seen [] → f ∈ seen → live_face m f → linked m f g → g ∈ seen ∧ live_face m g.
Proof.
  intros [_ Hs] Hf Hl H. induction H as [|f f' g Hb _ IH]; [done|].
  destruct (Hs f Hf Hl) as [_ Hn]. destruct (Hn _ Hb) as [?|[]%elem_of_nil].
  apply IH; [done|]. destruct Hb as (u&v&_&[w [Hc|[Hc|Hc]]]); destruct Hc as (e0&_&_&_&_&_&E&_); by eexists.
Qed.

(** a touched face that can be reached is found *)
Lemma find_linked start f : live_face m start → linked m start f → touches m p f →
  ∃ r, find_valid_face split m start p = Some r.
Proof.
  intros Hl Hk Ht. unfold find_valid_face.
  destruct (bfs_complete (face_fuel split m) [start] ∅) as (o&->&Ho).
  { split; [|set_solver]. intros f' ->%elem_of_list_singleton. destruct Hl as (y&Hy&_). apply (wfs_faces _ W). by exists y. }
  { unfold face_fuel. rewrite unseen_empty. cbn [length]. lia. }
  cbn [mbind option_bind]. destruct o as [r|]; [eauto|]. exfalso.
  destruct (Ho eq_refl) as (seen&H1&H2). destruct (linked_searched seen start f) as [Hs Hlf]; [done|apply H1; right; by apply elem_of_list_singleton|done..|].
  by destruct (proj2 H2 f Hs Hlf).
Qed.

Lemma degen_test f i j k a b c : n = 3%nat → oriented_face m f i j k → corners_at m f i j k a b c →
  ∃ d, live_face_degenerate m f = Some d ∧ (d = true → flat a b c).
Proof.
  intros En Ho Hc. destruct (corners_dims _ _ _ _ _ _ _ Hc) as (E1&E2&_). destruct Hc as (_&A&B&C).
  unfold live_face_degenerate. rewrite (face_vertices_at _ _ _ _ Ho). cbn [mbind option_bind].
  rewrite (place_of_ok _ _ A), (place_of_ok _ _ B), (place_of_ok _ _ C). cbn [mbind option_bind]. cbv zeta.
  apply dim_at in A, B, C. rewrite En in *. clear -E1 E2 A B C.
  assert (gram a b c == 0 → flat a b c) as Hg by (intros; by apply gram_zero).
  destruct (is_zero (dot (psub b a) (psub b a))) eqn:Z1; [|destruct (is_zero (dot (psub c a) (psub c a))) eqn:Z2; [|destruct (is_zero (dot (psub c b) (psub c b))) eqn:Z3]];
    cbn [orb]; qb.
  - exists true. split; [done|]. intros _. left. by apply dot_zero.
  - exists true. split; [done|]. intros _. apply Hg. unfold gram. rewrite Z2.
    apply dot_zero in Z2; [|done]. assert (dot (psub b a) (psub c a) == 0) as ->; [|ring].
    clear -Z2 E1. unfold same_dim in E1. revert b E1. induction Z2 as [|x y a c H He IH]; intros [|z b] E2; cbn in *; try discriminate; [reflexivity|].
    rewrite IH by congruence. rewrite H. ring.
  - exists true. split; [done|]. intros _. apply Hg. apply dot_zero in Z3; [|unfold same_dim in *; congruence].
    destruct a as [|a1 [|a2 [|a3 []]]]; try discriminate. destruct b as [|b1 [|b2 [|b3 []]]]; try discriminate. destruct c as [|c1 [|c2 [|c3 []]]]; try discriminate.
    inversion Z3 as [|? ? ? ? H1 Z4]; subst. inversion Z4 as [|? ? ? ? H2 Z5]; subst. inversion Z5 as [|? ? ? ? H3 _]; subst.
    unfold gram. cbn. rewrite H1, H2, H3. ring.
  - destruct a as [|a1 [|a2 [|a3 []]]]; try discriminate. destruct b as [|b1 [|b2 [|b3 []]]]; try discriminate. destruct c as [|c1 [|c2 [|c3 []]]]; try discriminate.
    cbn. eexists. split; [reflexivity|]. intros Z. apply Hg. apply andb_true_iff in Z as [[N0 N1]%andb_true_iff N2]. qb.
    unfold gram. cbn.
    transitivity (((b2 - a2) * (c3 - a3) - (b3 - a3) * (c2 - a2)) * ((b2 - a2) * (c3 - a3) - (b3 - a3) * (c2 - a2)) +
      ((b3 - a3) * (c1 - a1) - (b1 - a1) * (c3 - a3)) * ((b3 - a3) * (c1 - a1) - (b1 - a1) * (c3 - a3)) +
      ((b1 - a1) * (c2 - a2) - (b2 - a2) * (c1 - a1)) * ((b1 - a1) * (c2 - a2) - (b2 - a2) * (c1 - a1))); [ring|].
    rewrite N0, N1, N2. ring.
Qed.

Lemma scan_complete fs : n = 3%nat → ∀ bv bi, (∀ f, f ∈ fs → (f < nfaces m)%N) →
  ∃ o, face_scan m p fs bv bi = Some o ∧
    (o = None → bv = None ∧ bi = None ∧ ∀ f, f ∈ fs → live_face m f → ¬ touches m p f).
Proof.
  intros En. induction fs as [|f fs IH]; intros bv bi Hfs.
  { cbn [face_scan]. eexists. split; [reflexivity|]. destruct bv as [[? ?]|]; [done|]. destruct bi as [[? ?]|]; [done|].
    intros _. split; [done|]. split; [done|]. by intros f []%elem_of_nil. }
  assert (∀ f, f ∈ fs → (f < nfaces m)%N) as Hfs' by (intros; apply Hfs; by apply elem_of_cons; right).
  cbn [face_scan]. pose proof (proj2 (wfs_faces _ W f) (Hfs f ltac:(by apply elem_of_cons; left))) as [x Hx]. unfold getF. rewrite Hx. cbn [mbind option_bind].
  assert (∀ bv' bi', (bv' = None → bv = None) → (bi' = None → bi = None) →
    (bv' = None → bi' = None → live_face m f → ¬ touches m p f) →
    ∃ o, face_scan m p fs bv' bi' = Some o ∧
      (o = None → bv = None ∧ bi = None ∧ ∀ g, g ∈ f :: fs → live_face m g → ¬ touches m p g)) as Hgo.
  { intros bv' bi' Hv Hi Hf. destruct (IH bv' bi' Hfs') as (o&->&Ho). eexists. split; [reflexivity|]. intros HN. destruct (Ho HN) as (?&?&Hall).
    split; [tauto|]. split; [tauto|]. intros g [->|Hg]%elem_of_cons; [by apply Hf|by apply Hall]. }
  destruct (frem x) eqn:Er.
  { apply Hgo; [done..|]. intros _ _ (y&Hy&Hyr). congruence. }
  destruct (live_tri f) as (i&j&k&a&b&c&Ho&Hc&Ev); [by exists x|].
  destruct (degen_test _ _ _ _ _ _ _ En Ho Hc) as ([]&->&Hd); cbn [mbind option_bind]; [by destruct (NF _ _ _ _ _ _ _ Hc); apply Hd|].
  rewrite Ev. cbn [mbind option_bind]. pose proof (bary_at _ _ _ _ _ _ _ Hc) as Hb.
  destruct (bary_of m p (i, j, k)) as [[[u v] w]|] eqn:Eb; [|by destruct (NF _ _ _ _ _ _ _ Hc)]. cbn [mbind option_bind].
  destruct (off_face (u, v, w)) eqn:Eo; [apply Hgo; [done..|]; intros _ _ _; by eapply touch_test|].
  destruct Hb as [_ [Hsum _]].
  assert (∃ e0 e1 e2, face_edges m f = Some (e0, e1, e2)) as (e0&e1&e2&Ee) by (destruct (face_edges_ok _ _ _ _ Ho) as (?&?&?&?&_); eauto).
  unfold edge_and_u_from_bary_zero, vertex_from_bary_zero, zeros. rewrite Ee, Ev. cbn [mbind option_bind].
  destruct (is_zero u) eqn:Zu, (is_zero v) eqn:Zv, (is_zero w) eqn:Zw; cbn [b2n Nat.add Nat.eqb Nat.leb mbind option_bind andb]; qb.
  1: exfalso; lra.
  all: try (eexists; split; [reflexivity|done]).
  all: first [destruct bv; cbn [is_none]; apply Hgo; done | destruct bi; cbn [is_none]; apply Hgo; done].
Qed.

(** in space, a touched face is found wherever the search starts *)
Lemma find_space start f : n = 3%nat → (start < nfaces m)%N → live_face m f → touches m p f →
  ∃ r, find_valid_face split m start p = Some r.
Proof.
  intros En Hst Hl Ht. unfold find_valid_face.
  destruct (bfs_complete (face_fuel split m) [start] ∅) as (o&->&_).
  { split; [|set_solver]. by intros f' ->%elem_of_list_singleton. }
  { unfold face_fuel. rewrite unseen_empty. cbn [length]. lia. }
  cbn [mbind option_bind]. destruct o as [r|]; [eauto|].
  destruct (scan_complete (range (nfaces m)) En None None) as (o&->&Ho); [intros; by apply range_spec|]. cbn [mbind option_bind].
  destruct o as [r|]; [eauto|]. exfalso. destruct (Ho eq_refl) as (_&_&H). apply (H f); [|done..]. apply range_spec.
  destruct Hl as (y&Hy&_). apply (wfs_faces _ W). by exists y.
Qed.
End mesh.
