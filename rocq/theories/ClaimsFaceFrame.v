(** C145 and C146: the exact centroid and the frame of a face. *)
From Coq Require Import QArith Qfield Lqa Psatz.
From Verif Require Import PointLoc MeshCompact MeshWF ClaimsPointLoc ClaimsFindHalf FaceFrameModel FaceFrameSpec MeshHistSpec.
From Verif Require GeomModel.
Local Open Scope Q_scope.

(** C145. face_centroid(f) is the mean of the three corners, for meshes of at most three
    dimensions. *)
Theorem C145_centroid (m : mesh point) f i j k (a b c : point) : WellFormed m → oriented_face m f i j k →
  vpos <$> verts m !! i = Some a → vpos <$> verts m !! j = Some b → vpos <$> verts m !! k = Some c →
  length b = length a → length c = length a → (length a ≤ 3)%nat →
  ∃ g, face_centroid m f = Some g ∧ length g = length a ∧
    ∀ d x y z, a !! d = Some x → b !! d = Some y → c !! d = Some z → ∃ t, g !! d = Some t ∧ 3 * t == x + y + z.
Proof.
  intros W%WF_iff Ho A B C L1 L2 L3. exists (centroid_from 0 a b c). split.
  { unfold face_centroid. rewrite (face_vertices_ok m f _ _ _ W Ho). cbn [mbind option_bind].
    by rewrite (place_of_ok m _ _ A), (place_of_ok m _ _ B), (place_of_ok m _ _ C). }
  clear Ho A B C. cut (∀ n, (n + length a ≤ 3)%nat → length (centroid_from n a b c) = length a ∧
    ∀ d x y z, a !! d = Some x → b !! d = Some y → c !! d = Some z → ∃ t, centroid_from n a b c !! d = Some t ∧ 3 * t == x + y + z).
  { intros H. by apply H. }
  clear L3. intros n L. revert b c n L1 L2 L. induction a as [|x a IH]; intros [|y b] [|z c] n L1 L2 L; cbn in L1, L2; try discriminate; [done|].
  destruct (IH b c (S n) ltac:(congruence) ltac:(congruence)) as [E H]; [cbn in L; lia|]. split; [cbn; congruence|].
  intros [|d] x' y' z'; cbn [centroid_from lookup list_lookup].
  - intros [= ->] [= ->] [= ->]. eexists. split; [done|].
    assert ((n <? 3)%nat = true) as ->. { apply Nat.ltb_lt. cbn in L. lia. } field.
  - apply H.
Qed.
Print Assumptions C145_centroid.

Lemma dot_inner u v : GeomModel.dot3 u v == inner3 u v.
Proof. destruct u as [[? ?] ?], v as [[? ?] ?]. unfold inner3. cbn. ring. Qed.
Lemma inner_zero u : inner3 u u == 0 ↔ veq u zero3.
Proof.
  destruct u as [[x y] z]. unfold inner3, veq. cbn. split.
  - intros H. assert (x * x == 0 ∧ y * y == 0 ∧ z * z == 0) as (H1&H2&H3) by (split; [nra|split; nra]).
    split_and!; [apply Qmult_integral in H1|apply Qmult_integral in H2|apply Qmult_integral in H3]; tauto.
  - intros (->&->&->). ring.
Qed.
Lemma zero_true x : GeomModel.is_zero x = true ↔ x == 0.
Proof. unfold GeomModel.is_zero. apply Qeq_bool_iff. Qed.
Lemma zero_false x : GeomModel.is_zero x = false ↔ ¬ x == 0.
Proof. rewrite <- zero_true. by destruct (GeomModel.is_zero x). Qed.
Lemma sub_from a b : GeomModel.sub3 b a = from a b.
Proof. destruct a as [[? ?] ?], b as [[? ?] ?]. done. Qed.
(** the double product lies in the plane of its factors *)
Lemma double_cross u e : veq (GeomModel.cross3 (GeomModel.cross3 u e) u) (comb2 (inner3 u u) (- inner3 u e) e u).
Proof. destruct u as [[? ?] ?], e as [[? ?] ?]. unfold veq, comb2, inner3. cbn. split_and!; ring. Qed.
Lemma inner_proper u u' v v' : veq u u' → veq v v' → inner3 u v == inner3 u' v'.
Proof. unfold veq, inner3. intros (H1&H2&H3) (K1&K2&K3). rewrite H1, H2, H3, K1, K2, K3. reflexivity. Qed.

(** C146. For a triangle whose edges from the first corner are independent,
    face_uv_frame_metric returns the first edge and a vector in the plane of the triangle,
    orthogonal to it and on the side of the third corner. *)
Theorem C146_frame a b c : independent (from a b) (from a c) →
  ∃ u v, face_uv_frame_metric a b c = (u, v) ∧ u = from a b ∧ independent u v ∧ inner3 u v == 0 ∧
    0 < inner3 v (from a c) ∧ ∃ s t, veq v (comb2 s t (from a b) (from a c)).
Proof.
  intros I. unfold face_uv_frame_metric. rewrite !sub_from. set (e0 := from a b) in *. set (e1 := from a c) in *.
  assert (¬ inner3 e0 e0 == 0) as Hu.
  { intros H. apply inner_zero in H as (H1&H2&H3). destruct (I 1 0) as [K _]; [|by apply Q_apart_0_1].
    unfold veq, comb2. cbn in *. rewrite H1, H2, H3. split_and!; ring. }
  assert (GeomModel.is_zero (GeomModel.dot3 e0 e0) = false) as -> by (by apply zero_false; rewrite dot_inner).
  set (v := GeomModel.cross3 (GeomModel.cross3 e0 e1) e0).
  pose proof (double_cross e0 e1) as Hv. fold v in Hv.
  assert (¬ inner3 v v == 0) as Hvv.
  { intros H. apply inner_zero in H. destruct (I (- inner3 e0 e1) (inner3 e0 e0)) as [_ K]; [|done].
    destruct Hv as (V1&V2&V3), H as (H1&H2&H3). rewrite H1 in V1. rewrite H2 in V2. rewrite H3 in V3.
    unfold veq, comb2 in *. cbn in *. split_and!; [rewrite V1|rewrite V2|rewrite V3]; ring. }
  assert (GeomModel.is_zero (GeomModel.dot3 v v) = false) as -> by (by apply zero_false; rewrite dot_inner).
  assert (inner3 e0 v == 0) as Huv.
  { rewrite (inner_proper e0 e0 v _ ltac:(done) Hv). unfold inner3, comb2. cbn. ring. }
  assert (inner3 v v == inner3 e0 e0 * inner3 v e1) as Hd.
  { rewrite (inner_proper v v v _ ltac:(done) Hv) at 1.
    assert (inner3 v (comb2 (inner3 e0 e0) (- inner3 e0 e1) e1 e0) == inner3 e0 e0 * inner3 v e1 - inner3 e0 e1 * inner3 e0 v) as ->.
    { unfold inner3, comb2. cbn. ring. }
    rewrite Huv. ring. }
  assert (∀ w, 0 <= inner3 w w) as Hnn. { intros [[x y] z]. unfold inner3. cbn. nra. }
  assert (0 < inner3 e0 e0) as Pu by (pose proof (Hnn e0); apply Qnot_le_lt; intros ?; apply Hu; lra).
  assert (0 < inner3 v v) as Pv by (pose proof (Hnn v); apply Qnot_le_lt; intros ?; apply Hvv; lra).
  exists e0, v. split; [done|]. split; [done|]. split; [|split; [done|]; split].
  - intros s t H.
    assert (inner3 e0 (comb2 s t e0 v) == s * inner3 e0 e0 + t * inner3 e0 v) as E1 by (unfold inner3, comb2; cbn; ring).
    assert (inner3 v (comb2 s t e0 v) == s * inner3 e0 v + t * inner3 v v) as E2 by (unfold inner3, comb2; cbn; ring).
    rewrite (inner_proper e0 e0 _ zero3 ltac:(done) H), Huv in E1. rewrite (inner_proper v v _ zero3 ltac:(done) H), Huv in E2.
    assert (∀ w, inner3 w zero3 == 0) as Z by (intros w; unfold inner3; cbn; ring). rewrite Z in E1, E2.
    assert (s * inner3 e0 e0 == 0) as F1 by lra. assert (t * inner3 v v == 0) as F2 by lra.
    apply Qmult_integral in F1 as [F1|F1], F2 as [F2|F2]; try (by destruct Hu); try (by destruct Hvv). done.
  - apply Qnot_le_lt. intros H. nra.
  - exists (- inner3 e0 e1), (inner3 e0 e0). destruct Hv as (V1&V2&V3). unfold veq, comb2 in *. cbn in *.
    split_and!; [rewrite V1|rewrite V2|rewrite V3]; ring.
Qed.
Print Assumptions C146_frame.

(** For any other triangle the second vector is zero, so that the caller can tell. *)
Theorem C146_degenerate a b c : ¬ independent (from a b) (from a c) → veq (face_uv_frame_metric a b c).2 zero3.
Proof.
  intros I. unfold face_uv_frame_metric. rewrite !sub_from. set (e0 := from a b) in *. set (e1 := from a c) in *.
  destruct (GeomModel.is_zero (GeomModel.dot3 e0 e0)) eqn:E0.
  - set (v := GeomModel.cross3 (GeomModel.cross3 e1 e1) e1).
    assert (veq v zero3) as Hv.
    { pose proof (double_cross e1 e1) as (V1&V2&V3). fold v in V1, V2, V3. unfold veq, comb2 in *. cbn [fst snd zero3] in *.
      split_and!; [rewrite V1|rewrite V2|rewrite V3]; ring. }
    assert (GeomModel.is_zero (GeomModel.dot3 v v) = true) as -> by (apply zero_true; rewrite dot_inner; by apply inner_zero).
    destruct (GeomModel.is_zero (GeomModel.dot3 e1 e1)) eqn:E1; cbn [negb snd]; [done|].
    apply zero_false in E1. destruct e1 as [[x y] z]. unfold veq, scale, zero3. cbn in *. split_and!; field; done.
  - apply zero_false in E0. rewrite dot_inner in E0.
    set (v := GeomModel.cross3 (GeomModel.cross3 e0 e1) e0).
    pose proof (double_cross e0 e1) as Hv. fold v in Hv.
    assert (inner3 e0 v == 0) as Huv.
    { rewrite (inner_proper e0 e0 v _ ltac:(done) Hv). unfold inner3, comb2. cbn. ring. }
    assert (inner3 v v == inner3 e0 e0 * inner3 v e1) as Hd.
    { rewrite (inner_proper v v v _ ltac:(done) Hv) at 1.
      assert (inner3 v (comb2 (inner3 e0 e0) (- inner3 e0 e1) e1 e0) == inner3 e0 e0 * inner3 v e1 - inner3 e0 e1 * inner3 e0 v) as ->.
      { unfold inner3, comb2. cbn. ring. }
      rewrite Huv. ring. }
    assert (inner3 v v == 0) as Hz.
    { destruct (Qeq_dec (inner3 v v) 0) as [H|H]; [done|]. destruct I. intros s t K.
      assert (inner3 e0 (comb2 s t e0 e1) == s * inner3 e0 e0 + t * inner3 e0 e1) as E1 by (unfold inner3, comb2; cbn; ring).
      assert (inner3 v (comb2 s t e0 e1) == s * inner3 e0 v + t * inner3 v e1) as E2 by (unfold inner3, comb2; cbn; ring).
      rewrite (inner_proper e0 e0 _ zero3 ltac:(done) K) in E1. rewrite (inner_proper v v _ zero3 ltac:(done) K), Huv in E2.
      assert (∀ w, inner3 w zero3 == 0) as Z by (intros w; unfold inner3; cbn; ring). rewrite Z in E1, E2.
      assert (t * inner3 v e1 == 0) as F2 by lra. apply Qmult_integral in F2 as [F2|F2].
      - rewrite F2 in E1. assert (s * inner3 e0 e0 == 0) as F1 by lra. apply Qmult_integral in F1 as [F1|F1]; done.
      - destruct H. rewrite Hd, F2. ring. }
    assert (GeomModel.is_zero (GeomModel.dot3 v v) = true) as -> by (apply zero_true; by rewrite dot_inner).
    assert (GeomModel.is_zero (GeomModel.dot3 e0 e0) = false) as -> by (apply zero_false; by rewrite dot_inner).
    cbn [negb snd]. apply inner_zero in Hz. destruct Hv as (V1&V2&V3), Hz as (Z1&Z2&Z3). rewrite Z1 in V1. rewrite Z2 in V2. rewrite Z3 in V3.
    assert (GeomModel.dot3 e0 e1 / GeomModel.dot3 e0 e0 == inner3 e0 e1 / inner3 e0 e0) as Er by (by rewrite !dot_inner).
    assert (∀ x y, zero3.1.1 == inner3 e0 e0 * x + - inner3 e0 e1 * y → x - GeomModel.dot3 e0 e1 / GeomModel.dot3 e0 e0 * y == 0) as F.
    { intros x y H. rewrite Er. cbn in H.
      assert (x == inner3 e0 e1 * y / inner3 e0 e0) as ->; [|field; done].
      apply (Qmult_inj_l _ _ (inner3 e0 e0) E0). setoid_replace (inner3 e0 e0 * (inner3 e0 e1 * y / inner3 e0 e0)) with (inner3 e0 e1 * y) by (field; done). lra. }
    apply F in V1. apply F in V2. apply F in V3.
    revert V1 V2 V3. clearbody e0 e1. destruct e1 as [[x y] z], e0 as [[x0 y0] z0]. cbn [fst snd]. unfold scale, GeomModel.sub3, veq. cbn [fst snd zero3]. done.
Qed.
Print Assumptions C146_degenerate.

Example ex_degenerate : ¬ independent (from (0, 0, 0) (1, 2, 3)) (from (0, 0, 0) (2, 4, 6)).
Proof. intros H. destruct (H 2 (-(1))) as [K _]; [|by vm_compute in K]. unfold veq, comb2. cbn. split_and!; ring. Qed.
Example ex_indep : independent (from (1, 0, 0) (3, 1, 0)) (from (1, 0, 0) (1, 0, 4)).
Proof. intros s t. unfold veq, comb2, from. cbn. intros (H1&H2&H3). split; lra. Qed.
Example ex_frame : face_uv_frame_metric (0, 0, 0) (2, 0, 0) (1, 3, 0) = ((2, 0, 0), (0, 12, 0)).
Proof. vm_compute. reflexivity. Qed.
(** a face of the split square of ClaimsFindHalf.v *)
Example ex_centroid_face : ∃ i j k, oriented_face ClaimsFindHalf.square 2 i j k.
Proof.
  apply (wfs_face _ square_wf). assert (frem <$> faces ClaimsFindHalf.square !! 2%N = Some false) as H by (vm_compute; reflexivity).
  destruct (faces ClaimsFindHalf.square !! 2%N) as [x|] eqn:E; [|discriminate H]. exists x. split; [exact E|]. by apply Some_inj in H.
Qed.
Example ex_centroid : face_centroid ClaimsFindHalf.square 2 = Some [10 # 3; 6 # 3; 0 # 3].
Proof. vm_compute. reflexivity. Qed.
