(** Lemmas on the intersection of two triangles. *)
From Verif Require Export TriTriSpec GeomBase.
From Verif Require Import RayGeom.

Ltac qp := repeat match goal with p : p3 |- _ => destruct p as [[? ?] ?] | p : p2 |- _ => destruct p as [? ?] | p : tri |- _ => destruct p as [[? ?] ?] end.
Lemma nz_t x : nz x = true ↔ x <= 0.
Proof. unfold nz. rewrite negb_true_iff. apply is_positive_f. Qed.
Lemma nz_f x : nz x = false ↔ 0 < x.
Proof. unfold nz. rewrite negb_false_iff. apply is_positive_t. Qed.
Lemma pz_t x : pz x = true ↔ 0 <= x.
Proof. unfold pz. rewrite negb_true_iff. apply is_negative_f. Qed.
Lemma pz_f x : pz x = false ↔ x < 0.
Proof. unfold pz. rewrite negb_false_iff. apply is_negative_t. Qed.

Lemma eq3_refl a : eq3 a a.
Proof. qp. unfold eq3. repeat split; reflexivity. Qed.
Lemma eq3_sym a b : eq3 a b → eq3 b a.
Proof. qp. unfold eq3. intros (? & ? & ?). repeat split; symmetry; assumption. Qed.
Lemma eq3_trans a b c : eq3 a b → eq3 b c → eq3 a c.
Proof. qp. unfold eq3. intros (E1 & E2 & E3). rewrite E1, E2, E3. tauto. Qed.

(** ** Barycentric weights from the projection *)
Definition bary (t : tri) (x : p3) (u v w : Q) : Prop :=
  u + v + w == 1 ∧ eq3 x (comb3 u v w (corner t 0) (corner t 1) (corner t 2)).
Lemma has_bary t x : has t x ↔ ∃ u v w, 0 <= u ∧ 0 <= v ∧ 0 <= w ∧ bary t x u v w.
Proof. reflexivity. Qed.
Lemma plane_vol gt t x : solid t → plane_dist (precomp_new gt t) x == vol6 (corner t 0) (corner t 1) (corner t 2) x.
Proof.
  intros _. unfold precomp_new, plane_dist. destruct (vzero (normal t)) eqn:E; cbn.
  - destruct t as [[[[a1 a2] a3] [[b1 b2] b3]] [[c1 c2] c3]], x as [[x1 x2] x3]. unfold vzero, normal in *. cbn in *.
    rewrite !andb_true_iff, !is_zero_t in E. destruct E as [[E1 E2] E3].
    setoid_replace ((b1 - a1) * ((c2 - a2) * (x3 - a3) - (c3 - a3) * (x2 - a2)) - (b2 - a2) * ((c1 - a1) * (x3 - a3) - (c3 - a3) * (x1 - a1)) + (b3 - a3) * ((c1 - a1) * (x2 - a2) - (c2 - a2) * (x1 - a1)))
     with (((a2 - c2) * (b3 - c3) - (a3 - c3) * (b2 - c2)) * (x1 - c1) + ((a3 - c3) * (b1 - c1) - (a1 - c1) * (b3 - c3)) * (x2 - c2) + ((a1 - c1) * (b2 - c2) - (a2 - c2) * (b1 - c1)) * (x3 - c3)) by ring.
    rewrite E1, E2, E3. ring.
  - destruct t as [[[[a1 a2] a3] [[b1 b2] b3]] [[c1 c2] c3]], x as [[x1 x2] x3]. unfold normal. cbn. ring.
Qed.
Lemma solid_normal t : solid t ↔ vzero (normal t) = false.
Proof.
  unfold solid, thick, normal, vzero. destruct t as [[[[a1 a2] a3] [[b1 b2] b3]] [[c1 c2] c3]]. cbn.
  rewrite <- not_true_iff_false, !andb_true_iff, !is_zero_t. unfold parallel3. split; intros H E; apply H; [destruct E as [[? ?] ?]|destruct E as (? & ? & ?)]; repeat split; lra.
Qed.
Lemma precomp_ok gt t : solid t → precomp_new gt t =
  Pre (normal t) (- dot3 (normal t) (corner t 2)) (coplanar_axes gt (normal t)) (project_tri t (coplanar_axes gt (normal t)))
    (is_positive (area_2d (project_tri t (coplanar_axes gt (normal t))))) false.
Proof. intros H. apply solid_normal in H. unfold precomp_new. rewrite H. reflexivity. Qed.
Lemma axes_ok gt t : tells_zero gt → solid t →
  ∃ n0 n1 n2, normal t = (n0, n1, n2) ∧
  ((coplanar_axes gt (normal t) = (1, 2, 0)%nat ∧ ¬ n0 == 0) ∨ (coplanar_axes gt (normal t) = (0, 2, 1)%nat ∧ ¬ n1 == 0) ∨
   (coplanar_axes gt (normal t) = (0, 1, 2)%nat ∧ ¬ n2 == 0)).
Proof.
  intros [G1 G2] H. apply solid_normal in H. destruct (normal t) as [[n0 n1] n2]. exists n0, n1, n2. split; [reflexivity|].
  unfold coplanar_axes. destruct (gt n0 n1) eqn:E1; cbn.
  - destruct (gt n0 n2) eqn:E2; [left; split; [reflexivity|exact (G1 _ _ E1)]|].
    destruct (gt n1 n2) eqn:E3; right; [left|right]; (split; [reflexivity|]); [exact (G1 _ _ E3)|].
    intros Z. apply not_true_iff_false in E2. apply E2, G2; [exact (G1 _ _ E1)|exact Z].
  - destruct (gt n1 n2) eqn:E3; right; [left|right]; (split; [reflexivity|]); [exact (G1 _ _ E3)|]. intros Z.
    apply not_true_iff_false in E1, E3. apply E3, G2; [|exact Z]. intros Z1.
    apply E1, G2; [|exact Z1]. intros Z0. unfold vzero in H. rewrite <- not_true_iff_false, !andb_true_iff, !is_zero_t in H. tauto.
Qed.
Definition area (gt : Q → Q → bool) (t : tri) : Q := area_2d (project_tri t (coplanar_axes gt (normal t))).
Definition efun gt t x i j : Q := edge_fun (project_tri t (coplanar_axes gt (normal t))) (project_to_2d x (coplanar_axes gt (normal t))) i j.
Lemma area_nz gt t : tells_zero gt → solid t → ¬ area gt t == 0.
Proof.
  intros G H. destruct (axes_ok gt t G H) as (n0 & n1 & n2 & E & D). unfold area.
  destruct t as [[[[a1 a2] a3] [[b1 b2] b3]] [[c1 c2] c3]]. unfold normal in E. cbn in E. injection E as E0 E1 E2.
  destruct D as [[-> D]|[[-> D]|[-> D]]]; cbn; unfold area_2d; cbn; intros Z; apply D; rewrite <- ?E0, <- ?E1, <- ?E2; unfold cross2 in Z; cbn in Z; lra.
Qed.
Lemma div_comb A e f g a b c x : ¬ A == 0 → x * A == e * a + f * b + g * c → x == e / A * a + f / A * b + g / A * c.
Proof. intros H E. apply (Qmult_inj_r _ _ A H). rewrite E. field. exact H. Qed.
Lemma bary_project gt t x : tells_zero gt → solid t → in_plane t x →
  bary t x (efun gt t x 1 2 / area gt t) (efun gt t x 2 0 / area gt t) (efun gt t x 0 1 / area gt t).
Proof.
  intros G H Hx. pose proof (area_nz gt t G H) as A. destruct (axes_ok gt t G H) as (n0 & n1 & n2 & _ & D).
  assert (efun gt t x 1 2 + efun gt t x 2 0 + efun gt t x 0 1 == area gt t ∧ ∀ k, (k < 3)%nat →
     coord x k * area gt t == efun gt t x 1 2 * coord (corner t 0) k + efun gt t x 2 0 * coord (corner t 1) k + efun gt t x 0 1 * coord (corner t 2) k) as [S C].
  { unfold area, efun, in_plane in *. clear A H.
    destruct t as [[[[a1 a2] a3] [[b1 b2] b3]] [[c1 c2] c3]], x as [[x1 x2] x3].
    destruct D as [[D0 _]|[[D0 _]|[D0 _]]]; rewrite D0 in *; clear D0; unfold area_2d, edge_fun, is_left, cross2, sub2 in *; cbn in *;
      (split; [ring|]); intros [|[|[|k]]] K; try lia; try ring; lra. }
  split.
  - rewrite <- S in A |- *. clear -A. set (e := efun gt t x 1 2) in *. set (f := efun gt t x 2 0) in *. set (g := efun gt t x 0 1) in *. clearbody e f g. field. exact A.
  - pose proof (C 0%nat ltac:(lia)) as C0. pose proof (C 1%nat ltac:(lia)) as C1. pose proof (C 2%nat ltac:(lia)) as C2. clear C S D Hx.
    generalize dependent (efun gt t x 1 2). generalize dependent (efun gt t x 2 0). generalize dependent (efun gt t x 0 1). generalize dependent (area gt t).
    intros A HA g f e. destruct t as [[[[a1 a2] a3] [[b1 b2] b3]] [[c1 c2] c3]], x as [[x1 x2] x3]. cbn. intros C0 C1 C2.
    repeat split; apply div_comb; assumption.
Qed.
Lemma bary_efun gt t x u v w : bary t x u v w →
  efun gt t x 1 2 == u * area gt t ∧ efun gt t x 2 0 == v * area gt t ∧ efun gt t x 0 1 == w * area gt t.
Proof.
  intros [S E]. assert (u == 1 - v - w) as U by lra. clear S. unfold efun, area. destruct t as [[[[a1 a2] a3] [[b1 b2] b3]] [[c1 c2] c3]], x as [[x1 x2] x3].
  unfold coplanar_axes, normal. cbn in *. destruct E as (E1 & E2 & E3).
  destruct (_ && _); [|destruct (gt _ _)]; unfold area_2d, edge_fun, is_left, cross2, sub2; cbn; rewrite ?E1, ?E2, ?E3, ?U; repeat split; ring.
Qed.
Lemma bary_unique gt t x u v w u' v' w' : tells_zero gt → solid t → bary t x u v w → bary t x u' v' w' → u == u' ∧ v == v' ∧ w == w'.
Proof.
  intros G H B B'. pose proof (area_nz gt t G H) as A. apply (bary_efun gt) in B as (E1 & E2 & E3), B' as (F1 & F2 & F3).
  repeat split; apply (Qmult_inj_r _ _ (area gt t) A); lra.
Qed.
Lemma in_plane_has t x : has t x → in_plane t x.
Proof. apply in_tri_plane. Qed.
Lemma bary_in_plane t x u v w : bary t x u v w → in_plane t x.
Proof.
  intros [S E]. assert (u == 1 - v - w) as U by lra. clear S. unfold in_plane. destruct t as [[[[a1 a2] a3] [[b1 b2] b3]] [[c1 c2] c3]], x as [[x1 x2] x3]. cbn in *.
  destruct E as (E1 & E2 & E3). rewrite E1, E2, E3, U. ring.
Qed.
Lemma mul_sign_pos A x : 0 < A → (0 <= x * A ↔ 0 <= x).
Proof.
  intros H. split; intros H'; [|apply Qmult_le_0_compat; lra]. apply Qnot_lt_le. intros L.
  assert (0 < (- x) * A) by (apply Qmult_lt_0_compat; lra). lra.
Qed.
Lemma inside_ok gt t x : tells_zero gt → solid t → in_plane t x → inside_2d (precomp_new gt t) x = true ↔ has t x.
Proof.
  intros G H Hx. pose proof (bary_project gt t x G H Hx) as B. pose proof (area_nz gt t G H) as A.
  pose proof (bary_efun gt t x _ _ _ B) as (E1 & E2 & E3). rewrite precomp_ok by exact H. unfold inside_2d. cbn [pre_axes pre_tri pre_ccw].
  change (edge_fun _ _ 0 1) with (efun gt t x 0 1). change (edge_fun _ _ 1 2) with (efun gt t x 1 2). change (edge_fun _ _ 2 0) with (efun gt t x 2 0).
  change (area_2d _) with (area gt t). rewrite has_bary.
  set (u := efun gt t x 1 2 / area gt t) in *. set (v := efun gt t x 2 0 / area gt t) in *. set (w := efun gt t x 0 1 / area gt t) in *.
  assert ((∃ u v w, 0 <= u ∧ 0 <= v ∧ 0 <= w ∧ bary t x u v w) ↔ 0 <= u ∧ 0 <= v ∧ 0 <= w) as ->.
  { split; [|intros (? & ? & ?); exists u, v, w; tauto]. intros (u' & v' & w' & ? & ? & ? & B').
    pose proof (bary_unique gt t x _ _ _ _ _ _ G H B B') as (F1 & F2 & F3). clearbody u v w. rewrite F1, F2, F3. tauto. }
  clearbody u v w. destruct (is_positive (area gt t)) eqn:EA; qb.
  - rewrite !andb_true_iff, !pz_t, E1, E2, E3, !mul_sign_pos by assumption. tauto.
  - rewrite !andb_true_iff, !nz_t, E1, E2, E3.
    assert (∀ y, y * area gt t <= 0 ↔ 0 <= y) as S.
    { intros y. rewrite <- (mul_sign_pos (- area gt t) y) by lra. split; intros; lra. }
    rewrite !S. tauto.
Qed.
