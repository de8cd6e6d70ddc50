(** The two triangles in general position. *)
From Verif Require Export TriTriCut.

Section main.
Context (gt : Q → Q → bool) (Hgt : tells_zero gt).
Local Notation pre t := (precomp_new gt t).
Local Notation np t := (pre_n (precomp_new gt t)).
Local Notation dp t := (pre_d (precomp_new gt t)).
Local Notation dist t x := (plane_dist (precomp_new gt t) x).

Lemma dist_aff t x : dist t x = aff (np t) (dp t) x.
Proof. reflexivity. Qed.
Lemma dist_plane t x : solid t → dist t x == 0 ↔ in_plane t x.
Proof. intros H. unfold in_plane. rewrite (plane_vol gt t x H). reflexivity. Qed.
Lemma np_normal t : solid t → np t = normal t.
Proof. intros H. rewrite precomp_ok by exact H. reflexivity. Qed.

Lemma normals_cross p q : solid p → solid q →
  one_side (dist q (corner p 0)) (dist q (corner p 1)) (dist q (corner p 2)) = false →
  ¬ (dist q (corner p 0) == 0 ∧ dist q (corner p 1) == 0 ∧ dist q (corner p 2) == 0) →
  ¬ eq3 (cross3 (np p) (np q)) (0, 0, 0).
Proof.
  intros HP HQ O Z E.
  assert (∀ i, (i < 3)%nat → dist q (corner p i) == dist q (corner p 2)) as S.
  { intros i I. unfold plane_dist. rewrite (np_normal p HP) in E. apply solid_normal in HP.
    destruct (np q) as [[u v] w]. unfold normal in *. destruct p as [[[[a1 a2] a3] [[b1 b2] b3]] [[c1 c2] c3]]. cbn in E, HP.
    set (k1 := (a2 - c2) * (b3 - c3) - (a3 - c3) * (b2 - c2)) in *. set (k2 := (a3 - c3) * (b1 - c1) - (a1 - c1) * (b3 - c3)) in *.
    set (k3 := (a1 - c1) * (b2 - c2) - (a2 - c2) * (b1 - c1)) in *. destruct E as (E1 & E2 & E3).
    assert (0 < k1 * k1 + k2 * k2 + k3 * k3) as P.
    { pose proof (square_pos k1). pose proof (square_pos k2). pose proof (square_pos k3).
      destruct (Qlt_le_dec 0 (k1 * k1 + k2 * k2 + k3 * k3)) as [L|L]; [exact L|]. exfalso.
      assert (k1 * k1 == 0) as Z1 by lra. assert (k2 * k2 == 0) as Z2 by lra. assert (k3 * k3 == 0) as Z3 by lra. apply Qmult_integral in Z1, Z2, Z3.
      rewrite <- not_true_iff_false, !andb_true_iff, !is_zero_t in HP. apply HP. repeat split; lra. }
    assert (∀ x y z, k1 * x + k2 * y + k3 * z == 0 → u * x + v * y + w * z == 0) as T.
    { clearbody k1 k2 k3. intros x y z T. apply (Qmult_inj_r _ _ (k1 * k1 + k2 * k2 + k3 * k3)); [lra|].
      setoid_replace ((u * x + v * y + w * z) * (k1 * k1 + k2 * k2 + k3 * k3)) with
        ((k1 * u + k2 * v + k3 * w) * (k1 * x + k2 * y + k3 * z) + (k2 * w - k3 * v) * (k2 * z - k3 * y) + (k3 * u - k1 * w) * (k3 * x - k1 * z) + (k1 * v - k2 * u) * (k1 * y - k2 * x)) by ring.
      rewrite T, E1, E2, E3. ring. }
    assert (u * (a1 - c1) + v * (a2 - c2) + w * (a3 - c3) == 0) as TA by (apply T; unfold k1, k2, k3; ring).
    assert (u * (b1 - c1) + v * (b2 - c2) + w * (b3 - c3) == 0) as TB by (apply T; unfold k1, k2, k3; ring).
    destruct i as [|[|[|i]]]; [| | |lia]; cbn; lra. }
  pose proof (S 0%nat ltac:(lia)) as S0. pose proof (S 1%nat ltac:(lia)) as S1. clear S E.
  unfold one_side in O. apply orb_false_iff in O as [O1 O2]. rewrite <- not_true_iff_false, !andb_true_iff, !is_positive_t in O1. rewrite <- not_true_iff_false, !andb_true_iff, !is_negative_t in O2.
  rewrite S0, S1 in *. destruct (Q_dec (dist q (corner p 2)) 0) as [[L|L]|L]; tauto.
Qed.
Lemma parallel_planes p q : solid q → (∀ i, (i < 3)%nat → dist p (corner q i) == 0) → eq3 (cross3 (np p) (np q)) (0, 0, 0).
Proof.
  intros HQ H. pose proof (H 0%nat ltac:(lia)) as H0. pose proof (H 1%nat ltac:(lia)) as H1. pose proof (H 2%nat ltac:(lia)) as H2. clear H.
  unfold plane_dist in *. rewrite (np_normal q HQ). destruct (np p) as [[u v] w]. unfold normal. destruct q as [[[[a1 a2] a3] [[b1 b2] b3]] [[c1 c2] c3]]. cbn in *.
  assert (u * (a1 - c1) + v * (a2 - c2) + w * (a3 - c3) == 0) as TA by lra. assert (u * (b1 - c1) + v * (b2 - c2) + w * (b3 - c3) == 0) as TB by lra.
  clear H0 H1 H2. set (x := a1 - c1) in *. set (y := a2 - c2) in *. set (z := a3 - c3) in *. set (x' := b1 - c1) in *. set (y' := b2 - c2) in *. set (z' := b3 - c3) in *. clearbody x y z x' y' z'.
  repeat split.
  - setoid_replace (v * (x * y' - y * x') - w * (z * x' - x * z')) with (x * (u * x' + v * y' + w * z') - x' * (u * x + v * y + w * z)) by ring. rewrite TA, TB. ring.
  - setoid_replace (w * (y * z' - z * y') - u * (x * y' - y * x')) with (y * (u * x' + v * y' + w * z') - y' * (u * x + v * y + w * z)) by ring. rewrite TA, TB. ring.
  - setoid_replace (u * (z * x' - x * z') - v * (y * z' - z * y')) with (z * (u * x' + v * y' + w * z') - z' * (u * x + v * y + w * z)) by ring. rewrite TA, TB. ring.
Qed.

Section two.
Context (p q : tri) (Hp : solid p) (Hq : solid q).
Context (Op : one_side (dist q (corner p 0)) (dist q (corner p 1)) (dist q (corner p 2)) = false).
Context (Zp : ¬ (dist q (corner p 0) == 0 ∧ dist q (corner p 1) == 0 ∧ dist q (corner p 2) == 0)).
Definition SP := cands (inside_2d (pre q)) p (tri_edges (dist q (corner p 0)) (dist q (corner p 1)) (dist q (corner p 2))).
Definition SQ := cands (inside_2d (pre p)) q (tri_edges (dist p (corner q 0)) (dist p (corner q 1)) (dist p (corner q 2))).
Local Notation onl := (online (np p) (np q) (dp p) (dp q)).
Local Notation F := (phi (np p) (np q)).

Lemma HDne : ¬ eq3 (cross3 (np p) (np q)) (0, 0, 0).
Proof. apply normals_cross; assumption. Qed.
Lemma shared_online x : shared p q x → onl x.
Proof. intros [A B]. split; apply dist_plane; try assumption; apply in_plane_has; assumption. Qed.
Lemma sp_in x : In x SP ↔ In x (cuts p (dist q (corner p 0)) (dist q (corner p 1)) (dist q (corner p 2))) ∧ has q x.
Proof.
  unfold SP, cands. rewrite filter_In. fold (cuts p (dist q (corner p 0)) (dist q (corner p 1)) (dist q (corner p 2))).
  split; intros [H I]; (split; [exact H|]); apply (cuts_sound p (np q) (dp q)) in H as [H1 H2]; revert I; apply inside_ok; try assumption; apply dist_plane; assumption.
Qed.
Lemma sq_in x : In x SQ ↔ In x (cuts q (dist p (corner q 0)) (dist p (corner q 1)) (dist p (corner q 2))) ∧ has p x.
Proof.
  unfold SQ, cands. rewrite filter_In. fold (cuts q (dist p (corner q 0)) (dist p (corner q 1)) (dist p (corner q 2))).
  split; intros [H I]; (split; [exact H|]); apply (cuts_sound q (np p) (dp p)) in H as [H1 H2]; revert I; apply inside_ok; try assumption; apply dist_plane; assumption.
Qed.
Lemma sp_shared x : In x SP → shared p q x.
Proof. intros H. apply sp_in in H as [H1 H2]. apply (cuts_sound p (np q) (dp q)) in H1 as [H1 _]. split; assumption. Qed.
Lemma sq_shared x : In x SQ → shared p q x.
Proof. intros H. apply sq_in in H as [H1 H2]. apply (cuts_sound q (np p) (dp p)) in H1 as [H1 _]. split; assumption. Qed.
(** the second triangle on one side: nothing is shared *)
Lemma one_side_none : one_side (dist p (corner q 0)) (dist p (corner q 1)) (dist p (corner q 2)) = true → ∀ x, ¬ shared p q x.
Proof.
  intros O x [A B]. apply (section_none (np p) (dp p) _ _ _ x O B). apply (dist_plane p x Hp). apply in_plane_has, A.
Qed.
Context (Oq : one_side (dist p (corner q 0)) (dist p (corner q 1)) (dist p (corner q 2)) = false).
Lemma Zq : ¬ (dist p (corner q 0) == 0 ∧ dist p (corner q 1) == 0 ∧ dist p (corner q 2) == 0).
Proof. intros (A & B & C). apply HDne. apply parallel_planes; [exact Hq|]. intros [|[|[|i]]] I; [assumption|assumption|assumption|lia]. Qed.

Definition btw (u v x : Q) : Prop := (u <= x ∧ x <= v) ∨ (v <= x ∧ x <= u).
Lemma setup : ∃ a b c d, onl a ∧ onl b ∧ onl c ∧ onl d ∧
  (∀ x, shared p q x → btw (F a) (F b) (F x) ∧ btw (F c) (F d) (F x)) ∧
  (∀ y, In y SP → (F y == F a ∨ F y == F b) ∧ btw (F c) (F d) (F y)) ∧
  (btw (F c) (F d) (F a) → ∃ y, In y SP ∧ F y == F a) ∧ (btw (F c) (F d) (F b) → ∃ y, In y SP ∧ F y == F b) ∧
  (∀ y, In y SQ → (F y == F c ∨ F y == F d) ∧ btw (F a) (F b) (F y)) ∧
  (btw (F a) (F b) (F c) → ∃ y, In y SQ ∧ F y == F c) ∧ (btw (F a) (F b) (F d) → ∃ y, In y SQ ∧ F y == F d).
Proof.
  destruct (cuts_ends p (np q) (dp q) Op Zp) as (a & b & La & Lb & L1 & L2).
  destruct (cuts_ends q (np p) (dp p) Oq Zq) as (c & d & Lc & Ld & M1 & M2).
  assert (∀ x, In x (cuts p (dist q (corner p 0)) (dist q (corner p 1)) (dist q (corner p 2))) → has p x ∧ onl x) as OP.
  { intros x Hx. apply (cuts_sound p (np q) (dp q)) in Hx as [H1 H2]. split; [exact H1|]. split; [|exact H2]. apply (dist_plane p x Hp). apply in_plane_has, H1. }
  assert (∀ x, In x (cuts q (dist p (corner q 0)) (dist p (corner q 1)) (dist p (corner q 2))) → has q x ∧ onl x) as OQ.
  { intros x Hx. apply (cuts_sound q (np p) (dp p)) in Hx as [H1 H2]. split; [exact H1|]. split; [exact H2|]. apply (dist_plane q x Hq). apply in_plane_has, H1. }
  destruct (OP a La) as [Pa Oa]. destruct (OP b Lb) as [Pb Ob]. destruct (OQ c Lc) as [Qc Oc]. destruct (OQ d Ld) as [Qd Od].
  pose proof HDne as HD.
  assert (∀ x, has p x → onl x → btw (F a) (F b) (F x)) as I1.
  { intros x Hx Ox. apply (seg_phi _ _ (dp p) (dp q) HD a b x); try assumption. apply L2; [exact Hx|exact (proj2 Ox)]. }
  assert (∀ x, has q x → onl x → btw (F c) (F d) (F x)) as I2.
  { intros x Hx Ox. apply (seg_phi _ _ (dp p) (dp q) HD c d x); try assumption. apply M2; [exact Hx|exact (proj1 Ox)]. }
  assert (∀ x, onl x → btw (F a) (F b) (F x) → has p x) as J1.
  { intros x Ox Hx. apply (seg_phi _ _ (dp p) (dp q) HD a b x) in Hx; try assumption. exact (has_seg p a b x Pa Pb Hx). }
  assert (∀ x, onl x → btw (F c) (F d) (F x) → has q x) as J2.
  { intros x Ox Hx. apply (seg_phi _ _ (dp p) (dp q) HD c d x) in Hx; try assumption. exact (has_seg q c d x Qc Qd Hx). }
  exists a, b, c, d. do 4 (split; [assumption|]).
  split. { intros x Hx. pose proof (shared_online x Hx) as Ox. destruct Hx as [Hx1 Hx2]. split; [apply I1|apply I2]; assumption. }
  split. { intros y Hy. pose proof (sp_shared y Hy) as Sy. pose proof (shared_online y Sy) as Oy. apply sp_in in Hy as [Hy1 Hy2].
    split; [destruct (L1 y Hy1) as [E|E]; [left|right]; apply phi_eq, E|apply I2; assumption]. }
  split. { intros B. exists a. split; [|reflexivity]. apply sp_in. split; [exact La|]. apply J2; assumption. }
  split. { intros B. exists b. split; [|reflexivity]. apply sp_in. split; [exact Lb|]. apply J2; assumption. }
  split. { intros y Hy. pose proof (sq_shared y Hy) as Sy. pose proof (shared_online y Sy) as Oy. apply sq_in in Hy as [Hy1 Hy2].
    split; [destruct (M1 y Hy1) as [E|E]; [left|right]; apply phi_eq, E|apply I1; assumption]. }
  split. { intros B. exists c. split; [|reflexivity]. apply sq_in. split; [exact Lc|]. apply J1; assumption. }
  intros B. exists d. split; [|reflexivity]. apply sq_in. split; [exact Ld|]. apply J1; assumption.
Qed.
Local Notation MM := (dot3 (cross3 (np p) (np q)) (cross3 (np p) (np q)) * merge2).
Lemma MM_pos : 0 <= MM.
Proof. apply Qmult_le_0_compat; [apply Qlt_le_weak, K_pos, HDne|]. unfold merge2. lra. Qed.
Lemma near_iff x y : shared p q x → shared p q y → near x y = true ↔ (F x - F y) * (F x - F y) <= MM.
Proof. intros X Y. apply (near_phi _ _ (dp p) (dp q) HDne); apply shared_online; assumption. Qed.
Lemma far_iff x y : shared p q x → shared p q y → near x y = false → ¬ (F x - F y) * (F x - F y) <= MM.
Proof. intros X Y E H. apply near_iff in H; [congruence|assumption..]. Qed.
Lemma seg_of u v x : shared p q u → shared p q v → shared p q x → btw (F u) (F v) (F x) → on_seg3 u v x.
Proof. intros U V X H. apply (seg_phi _ _ (dp p) (dp q) HDne); try (apply shared_online; assumption). exact H. Qed.
(** the candidates, the first phase, the second phase *)
Lemma both_none : SP = [] → SQ = [] → ∀ x, ¬ shared p q x.
Proof.
  intros E1 E2 x X. destruct setup as (a & b & c & d & _ & _ & _ & _ & C & A1 & A2 & A3 & A4 & A5 & A6).
  refine (iv_none F a b c d MM SP SQ A1 A2 A3 A4 A5 A6 MM_pos _ (F x) (C x X)). rewrite E1, E2. reflexivity.
Qed.
Lemma both_near u : shared p q u → (∀ y, In y (SP ++ SQ) → near y u = true) → common_part p q u u.
Proof.
  intros U H. split; [exact U|]. split; [exact U|]. intros x X. right. split; [apply eq3_refl|]. apply near_tiny. apply near_iff; [exact X|exact U|].
  destruct setup as (a & b & c & d & _ & _ & _ & _ & C & A1 & A2 & A3 & A4 & A5 & A6).
  refine (iv_one F a b c d MM SP SQ A1 A2 A3 A4 A5 A6 MM_pos u _ (F x) (C x X)).
  intros y Hy. apply near_iff; [|exact U|apply H, Hy]. apply in_app_iff in Hy as [Hy|Hy]; [apply sp_shared|apply sq_shared]; exact Hy.
Qed.
Lemma first_two u v : In u SP → In v SP → near v u = false → common_part p q u v.
Proof.
  intros U V H. pose proof (sp_shared u U) as Su. pose proof (sp_shared v V) as Sv. split; [exact Su|]. split; [exact Sv|]. intros x X. left. apply seg_of; try assumption.
  destruct setup as (a & b & c & d & _ & _ & _ & _ & C & A1 & A2 & A3 & A4 & A5 & A6).
  exact (iv_first F a b c d MM SP SQ A1 A2 A3 A4 A5 A6 MM_pos u v U V (far_iff v u Sv Su H) (F x) (C x X)).
Qed.
Lemma last_two u v : In u SQ → In v SQ → near v u = false → common_part p q u v.
Proof.
  intros U V H. pose proof (sq_shared u U) as Su. pose proof (sq_shared v V) as Sv. split; [exact Su|]. split; [exact Sv|]. intros x X. left. apply seg_of; try assumption.
  destruct setup as (a & b & c & d & _ & _ & _ & _ & C & A1 & A2 & A3 & A4 & A5 & A6).
  exact (iv_last F a b c d MM SP SQ A1 A2 A3 A4 A5 A6 MM_pos u v U V (far_iff v u Sv Su H) (F x) (C x X)).
Qed.
Lemma mixed_two u v : In u SP → In v SQ → (∀ y, In y SP → y = u ∨ near y u = true) → near v u = false → common_part p q u v.
Proof.
  intros U V N H. pose proof (sp_shared u U) as Su. pose proof (sq_shared v V) as Sv. split; [exact Su|]. split; [exact Sv|]. intros x X. left. apply seg_of; try assumption.
  destruct setup as (a & b & c & d & _ & _ & _ & _ & C & A1 & A2 & A3 & A4 & A5 & A6).
  refine (iv_both F a b c d MM SP SQ A1 A2 A3 A4 A5 A6 MM_pos u v U V _ (far_iff v u Sv Su H) (F x) (C x X)).
  intros y Hy. destruct (N y Hy) as [-> | Ny]; [|apply near_iff; try assumption; apply sp_shared, Hy]. pose proof MM_pos as P. cbn zeta. setoid_replace ((F u - F u) * (F u - F u)) with 0 by ring. exact P.
Qed.
End two.
End main.
