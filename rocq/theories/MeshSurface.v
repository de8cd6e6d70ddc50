(** Closed surfaces: kept by edge flips, by edge splits and by edge collapses. *)
From Verif Require Export MeshManifold ClaimsMeshCollapse MeshRemeshModel.
From Verif Require Import MeshBase.
Local Open Scope N_scope.

Section surface.
Context {P : Type}.
Implicit Types (m : mesh P) (u v w a b c d f g h : N).

Record surf m : Prop := { sf_wf : WF m; sf_closed : closed m; sf_ring : ringed m; sf_flag : unflagged m }.
(** no two faces on the same three vertices with opposite orientations *)
Definition no_pillow m : Prop := ∀ x y z, F m x y z → ¬ F m y x z.

Lemma rot3_sym x y z a b c : rot3 x y z a b c → rot3 a b c x y z.
Proof. unfold rot3. intros [(->&->&->)|[(->&->&->)|(->&->&->)]]; tauto. Qed.
Lemma cyc_rot m f x y z a b c : rot3 x y z a b c → cycle_face m f a b c → cycle_face m f x y z.
Proof. unfold rot3, cycle_face. intros [(->&->&->)|[(->&->&->)|(->&->&->)]]; tauto. Qed.
Lemma F_rot3 m x y z a b c : rot3 x y z a b c → F m a b c → F m x y z.
Proof. intros R [f Hf]. exists f. by eapply cyc_rot. Qed.
Lemma cyc_id m f g x y z : WF m → cycle_face m f x y z → cycle_face m g x y z → f = g.
Proof.
  intros HW Hf Hg. pose proof (wf_si _ HW) as HS.
  apply cycle_face_inv in Hf as (h&HL&Fh&Et&Eh&_); [|done].
  apply cycle_face_inv in Hg as (k&HLk&Fk&Etk&Ehk&_); [|done].
  assert (h = k) as -> by (apply (em_inj m None); congruence). congruence.
Qed.
Lemma cyc_cong m m' g x y z : (∀ a b c, oriented_face m' g a b c ↔ oriented_face m g a b c) →
  cycle_face m' g x y z ↔ cycle_face m g x y z.
Proof. intros H. unfold cycle_face. by rewrite !H. Qed.

Lemma side_face m x y : WF m → side_used m x y → ∃ h f, L m h ∧ fc m h = Some f ∧ tl m h = x ∧ hd m h = y.
Proof.
  intros HW (f&z&Hf). pose proof (wf_si _ HW) as HS.
  apply cycle_face_inv in Hf as (h&HL&Fh&Et&Eh&_); [|done]. by exists h, f.
Qed.
Lemma side_registered m x y : WF m → closed m → registered m x y ↔ side_used m x y.
Proof.
  intros HW HC. pose proof (wf_si _ HW) as HS. split.
  - intros [h Hr]. apply runs_WF in Hr as (HL&Et&Eh); [|done].
    destruct (closed_face m h HW HC HL) as [f Hf]. exists f, (hd m (nx m h)). rewrite <- Et, <- Eh.
    by apply cycle_face_side.
  - intros Hs. apply side_face in Hs as (h&f&HL&_&Et&Eh); [|done]. exists h. by apply runs_WF.
Qed.
Lemma flag_unused m : WF m → closed m → unflagged m ↔ removed_unused m.
Proof.
  intros HW HC. split.
  - intros H h v w z Hr Hz. apply (H v w z); [|done]. apply side_registered; [done..|]. by exists h.
  - intros H v x z Hs Hz. apply side_registered in Hs as [h Hr]; [|done..]. by apply (H h v x z).
Qed.
Lemma surf_fan m v : surf m → one_fan m v.
Proof. intros [HW HC HR _]. apply fan_link; [done|done|]. exact (HR v). Qed.
Lemma surf_inner m v : surf m → inner m v.
Proof.
  intros [HW HC _ _] h w x Hr Hx. pose proof (wf_si _ HW) as HS.
  apply runs_WF in Hr as (HL&_); [|done]. destruct (closed_face m h HW HC HL) as [f Hf].
  unfold fc, he in Hf. rewrite Hx in Hf. cbn in Hf. congruence.
Qed.
Lemma side_vert m x y : WF m → side_used m x y → ∃ z, verts m !! x = Some z.
Proof.
  intros HW [z Hz]%F_side. apply (F_lt m) in Hz; [|done].
  apply (si_vb _ _ (wf_si _ HW)) in Hz. exact Hz.
Qed.

(** ** Flips *)
Section flip.
Context (degen : P → P → P → P → bool) m h f0 f1 a b c d m' (HW : WF m) (HC : closed m).
Context (Hf : flippable degen m h f0 f1 a b c d) (H' : Flipped m h f0 f1 a b c d m').

Lemma flipped_F x y z : F m' x y z ↔
  (F m x y z ∧ ¬ rot3 x y z a b c ∧ ¬ rot3 x y z b a d) ∨ rot3 x y z a d c ∨ rot3 x y z b c d.
Proof.
  destruct Hf as (_&C0&C1&_). destruct H' as [HW' G0 G1 _ Hrest _ _].
  assert (cycle_face m' f0 a d c) as C0' by (by left). assert (cycle_face m' f1 b c d) as C1' by (by left).
  split.
  - intros [g Hg]. destruct (decide (g = f0)) as [->|N0]; [right; left; exact (cyc_fun m' _ _ _ _ _ _ _ HW' C0' Hg)|].
    destruct (decide (g = f1)) as [->|N1]; [right; right; exact (cyc_fun m' _ _ _ _ _ _ _ HW' C1' Hg)|].
    left. apply (cyc_cong m m') in Hg; [|intros; by apply Hrest].
    split; [by exists g|]. split; intros R%rot3_sym; apply (cyc_rot _ _ _ _ _ _ _ _ R) in Hg.
    + apply N0. exact (cyc_id m _ _ _ _ _ HW Hg C0).
    + apply N1. exact (cyc_id m _ _ _ _ _ HW Hg C1).
  - intros [([g Hg]&R0&R1)|[R|R]].
    + exists g. apply (cyc_cong m m'); [|done]. intros. apply Hrest; intros ->.
      * apply R0. exact (cyc_fun m _ _ _ _ _ _ _ HW C0 Hg).
      * apply R1. exact (cyc_fun m _ _ _ _ _ _ _ HW C1 Hg).
    + exists f0. by eapply cyc_rot.
    + exists f1. by eapply cyc_rot.
Qed.

Lemma flip_no_sides : ¬ side_used m c d ∧ ¬ side_used m d c.
Proof.
  destruct Hf as (_&_&_&_&N1&N2&_).
  split; intros (k&?&HL&_&Et&Eh)%side_face; try done; [apply N1|apply N2]; exists k; apply runs_WF; try done; apply HW.
Qed.

Lemma flip_surf : ringed m → unflagged m → surf m'.
Proof.
  intros HR HU. pose proof Hf as (_&C0&C1&Dcd&_). destruct flip_no_sides as [Ncd Ndc].
  pose proof (fl_wf _ _ _ _ _ _ _ _ _ H') as HW'.
  assert (F m a b c) as F1 by (by exists f0). assert (F m b a d) as F2 by (by exists f1).
  pose proof (flip_side m m' HW a b c d F1 F2 flipped_F) as Hside.
  split; [done| | |].
  - by apply (flip_closed m m' HW a b c d F1 F2 flipped_F).
  - intros v. apply (flip_ringed m m' HW a b c d F1 F2 flipped_F v (HR v)).
  - intros v x z Hs Hz. destruct (fl_pos _ _ _ _ _ _ _ _ _ H') as [_ Hp]. destruct (Hp v) as [_ Hv].
    assert (∃ y, side_used m v y) as [y Hy].
    { apply Hside in Hs as [(?&_)|[E|E]]; [by eauto|injection E as -> ->..].
      - exists a. apply F_side. exists b. by apply F_rot, F_rot.
      - exists b. apply F_side. exists a. by apply F_rot, F_rot. }
    rewrite Hz in Hv. destruct (verts m !! v) as [z0|] eqn:E0; [|done]. cbn in Hv. injection Hv as Hv. rewrite Hv. by apply (HU v y).
Qed.

Lemma flip_pillow : no_pillow m → no_pillow m'.
Proof.
  intros HN x y z. pose proof Hf as (_&C0&C1&Dcd&_). destruct flip_no_sides as [Ncd Ndc].
  assert (F m a b c) as F1 by (by exists f0). assert (F m b a d) as F2 by (by exists f1).
  destruct (flip_ne m HW a b c d F1 F2) as (?&?&?&?&?).
  assert (∀ x y z, rot3 x y z a d c ∨ rot3 x y z b c d → ¬ F m y x z) as K.
  { intros x' y' z' R HFo. destruct (F_sides _ _ _ _ HFo) as (S1&S2&S3).
    destruct R as [R|R]; destruct R as [(->&->&->)|[(->&->&->)|(->&->&->)]]; contradiction. }
  rewrite !flipped_F. intros [(A&_)|A] [(B&_)|B].
  - by apply (HN x y z).
  - assert (¬ F m x y z) by (by apply K). done.
  - by apply (K x y z).
  - unfold rot3 in A, B. intuition congruence.
Qed.
End flip.

(** ** Splits *)
Section split.
Context m f1 f2 (p : P) a b c d w m' (HW : WF m) (HC : closed m).
Context (C1 : cycle_face m f1 c a b) (C2 : cycle_face m f2 a c d) (Dbd : b ≠ d).
Context (H' : SplitEdgeAt m f1 f2 p a b c d w m').

Lemma live_lt m0 f x y z : WF m0 → cycle_face m0 f x y z → f < nfaces m0 ∧ live_face m0 f.
Proof.
  intros HW0 Hc. pose proof (wf_si _ HW0) as HS0.
  assert (∃ z, faces m0 !! f = Some z ∧ frem z = false) as (t&Ht&Hr).
  { unfold cycle_face in Hc. destruct Hc as [Ho|[Ho|Ho]]; apply oriented_face_L in Ho as (e&Ho&_); try done; eauto. }
  split; [|by exists t]. apply (si_fb _ _ HS0). by exists t.
Qed.

Lemma split_F x y z : F m' x y z ↔
  (F m x y z ∧ ¬ rot3 x y z c a b ∧ ¬ rot3 x y z a c d) ∨
  rot3 x y z w b c ∨ rot3 x y z w a b ∨ rot3 x y z w c d ∨ rot3 x y z w d a.
Proof.
  destruct H' as [HW' _ _ _ Hd1 Hd2 G1 G2 G3 G4 Hrest [Hnf _] _].
  assert (cycle_face m' (nfaces m) w b c) as K1 by (by left).
  assert (cycle_face m' (nfaces m + 1) w a b) as K2 by (by left).
  assert (cycle_face m' (nfaces m + 2) w c d) as K3 by (by left).
  assert (cycle_face m' (nfaces m + 3) w d a) as K4 by (by left).
  split.
  - intros [g Hg]. pose proof (live_lt m' g x y z HW' Hg) as [Hlt Hl]. rewrite Hnf in Hlt.
    destruct (decide (g < nfaces m)) as [Ho|Ho].
    + assert (g ≠ f1) as N1 by congruence. assert (g ≠ f2) as N2 by congruence.
      left. apply (cyc_cong m m') in Hg; [|intros; by apply Hrest].
      split; [by exists g|]. split; intros R%rot3_sym; apply (cyc_rot _ _ _ _ _ _ _ _ R) in Hg.
      * apply N1. exact (cyc_id m _ _ _ _ _ HW Hg C1).
      * apply N2. exact (cyc_id m _ _ _ _ _ HW Hg C2).
    + assert (g = nfaces m ∨ g = nfaces m + 1 ∨ g = nfaces m + 2 ∨ g = nfaces m + 3) as Hcase by lia.
      right. destruct Hcase as [->|[->|[->| ->]]].
      * left. exact (cyc_fun m' _ _ _ _ _ _ _ HW' K1 Hg).
      * right; left. exact (cyc_fun m' _ _ _ _ _ _ _ HW' K2 Hg).
      * right; right; left. exact (cyc_fun m' _ _ _ _ _ _ _ HW' K3 Hg).
      * right; right; right. exact (cyc_fun m' _ _ _ _ _ _ _ HW' K4 Hg).
  - intros [([g Hg]&R0&R1)|[R|[R|[R|R]]]].
    + exists g. apply (cyc_cong m m'); [|done]. intros. apply Hrest.
      * intros ->. apply R0. exact (cyc_fun m _ _ _ _ _ _ _ HW C1 Hg).
      * intros ->. apply R1. exact (cyc_fun m _ _ _ _ _ _ _ HW C2 Hg).
      * exact (proj1 (live_lt m _ _ _ _ HW Hg)).
    + exists (nfaces m). by eapply cyc_rot.
    + exists (nfaces m + 1). by eapply cyc_rot.
    + exists (nfaces m + 2). by eapply cyc_rot.
    + exists (nfaces m + 3). by eapply cyc_rot.
Qed.

Lemma split_fresh x y z : F m x y z → x ≠ w.
Proof.
  intros HFx. apply (F_lt m) in HFx; [|done]. destruct (sea_w _ _ _ _ _ _ _ _ _ _ H') as [-> _]. lia.
Qed.

Lemma split_surf : ringed m → unflagged m → surf m'.
Proof.
  intros HR HU. pose proof (sea_wf _ _ _ _ _ _ _ _ _ _ H') as HW'.
  assert (F m c a b) as F1 by (by exists f1). assert (F m a c d) as F2 by (by exists f2).
  pose proof (split_side m m' HW a b c d w F1 F2 split_fresh split_F) as Hside.
  split; [done| | |].
  - by apply (split_closed m m' HW a b c d w F1 F2 split_fresh split_F).
  - intros v. apply (split_ringed m m' HW a b c d w F1 F2 split_fresh split_F v (HR v)).
  - intros v x z Hs Hz. destruct (decide (v = w)) as [->|Nw].
    + destruct (sea_pos _ _ _ _ _ _ _ _ _ _ H') as [_ Hv]. rewrite Hz in Hv. cbn in Hv. congruence.
    + destruct (sea_old _ _ _ _ _ _ _ _ _ _ H' v Nw) as [_ Hv].
      assert (∃ y, side_used m v y) as [y Hy].
      { destruct (F_sides _ _ _ _ F1) as (?&?&?). destruct (F_sides _ _ _ _ F2) as (?&?&?).
        apply Hside in Hs as [(?&_)|[[? _]|[_ [->|[->|[->| ->]]]]]]; [by eauto|done|by eauto..]. }
      rewrite Hz in Hv. destruct (verts m !! v) as [z0|] eqn:E0; [|done]. cbn in Hv. injection Hv as Hv. rewrite Hv. by apply (HU v y).
Qed.

Lemma split_pillow : no_pillow m → no_pillow m'.
Proof.
  intros HN x y z. 
  assert (F m c a b) as F1 by (by exists f1). assert (F m a c d) as F2 by (by exists f2).
  destruct (split_ne m HW a b c d w F1 F2 split_fresh) as ((?&?&?&?&?)&?&?&?&?).
  assert (∀ x y z, rot3 x y z w b c ∨ rot3 x y z w a b ∨ rot3 x y z w c d ∨ rot3 x y z w d a → ¬ F m y x z) as K.
  { intros x' y' z' R HFo. pose proof (F_rot _ _ _ _ HFo) as HFo1. pose proof (F_rot _ _ _ _ HFo1) as HFo2.
    apply split_fresh in HFo, HFo1, HFo2.
    destruct R as [R|[R|[R|R]]]; destruct R as [(->&->&->)|[(->&->&->)|(->&->&->)]]; contradiction. }
  rewrite !split_F. intros [(A&_)|A] [(B&_)|B].
  - by apply (HN x y z).
  - assert (¬ F m x y z) by (by apply K). done.
  - by apply (K x y z).
  - destruct A as [A|[A|[A|A]]]; destruct A as [(->&->&->)|[(->&->&->)|(->&->&->)]];
      unfold rot3 in B; intuition congruence.
Qed.
End split.

(** ** Collapses *)
Lemma collapsed_F m m' u v p x y z : collapsed m m' u v p →
  F m' x y z ↔ ∃ x0 y0 z0, F m x0 y0 z0 ∧ ¬ (tri_has u x0 y0 z0 ∧ tri_has v x0 y0 z0) ∧
    x = into u v x0 ∧ y = into u v y0 ∧ z = into u v z0.
Proof.
  intros (_&_&HO&_). split.
  - intros [f [Ho|[Ho|Ho]]]; apply HO in Ho as (x0&y0&z0&Ho&Hn&->&->&->).
    + exists x0, y0, z0. split; [exists f; by left|]. done.
    + exists z0, x0, y0. split; [exists f; right; by left|]. split; [|done].
      intros [A B]. apply Hn. unfold has, tri_has in *. tauto.
    + exists y0, z0, x0. split; [exists f; right; by right|]. split; [|done].
      intros [A B]. apply Hn. unfold has, tri_has in *. tauto.
  - intros (x0&y0&z0&[f [Ho|[Ho|Ho]]]&Hn&->&->&->); exists f.
    + left. apply HO. exists x0, y0, z0. done.
    + right; left. apply HO. exists y0, z0, x0. split; [done|]. split; [|done].
      intros [A B]. apply Hn. unfold has, tri_has in *. tauto.
    + right; right. apply HO. exists z0, x0, y0. split; [done|]. split; [|done].
      intros [A B]. apply Hn. unfold has, tri_has in *. tauto.
Qed.

Lemma collapsed_surf m m' u v a b p : surf m → F m u v a → F m v u b → a ≠ b → collapsed m m' u v p → surf m'.
Proof.
  intros [HW HC HR HU] F1 F2 Dab H. pose proof H as (HW'%WF_iff&Hru&_).
  pose proof (λ x y z, collapsed_F m m' u v p x y z H) as HF.
  assert (closed m') as HC' by (by apply (col_closed m m' HW HC u v a b F1 F2 Dab HF)).
  split; [done|done| |].
  - by apply (col_ringed m m' HW HC u v a b F1 F2 HF).
  - by apply flag_unused.
Qed.

(** sides away from the collapsed edge stay *)
Lemma collapsed_side m m' u v p x y : collapsed m m' u v p → x ≠ u → x ≠ v → y ≠ u → y ≠ v → u ≠ v →
  side_used m x y → side_used m' x y.
Proof.
  intros H N1 N2 N3 N4 N5 [z Hz]%F_side. apply F_side. exists (into u v z). apply (collapsed_F _ _ _ _ _ _ _ _ H).
  exists x, y, z. split; [done|]. split; [unfold tri_has; intros [[?|[?|?]] [?|[?|?]]]; congruence|].
  by rewrite (into_ne u v x), (into_ne u v y).
Qed.
End surface.
