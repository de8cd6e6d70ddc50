(** Closed surfaces seen through their faces: the neighbours of every vertex form
    one cycle of faces.  The local editors keep this; used for the remeshing passes. *)
From Verif Require Export MeshFlip MeshSplitEdge2 MeshCollapse5.
From Verif Require Import MeshBase.
Local Open Scope N_scope.

Section faces.
Context {P : Type}.
Implicit Types (m : mesh P) (u v w a b c d f : N).

(** some face runs through x, y, z in this order *)
Definition F m (x y z : N) : Prop := ∃ f, cycle_face m f x y z.
Definition link m v (x y : N) : Prop := F m v x y.
Definition closed m : Prop := ∀ u v, side_used m u v → side_used m v u.
Definition ringed m : Prop := ∀ v x y, side_used m v x → side_used m v y → rtsc (link m v) x y.
Definition unflagged m : Prop := ∀ v x z, side_used m v x → verts m !! v = Some z → vrem z = false.

Definition rot3 (x y z a b c : N) : Prop :=
  (x = a ∧ y = b ∧ z = c) ∨ (x = b ∧ y = c ∧ z = a) ∨ (x = c ∧ y = a ∧ z = b).
#[global] Instance rot3_dec x y z a b c : Decision (rot3 x y z a b c).
Proof. unfold rot3. apply _. Defined.

Lemma F_rot m x y z : F m x y z → F m y z x.
Proof. intros [f Hf]. exists f. unfold cycle_face in *. tauto. Qed.
Lemma F_side m x y : side_used m x y ↔ ∃ z, F m x y z.
Proof. unfold side_used, F. split; intros (?&?&?); eauto. Qed.
Lemma F_sides m x y z : F m x y z → side_used m x y ∧ side_used m y z ∧ side_used m z x.
Proof.
  intros H. split_and!; apply F_side; [exists z|exists x|exists y]; [done| |].
  - by apply F_rot.
  - by apply F_rot, F_rot.
Qed.
Lemma F_fun m x y z z' : WF m → F m x y z → F m x y z' → z = z'.
Proof.
  intros HW [f Hf] [g Hg]. pose proof (wf_si _ HW) as HS.
  apply cycle_face_inv in Hf as (h&HL&_&Et&Eh&<-); [|done].
  apply cycle_face_inv in Hg as (k&HLk&_&Etk&Ehk&<-); [|done].
  assert (h = k) as -> by (apply (em_inj m None); congruence). done.
Qed.
Lemma F_ne m x y z : WF m → F m x y z → x ≠ y ∧ y ≠ z ∧ z ≠ x.
Proof.
  intros HW [f Hf]. pose proof (wf_si _ HW) as HS.
  apply cycle_face_inv in Hf as (h&HL&Fh&<-&<-&<-); [|done].
  destruct (face3 m HS h f HL Fh) as (L1&L2&_&_&_&_&_&_&T1&T2&T3&_).
  pose proof (hd_tl_ne m HS _ HL). pose proof (hd_tl_ne m HS _ L1). pose proof (hd_tl_ne m HS _ L2).
  split_and!; congruence.
Qed.
Lemma F_lt m x y z : WF m → F m x y z → x < nverts m.
Proof.
  intros HW [f Hf]. pose proof (wf_si _ HW) as HS.
  apply cycle_face_inv in Hf as (h&HL&Fh&<-&_&_); [|done]. apply (si_hd _ _ HS). by apply tw_L.
Qed.
Lemma cyc_fun m f a b c x y z : WF m → cycle_face m f a b c → cycle_face m f x y z → rot3 x y z a b c.
Proof.
  intros HW H1 H2.
  assert (∀ a b c x y z, oriented_face m f a b c → oriented_face m f x y z → x = a ∧ y = b ∧ z = c) as K.
  { intros a' b' c' x' y' z' Ho Ho'. pose proof (face_vertices_ok m f _ _ _ HW Ho) as E1.
    pose proof (face_vertices_ok m f _ _ _ HW Ho') as E2. rewrite E1 in E2. by injection E2 as <- <- <-. }
  unfold rot3. destruct H1 as [H1|[H1|H1]], H2 as [H2|[H2|H2]]; destruct (K _ _ _ _ _ _ H1 H2) as (->&->&->); tauto.
Qed.

(** ** The fan of a vertex as a chain of neighbours *)
Lemma fan_link m v : WF m → closed m →
  one_fan m v ↔ ∀ x y, side_used m v x → side_used m v y → rtsc (link m v) x y.
Proof.
  intros HW HC. pose proof (wf_si _ HW) as HS.
  assert (∀ x, side_used m v x ↔ ∃ h, L m h ∧ tl m h = v ∧ hd m h = x) as Hside.
  { intros x. split.
    - intros (f&z&Hc). apply cycle_face_inv in Hc as (h&HL&_&?&?&_); [|done]. eauto.
    - intros (h&HL&Et&Eh). destruct (fc m h) as [f|] eqn:Ef.
      + exists f, (hd m (nx m h)). rewrite <- Et, <- Eh. by apply cycle_face_side.
      + apply HC. destruct (fc m (tw m h)) as [f|] eqn:Ef'.
        * exists f, (hd m (nx m (tw m h))). destruct (si_tw _ _ HS h HL) as (HLt&Ett&_).
          pose proof (cycle_face_side m f (tw m h) HW HLt Ef') as Hc.
          unfold tl in Hc. rewrite Ett in Hc. fold (tl m h) in Hc. congruence.
        * destruct (border_tw_In m HS h HL Ef) as [_ X]. done. }
  assert (∀ h h', next_spoke m h h' → L m h → tl m h = v → L m h' ∧ tl m h' = v ∧ link m v (hd m h) (hd m h')) as Hn.
  { intros h h' Hs HL Et. apply (fstep_spec m HW) in Hs as (_&Hf&->).
    destruct (ccwn_L m HW h HL) as (HLc&Htc&_). split; [done|]. split; [congruence|].
    destruct (fc m h) as [f|] eqn:Ef; [|done]. exists f. rewrite <- Et.
    pose proof (cycle_face_side m f h HW HL Ef) as Hc.
    destruct (face3 m HS h f HL Ef) as (L1&L2&_&_&_&_&_&_&T1&T2&T3&_).
    unfold ccwn. fold (tl m (pv m h)). rewrite T2. done. }
  split.
  - intros Hone x y (h&HL&Et&<-)%Hside (k&HLk&Etk&<-)%Hside.
    assert (same_fan m h k) as Hf by (eapply Hone; apply runs_WF; done).
    revert HL Et. clear HLk Etk. unfold same_fan, rtsc in Hf. induction Hf as [h|h h' k Hs Hr IH]; intros HL Et; [apply rtc_refl|].
    destruct Hs as [Hs|Hs].
    + destruct (Hn _ _ Hs HL Et) as (HL'&Et'&Hl). eapply rtc_l; [left; exact Hl|]. by apply IH.
    + assert (L m h' ∧ tl m h' = v) as [HL' Et'].
      { pose proof Hs as Hs'. apply (fstep_spec m HW) in Hs' as (HL'&_&->). split; [done|].
        destruct (ccwn_L m HW h' HL') as (_&E&_). congruence. }
      destruct (Hn _ _ Hs HL' Et') as (_&_&Hl). eapply rtc_l; [right; exact Hl|]. by apply IH.
  - intros H h k w w' Hr Hr'. apply runs_WF in Hr as (HL&Et&Eh); [|done]. apply runs_WF in Hr' as (HLk&Etk&Ehk); [|done].
    assert (rtsc (link m v) w w') as Hp by (apply H; apply Hside; eauto).
    revert h HL Et Eh. unfold rtsc in Hp. induction Hp as [w|w w1 w' Hs Hp IH]; intros h HL Et Eh.
    + assert (h = k) as -> by (apply (em_inj m None); congruence). apply rtc_refl.
    + assert (∃ h1, L m h1 ∧ tl m h1 = v ∧ hd m h1 = w1) as (h1&HL1&Et1&Eh1).
      { apply Hside. destruct Hs as [Hs|Hs]; apply F_sides in Hs as (A&B&C); [by apply HC|done]. }
      assert (∀ k k', L m k → tl m k = v → L m k' → tl m k' = v → link m v (hd m k) (hd m k') → next_spoke m k k') as Hsp.
      { intros j j' HLj Etj HLj' Etj' [f Hf]. apply (fstep_spec m HW).
        apply cycle_face_inv in Hf as (i&HLi&Fi&E1&E2&E3); [|done].
        assert (i = j) as -> by (apply (em_inj m None); congruence).
        split; [done|]. split; [by rewrite Fi|].
        destruct (ccwn_L m HW j HLj) as (HLc&Htc&_).
        destruct (face3 m HS j f HLj Fi) as (L1&L2&_&_&_&_&_&_&T1&T2&T3&_).
        apply (em_inj m None); [done|done|done| |congruence].
        unfold ccwn. fold (tl m (pv m j)). congruence. }
      unfold same_fan. eapply rtc_l; [|apply (IH ltac:(done) h1); done].
      destruct Hs as [Hs|Hs]; [left|right]; apply Hsp; try done; congruence.
Qed.

(** ** Replacing two faces by others *)
Definition ringed_at m v : Prop := ∀ x y, side_used m v x → side_used m v y → rtsc (link m v) x y.

Lemma rtsc_map (R S : relation N) (g : N → N) x y :
  (∀ x y, R x y → rtsc S (g x) (g y)) → rtsc R x y → rtsc S (g x) (g y).
Proof.
  intros H Hr. unfold rtsc in Hr. induction Hr as [x|x x1 y Hs Hr IH]; [apply rtc_refl|].
  trans (g x1); [|done]. destruct Hs as [Hs|Hs]; [by apply H|]. symmetry. by apply H.
Qed.

Lemma ringed_transfer m m' v (g : N → N) : ringed_at m v →
  (∀ x, side_used m' v x → ∃ x0, side_used m v x0 ∧ rtsc (link m' v) x (g x0)) →
  (∀ x y, link m v x y → rtsc (link m' v) (g x) (g y)) → ringed_at m' v.
Proof.
  intros Hr Hs Hl x y (x0&Sx&Rx)%Hs (y0&Sy&Ry)%Hs.
  trans (g x0); [done|]. trans (g y0); [|done]. apply (rtsc_map (link m v)); [done|]. by apply Hr.
Qed.

Section flip.
Context m m' (HW : WF m) (HW' : WF m') (a b c d : N).
Context (F1 : F m a b c) (F2 : F m b a d) (Ncd : ¬ side_used m c d) (Ndc : ¬ side_used m d c) (Dcd : c ≠ d).
Context (HF : ∀ x y z, F m' x y z ↔
  (F m x y z ∧ ¬ rot3 x y z a b c ∧ ¬ rot3 x y z b a d) ∨ rot3 x y z a d c ∨ rot3 x y z b c d).

Lemma flip_ne : a ≠ b ∧ b ≠ c ∧ c ≠ a ∧ a ≠ d ∧ d ≠ b.
Proof.
  destruct (F_ne m _ _ _ HW F1) as (?&?&?). destruct (F_ne m _ _ _ HW F2) as (?&?&?). split_and!; congruence.
Qed.

Lemma flip_new : F m' a d c ∧ F m' b c d.
Proof. split; apply HF; unfold rot3; tauto. Qed.

(** the sides of the two faces *)
Lemma flip_at x y z : F m x y z → F m' x y z ∨ rot3 x y z a b c ∨ rot3 x y z b a d.
Proof.
  intros H. destruct (decide (rot3 x y z a b c)); [by auto|]. destruct (decide (rot3 x y z b a d)); [by auto|].
  left. apply HF. tauto.
Qed.

Lemma flip_side x y : side_used m' x y ↔
  (side_used m x y ∧ (x, y) ≠ (a, b) ∧ (x, y) ≠ (b, a)) ∨ (x, y) = (c, d) ∨ (x, y) = (d, c).
Proof.
  destruct flip_ne as (?&?&?&?&?). destruct flip_new as [G1 G2]. split.
  - intros (z&Hz)%F_side. apply HF in Hz as [(Hz&N1&N2)|[R|R]].
    + left. split; [apply F_side; eauto|]. split; intros E; injection E as -> ->.
      * apply N1. rewrite (F_fun m _ _ _ _ HW Hz F1). unfold rot3. tauto.
      * apply N2. rewrite (F_fun m _ _ _ _ HW Hz F2). unfold rot3. tauto.
    + destruct R as [(->&->&->)|[(->&->&->)|(->&->&->)]].
      * left. split; [by apply (F_sides m b a d)|]. split; congruence.
      * by auto.
      * left. split; [by apply (F_sides m a b c)|]. split; congruence.
    + destruct R as [(->&->&->)|[(->&->&->)|(->&->&->)]].
      * left. split; [by apply (F_sides m a b c)|]. split; congruence.
      * by auto.
      * left. split; [by apply (F_sides m b a d)|]. split; congruence.
  - intros [((z&Hz)%F_side&N1&N2)|[E|E]].
    + destruct (flip_at _ _ _ Hz) as [Hz'|[R|R]].
      * apply F_side. eauto.
      * destruct R as [(->&->&->)|[(->&->&->)|(->&->&->)]]; [done| |].
        -- by apply (F_sides m' b c d).
        -- by apply (F_sides m' a d c).
      * destruct R as [(->&->&->)|[(->&->&->)|(->&->&->)]]; [done| |].
        -- by apply (F_sides m' a d c).
        -- by apply (F_sides m' b c d).
    + injection E as -> ->. by apply (F_sides m' b c d).
    + injection E as -> ->. by apply (F_sides m' a d c).
Qed.

Lemma flip_closed : closed m → closed m'.
Proof.
  intros HC x y. rewrite !flip_side. intros [(H&N1&N2)|[E|E]].
  - left. split; [by apply HC|]. split; congruence.
  - right; right. congruence.
  - right; left. congruence.
Qed.

Lemma flip_ringed v : ringed_at m v → ringed_at m' v.
Proof.
  destruct flip_ne as (?&?&?&?&?). destruct flip_new as [G1 G2]. intros Hr.
  assert (∀ x y, link m' v x y → rtsc (link m' v) x y) as Hone.
  { intros x y Hl. by apply rtsc_lr. }
  apply (ringed_transfer m m' v (λ x, if decide (v = a ∧ x = b) then c else if decide (v = b ∧ x = a) then d else x)); [done| |].
  - intros x. rewrite flip_side. intros [(Hs&N1&N2)|[E|E]].
    + exists x. split; [done|]. rewrite !decide_False by (intros [-> ->]; done). apply rtc_refl.
    + injection E as -> ->. exists a. split; [by apply (F_sides m a b c)|].
      rewrite !decide_False by (intros [? ?]; congruence). symmetry. apply Hone. unfold link. by apply F_rot, F_rot.
    + injection E as -> ->. exists b. split; [by apply (F_sides m b a d)|].
      rewrite !decide_False by (intros [? ?]; congruence). symmetry. apply Hone. unfold link. by apply F_rot, F_rot.
  - intros x y Hl. destruct (flip_at _ _ _ Hl) as [Hl'|[R|R]].
    + assert ((v, x) ≠ (a, b) ∧ (v, x) ≠ (b, a)) as [N1 N2].
      { apply F_sides in Hl' as (Hl'&_&_). apply flip_side in Hl' as [(_&?&?)|[E|E]]; [done|split; congruence|split; congruence]. }
      assert ((v, y) ≠ (a, b) ∧ (v, y) ≠ (b, a)) as [N3 N4].
      { apply F_sides in Hl' as (_&_&Hl'). apply flip_side in Hl' as [(_&?&?)|[E|E]]; split; congruence. }
      rewrite (decide_False (P := v = a ∧ x = b)) by (intros [-> ->]; done).
      rewrite (decide_False (P := v = b ∧ x = a)) by (intros [-> ->]; done).
      rewrite (decide_False (P := v = a ∧ y = b)) by (intros [-> ->]; done).
      rewrite (decide_False (P := v = b ∧ y = a)) by (intros [-> ->]; done). by apply Hone.
    + destruct R as [(->&->&->)|[(->&->&->)|(->&->&->)]].
      * rewrite (decide_True (P := a = a ∧ b = b)) by done. rewrite !decide_False by (intros [? ?]; congruence). apply rtc_refl.
      * rewrite (decide_True (P := b = b ∧ a = a)) by done. rewrite !decide_False by (intros [? ?]; congruence). by apply Hone.
      * rewrite !decide_False by (intros [? ?]; congruence). trans d; apply Hone; unfold link; by repeat (done || apply F_rot).
    + destruct R as [(->&->&->)|[(->&->&->)|(->&->&->)]].
      * rewrite (decide_True (P := b = b ∧ a = a)) by done. rewrite !decide_False by (intros [? ?]; congruence). apply rtc_refl.
      * rewrite (decide_True (P := a = a ∧ b = b)) by done. rewrite !decide_False by (intros [? ?]; congruence). by apply Hone.
      * rewrite !decide_False by (intros [? ?]; congruence). trans c; apply Hone; unfold link; by repeat (done || apply F_rot).
Qed.
End flip.

Section split.
Context m m' (HW : WF m) (HW' : WF m') (a b c d w : N).
Context (F1 : F m c a b) (F2 : F m a c d) (Dbd : b ≠ d) (Hfresh : ∀ x y z, F m x y z → x ≠ w).
Context (HF : ∀ x y z, F m' x y z ↔
  (F m x y z ∧ ¬ rot3 x y z c a b ∧ ¬ rot3 x y z a c d) ∨
  rot3 x y z w b c ∨ rot3 x y z w a b ∨ rot3 x y z w c d ∨ rot3 x y z w d a).

Lemma split_ne : (a ≠ b ∧ b ≠ c ∧ c ≠ a ∧ a ≠ d ∧ d ≠ c) ∧ a ≠ w ∧ b ≠ w ∧ c ≠ w ∧ d ≠ w.
Proof.
  destruct (F_ne m _ _ _ HW F1) as (?&?&?). destruct (F_ne m _ _ _ HW F2) as (?&?&?).
  split; [split_and!; congruence|].
  pose proof (Hfresh _ _ _ F1). pose proof (Hfresh _ _ _ F2).
  pose proof (Hfresh _ _ _ (F_rot _ _ _ _ (F_rot _ _ _ _ F1))). pose proof (Hfresh _ _ _ (F_rot _ _ _ _ (F_rot _ _ _ _ F2))). done.
Qed.

Lemma split_new : F m' w b c ∧ F m' w a b ∧ F m' w c d ∧ F m' w d a.
Proof. split_and!; apply HF; unfold rot3; tauto. Qed.

Lemma split_at x y z : F m x y z → F m' x y z ∨ rot3 x y z c a b ∨ rot3 x y z a c d.
Proof.
  intros H. destruct (decide (rot3 x y z c a b)); [by auto|]. destruct (decide (rot3 x y z a c d)); [by auto|].
  left. apply HF. tauto.
Qed.

Lemma split_side x y : side_used m' x y ↔
  (side_used m x y ∧ (x, y) ≠ (a, c) ∧ (x, y) ≠ (c, a)) ∨
  (x = w ∧ (y = a ∨ y = b ∨ y = c ∨ y = d)) ∨ (y = w ∧ (x = a ∨ x = b ∨ x = c ∨ x = d)).
Proof.
  destruct split_ne as ((?&?&?&?&?)&?&?&?&?). destruct split_new as (G1&G2&G3&G4).
  destruct (F_sides m _ _ _ F1) as (S1&S2&S3). destruct (F_sides m _ _ _ F2) as (S4&S5&S6).
  destruct (F_sides m' _ _ _ G1) as (A1&A2&A3). destruct (F_sides m' _ _ _ G2) as (B1&B2&B3).
  destruct (F_sides m' _ _ _ G3) as (C1&C2&C3). destruct (F_sides m' _ _ _ G4) as (D1&D2&D3). split.
  - intros (z&Hz)%F_side. apply HF in Hz as [(Hz&N1&N2)|R].
    + left. split; [apply F_side; eauto|]. split; intros E; injection E as -> ->.
      * apply N2. rewrite (F_fun m _ _ _ _ HW Hz F2). unfold rot3. tauto.
      * apply N1. rewrite (F_fun m _ _ _ _ HW Hz F1). unfold rot3. tauto.
    + destruct R as [R|[R|[R|R]]]; destruct R as [(->&->&->)|[(->&->&->)|(->&->&->)]]; try tauto;
        left; (split; [done|]); split; congruence.
  - intros [((z&Hz)%F_side&N1&N2)|[(->&E)|(->&E)]].
    + destruct (split_at _ _ _ Hz) as [Hz'|[R|R]].
      * apply F_side. eauto.
      * destruct R as [(->&->&->)|[(->&->&->)|(->&->&->)]]; done.
      * destruct R as [(->&->&->)|[(->&->&->)|(->&->&->)]]; done.
    + destruct E as [->|[->|[->| ->]]]; done.
    + destruct E as [->|[->|[->| ->]]]; done.
Qed.

Lemma split_closed : closed m → closed m'.
Proof.
  intros HC x y. rewrite !split_side. intros [(H&N1&N2)|[E|E]]; [|tauto|tauto].
  left. split; [by apply HC|]. split; congruence.
Qed.

Lemma split_ringed v : ringed_at m v → ringed_at m' v.
Proof.
  destruct split_ne as ((?&?&?&?&?)&?&?&?&?). destruct split_new as (G1&G2&G3&G4). intros Hr.
  assert (∀ x y, link m' v x y → rtsc (link m' v) x y) as Hone.
  { intros x y Hl. by apply rtsc_lr. }
  assert (∀ x, ¬ side_used m w x) as Hw.
  { intros x (z&Hz)%F_side. by apply Hfresh in Hz. }
  assert (∀ x, ¬ side_used m x w) as Hw'.
  { intros x (z&Hz)%F_side. apply F_rot in Hz. by apply Hfresh in Hz. }
  destruct (decide (v = w)) as [->|Nvw].
  - assert (∀ x, side_used m' w x → rtsc (link m' w) x b) as K.
    { intros x. rewrite split_side. intros [(Hs&_)|[(_&E)|(_&E)]]; [by apply Hw in Hs| |].
      - assert (rtsc (link m' w) a b) as Eab by (by apply Hone).
        assert (rtsc (link m' w) d a) as Eda by (by apply Hone).
        assert (rtsc (link m' w) b c) as Ebc by (by apply Hone).
        destruct E as [->|[->|[->| ->]]]; [done|apply rtc_refl|by symmetry|by trans a].
      - destruct E as [E|[E|[E|E]]]; congruence. }
    intros x y Hx%K Hy%K. trans b; [done|by symmetry].
  - apply (ringed_transfer m m' v (λ x, if decide (v = a ∧ x = c) then w else if decide (v = c ∧ x = a) then w else x)); [done| |].
    + intros x. rewrite split_side. intros [(Hs&N1&N2)|[(E&_)|(->&E)]]; [|done|].
      * exists x. split; [done|]. rewrite !decide_False by (intros [-> ->]; done). apply rtc_refl.
      * destruct E as [->|[->|[->| ->]]].
        -- exists c. split; [by apply (F_sides m a c d)|]. rewrite decide_True by done. apply rtc_refl.
        -- exists c. split; [by apply (F_sides m c a b)|].
           rewrite !decide_False by (intros [? ?]; congruence). symmetry. apply Hone. unfold link. by apply F_rot.
        -- exists a. split; [by apply (F_sides m c a b)|]. rewrite decide_False by (intros [? ?]; congruence).
           rewrite decide_True by done. apply rtc_refl.
        -- exists a. split; [by apply (F_sides m a c d)|].
           rewrite !decide_False by (intros [? ?]; congruence). symmetry. apply Hone. unfold link. by apply F_rot.
    + intros x y Hl. destruct (split_at _ _ _ Hl) as [Hl'|[R|R]].
      * pose proof (F_sides _ _ _ _ Hl) as (Q1&Q2&Q3).
        assert ((v, x) ≠ (a, c) ∧ (v, x) ≠ (c, a)) as [N1 N2].
        { apply F_sides in Hl' as (Hl'&_&_). apply split_side in Hl' as [(_&?&?)|[(E&_)|(E&_)]]; [done|done|].
          subst x. by apply Hw' in Q1. }
        assert ((v, y) ≠ (a, c) ∧ (v, y) ≠ (c, a)) as [N3 N4].
        { apply F_sides in Hl' as (_&_&Hl'). apply split_side in Hl' as [(_&?&?)|[(E&_)|(E&_)]]; [split; congruence| |done].
          subst y. by apply Hw in Q3. }
        rewrite (decide_False (P := v = a ∧ x = c)) by (intros [-> ->]; done).
        rewrite (decide_False (P := v = c ∧ x = a)) by (intros [-> ->]; done).
        rewrite (decide_False (P := v = a ∧ y = c)) by (intros [-> ->]; done).
        rewrite (decide_False (P := v = c ∧ y = a)) by (intros [-> ->]; done). by apply Hone.
      * destruct R as [(->&->&->)|[(->&->&->)|(->&->&->)]].
        -- rewrite (decide_True (P := c = c ∧ a = a)) by done. rewrite !decide_False by (intros [? ?]; congruence).
           apply Hone. unfold link. by repeat (done || apply F_rot).
        -- rewrite (decide_True (P := a = a ∧ c = c)) by done. rewrite !decide_False by (intros [? ?]; congruence).
           apply Hone. unfold link. by repeat (done || apply F_rot).
        -- rewrite !decide_False by (intros [? ?]; congruence). trans w; apply Hone; unfold link; by repeat (done || apply F_rot).
      * destruct R as [(->&->&->)|[(->&->&->)|(->&->&->)]].
        -- rewrite (decide_True (P := a = a ∧ c = c)) by done. rewrite !decide_False by (intros [? ?]; congruence).
           apply Hone. unfold link. by repeat (done || apply F_rot).
        -- rewrite (decide_True (P := c = c ∧ a = a)) by done. rewrite !decide_False by (intros [? ?]; congruence).
           apply Hone. unfold link. by repeat (done || apply F_rot).
        -- rewrite !decide_False by (intros [? ?]; congruence). trans w; apply Hone; unfold link; by repeat (done || apply F_rot).
Qed.
End split.

(** ** Collapsing an edge *)
Lemma closed_face m h : WF m → closed m → L m h → ∃ f, fc m h = Some f.
Proof.
  intros HW HC HL. pose proof (wf_si _ HW) as HS. destruct (fc m h) as [f|] eqn:Ef; [by eauto|]. exfalso.
  destruct (border_tw_In m HS h HL Ef) as [HLt Ht]. destruct (fc m (tw m h)) as [f|] eqn:Ef'; [|done].
  pose proof (cycle_face_side m f (tw m h) HW HLt Ef') as Hc.
  destruct (si_tw _ _ HS h HL) as (_&Ett&_). unfold tl in Hc. rewrite Ett in Hc. fold (tl m h) in Hc.
  destruct (HC (hd m h) (tl m h)) as (g&z&Hg); [by exists f, (hd m (nx m (tw m h)))|].
  apply cycle_face_inv in Hg as (k&HLk&Fk&Et&Eh&_); [|done].
  assert (k = h) as -> by (apply (em_inj m None); congruence). congruence.
Qed.

Lemma link_cycle m v x y : WF m → closed m → link m v x y → rtc (link m v) y x.
Proof.
  intros HW HC [f Hf]. pose proof (wf_si _ HW) as HS.
  apply cycle_face_inv in Hf as (h&HL&Fh&Et&Ex&Ey); [|done].
  destruct (face3 m HS h f HL Fh) as (L1&L2&_&_&_&_&_&_&T1&T2&T3&_).
  destruct (ccwn_L m HW h HL) as (HLk&Etk&_).
  assert (hd m (ccwn m h) = y) as Eyk by (unfold ccwn; fold (tl m (pv m h)); congruence).
  destruct (orbit_ok (λ k, Some (ccwn m k)) (ccwn m) (λ k, L m k ∧ tl m k = v) (nhes m) (ccwn m h))
    as (l&_&_&HF&_&Hp&Hr).
  - intros k [HLk' Ek]. destruct (ccwn_L m HW k HLk') as (?&?&_). split; [done|]. split; [done|congruence].
  - intros k [HLk' _]. by apply L_lt.
  - intros k k' [HL1 _] [HL2 _] E.
    destruct (ccwn_L m HW k HL1) as (_&_&E1). destruct (ccwn_L m HW k' HL2) as (_&_&E2). congruence.
  - split; [done|congruence].
  - rewrite Forall_forall in HF. destruct (Hp (ccwn m h)) as (h'&Hh'&E); [left|].
    assert (h' = h) as ->.
    { destruct (HF h' Hh') as [HLh' _].
      destruct (ccwn_L m HW h' HLh') as (_&_&E1). destruct (ccwn_L m HW h HL) as (_&_&E2). congruence. }
    specialize (Hr h Hh'). rewrite <- Eyk, <- Ex.
    assert (tl m (ccwn m h) = v) as Etk' by congruence. revert HLk Etk' Hr. clear -HW HC HS.
    generalize (ccwn m h) at 1 2 3 4 as k. intros k HLk Etk Hr.
    remember h as z eqn:Ez in Hr. rewrite <- Ez. clear Ez h.
    induction Hr as [k|k k' z -> Hr IH]; [apply rtc_refl|].
    destruct (ccwn_L m HW k HLk) as (HL1&Et1&_). eapply rtc_l; [|apply IH; [done|congruence]].
    destruct (closed_face m k HW HC HLk) as [f Hf].
    destruct (face3 m HS k f HLk Hf) as (_&_&_&_&_&_&_&_&_&T2&_).
    exists f. unfold ccwn. fold (tl m (pv m k)). rewrite T2, <- Etk. by apply cycle_face_side.
Qed.

Section collapse.
Context m m' (HW : WF m) (HW' : WF m') (HC : closed m) (u v a b : N).
Context (F1 : F m u v a) (F2 : F m v u b) (Dab : a ≠ b).
Definition tri_has (w x y z : N) : Prop := w = x ∨ w = y ∨ w = z.
Definition into (w : N) : N := if w =? v then u else w.
Context (HF : ∀ x y z, F m' x y z ↔ ∃ x0 y0 z0, F m x0 y0 z0 ∧
  ¬ (tri_has u x0 y0 z0 ∧ tri_has v x0 y0 z0) ∧ x = into x0 ∧ y = into y0 ∧ z = into z0).

Lemma into_v : into v = u.
Proof. unfold into. by rewrite N.eqb_refl. Qed.
Lemma into_ne w : w ≠ v → into w = w.
Proof. intros H. unfold into. by rewrite (proj2 (N.eqb_neq _ _) H). Qed.

Lemma col_ne : u ≠ v ∧ v ≠ a ∧ a ≠ u ∧ u ≠ b ∧ b ≠ v.
Proof.
  destruct (F_ne m _ _ _ HW F1) as (?&?&?). destruct (F_ne m _ _ _ HW F2) as (?&?&?). split_and!; congruence.
Qed.

Lemma col_both x y z : F m x y z → tri_has u x y z → tri_has v x y z → rot3 x y z u v a ∨ rot3 x y z v u b.
Proof.
  destruct col_ne as (?&?&?&?&?).
  assert (∀ z, F m u v z → z = a) as Ka by (intros z0 Hz0; exact (F_fun m _ _ _ _ HW Hz0 F1)).
  assert (∀ z, F m v u z → z = b) as Kb by (intros z0 Hz0; exact (F_fun m _ _ _ _ HW Hz0 F2)).
  intros Hf. pose proof (F_rot _ _ _ _ Hf) as Hf1. pose proof (F_rot _ _ _ _ Hf1) as Hf2.
  intros [<-|[<-|<-]] [<-|[<-|<-]]; try done.
  - rewrite (Ka _ Hf). left. by left.
  - rewrite (Kb _ Hf2). right. right. left. done.
  - rewrite (Kb _ Hf). right. by left.
  - rewrite (Ka _ Hf1). left. right. by right.
  - rewrite (Ka _ Hf2). left. right. left. done.
  - rewrite (Kb _ Hf1). right. right. by right.
Qed.

Lemma col_keep x y z : F m x y z → ¬ (tri_has u x y z ∧ tri_has v x y z) → F m' (into x) (into y) (into z).
Proof. intros H N. apply HF. eauto 10. Qed.

Lemma col_side_keep x y z : F m x y z → ¬ (tri_has u x y z ∧ tri_has v x y z) → side_used m' (into x) (into y).
Proof. intros H N. apply F_side. exists (into z). by apply col_keep. Qed.

Lemma tri_has_dec w x y z : tri_has w x y z ∨ ¬ tri_has w x y z.
Proof. unfold tri_has. destruct (decide (w = x)), (decide (w = y)), (decide (w = z)); tauto. Qed.

(** the four faces beyond the two that go *)
Lemma col_outer x y : (x, y) = (u, a) ∨ (x, y) = (a, v) ∨ (x, y) = (v, b) ∨ (x, y) = (b, u) →
  side_used m' (into x) (into y).
Proof.
  destruct col_ne as (?&?&?&?&?). intros E.
  assert (side_used m x y) as (z&Hz)%F_side.
  { destruct (F_sides _ _ _ _ F1) as (?&?&?). destruct (F_sides _ _ _ _ F2) as (?&?&?).
    destruct E as [E|[E|[E|E]]]; injection E as -> ->; by apply HC. }
  apply (col_side_keep x y z); [done|]. intros [Hu Hv].
  destruct (col_both _ _ _ Hz Hu Hv) as [R|R];
    destruct R as [(?&?&?)|[(?&?&?)|(?&?&?)]]; destruct E as [E|[E|[E|E]]]; congruence.
Qed.

Lemma col_closed : closed m'.
Proof.
  destruct col_ne as (?&?&?&?&?).
  intros x y (z&Hz)%F_side. apply HF in Hz as (x0&y0&z0&Hz&Hn&->&->&->).
  assert (side_used m y0 x0) as (z1&Hz1)%F_side by (apply HC, F_side; eauto).
  destruct (tri_has_dec u y0 x0 z1) as [Hu|Hu]; [|by apply (col_side_keep y0 x0 z1); [|intros [? _]]].
  destruct (tri_has_dec v y0 x0 z1) as [Hv|Hv]; [|by apply (col_side_keep y0 x0 z1); [|intros [_ ?]]].
  destruct (col_both _ _ _ Hz1 Hu Hv) as [R|R]; destruct R as [(->&->&->)|[(->&->&->)|(->&->&->)]].
  - exfalso. apply Hn. unfold tri_has. tauto.
  - pose proof (col_outer u a ltac:(tauto)) as K. rewrite (into_ne u) in K by done. by rewrite into_v.
  - pose proof (col_outer a v ltac:(tauto)) as K. rewrite into_v in K. by rewrite (into_ne u).
  - exfalso. apply Hn. unfold tri_has. tauto.
  - pose proof (col_outer v b ltac:(tauto)) as K. rewrite into_v in K. by rewrite (into_ne u).
  - pose proof (col_outer b u ltac:(tauto)) as K. rewrite (into_ne u) in K by done. by rewrite into_v.
Qed.

Lemma col_link w x y : link m w x y → w ≠ v → x ≠ v → y ≠ v → link m' w x y.
Proof.
  intros H N1 N2 N3. rewrite <- (into_ne w), <- (into_ne x), <- (into_ne y) by done. apply col_keep; [done|].
  intros [_ [?|[?|?]]]; congruence.
Qed.
Lemma col_link_v x y : link m v x y → x ≠ u → y ≠ u → link m' u x y.
Proof.
  intros H N1 N2. destruct (F_ne m _ _ _ HW H) as (?&?&?).
  rewrite <- into_v at 1. rewrite <- (into_ne x), <- (into_ne y) by done. apply col_keep; [done|].
  destruct col_ne as (?&_). intros [[?|[?|?]] _]; congruence.
Qed.

Lemma col_ab : rtc (link m' u) a b.
Proof.
  destruct col_ne as (?&?&?&?&?).
  assert (rtc (link m u) a v) as Hr by (apply link_cycle; done).
  assert (a ≠ v) as Nav by done. revert Nav Hr. generalize a at 1 2 3 as x. intros x Nx Hr.
  remember v as z eqn:Ez in Hr. revert Ez Nx.
  induction Hr as [x|x x1 z Hs Hr IH]; intros -> Nx; [done|].
  destruct (decide (x1 = v)) as [->|N1].
  - assert (x = b) as ->; [|apply rtc_refl]. apply (F_fun m v u); [done| |done]. by apply F_rot, F_rot.
  - eapply rtc_l; [by apply col_link|]. by apply IH.
Qed.

Lemma col_near_u x : rtsc (link m u) x a → x ≠ v → rtsc (link m' u) x a ∨ rtsc (link m' u) x b.
Proof.
  destruct col_ne as (?&?&?&?&?). intros Hr.
  remember a as z eqn:Ez in Hr. revert Ez. unfold rtsc in Hr.
  induction Hr as [x|x x1 z Hs Hr IH]; intros -> Nx; [left; apply rtc_refl|].
  destruct (decide (x1 = v)) as [->|N1].
  - destruct Hs as [Hs|Hs].
    + assert (x = b) as ->; [|right; apply rtc_refl]. apply (F_fun m v u); [done| |done]. by apply F_rot, F_rot.
    + assert (x = a) as ->; [|left; apply rtc_refl]. by apply (F_fun m u v).
  - assert (sc (link m' u) x x1) as Hs'.
    { destruct Hs as [Hs|Hs]; [left|right]; by apply col_link. }
    destruct (IH eq_refl N1) as [IH'|IH']; [left|right]; by eapply rtc_l.
Qed.
Lemma col_near_v x : rtsc (link m v) x a → x ≠ u → rtsc (link m' u) x a ∨ rtsc (link m' u) x b.
Proof.
  destruct col_ne as (?&?&?&?&?). intros Hr.
  remember a as z eqn:Ez in Hr. revert Ez. unfold rtsc in Hr.
  induction Hr as [x|x x1 z Hs Hr IH]; intros -> Nx; [left; apply rtc_refl|].
  destruct (decide (x1 = u)) as [->|N1].
  - destruct Hs as [Hs|Hs].
    + assert (x = a) as ->; [|left; apply rtc_refl]. apply (F_fun m u v); [done| |done]. by apply F_rot, F_rot.
    + assert (x = b) as ->; [|right; apply rtc_refl]. by apply (F_fun m v u).
  - assert (sc (link m' u) x x1) as Hs'.
    { destruct Hs as [Hs|Hs]; [left|right]; by apply col_link_v. }
    destruct (IH eq_refl N1) as [IH'|IH']; [left|right]; by eapply rtc_l.
Qed.

Lemma col_side w x : side_used m' w x → ∃ w0 x0, side_used m w0 x0 ∧ w = into w0 ∧ x = into x0 ∧
  ¬ ((w0 = u ∨ x0 = u) ∧ (w0 = v ∨ x0 = v)).
Proof.
  intros (z&Hz)%F_side. apply HF in Hz as (x0&y0&z0&Hz&Hn&->&->&->). exists x0, y0.
  split; [apply F_side; eauto|]. split; [done|]. split; [done|].
  intros [H1 H2]. apply Hn. unfold tri_has. intuition congruence.
Qed.

Lemma col_ringed : ringed m → ringed m'.
Proof.
  intros Hring. destruct col_ne as (?&?&?&?&?). intros w. fold (ringed_at m' w).
  destruct (decide (w = u)) as [->|Nu].
  - destruct (F_sides _ _ _ _ F1) as (S1&S2&S3). destruct (F_sides _ _ _ _ F2) as (S4&S5&S6).
    assert (∀ x, side_used m' u x → rtsc (link m' u) x a) as K.
    { intros x (w0&x0&Hs&E1&->&Hn)%col_side.
      assert (rtsc (link m' u) (into x0) a ∨ rtsc (link m' u) (into x0) b) as [K|K].
      - unfold into in E1. destruct (N.eqb_spec w0 v) as [->|N1].
        + pose proof Hs as (z&Hz)%F_side. destruct (F_ne m _ _ _ HW Hz) as (?&_).
          rewrite into_ne by done. apply col_near_v; [|intros ->; tauto]. apply Hring; done.
        + subst w0. rewrite into_ne by (intros ->; tauto). apply col_near_u; [|intros ->; tauto].
          apply Hring; [done|]. by apply HC.
      - done.
      - trans b; [done|]. apply rtc_rtsc_lr, col_ab. }
    intros x y Hx%K Hy%K. trans a; [done|by symmetry].
  - destruct (decide (w = v)) as [->|Nv].
    { intros x y (w0&x0&_&E&_)%col_side _. unfold into in E. destruct (N.eqb_spec w0 v); congruence. }
    apply (ringed_transfer m m' w into); [exact (Hring w)| |].
    + intros x (w0&x0&Hs&E1&->&Hn)%col_side. exists x0. split; [|apply rtc_refl].
      unfold into in E1. destruct (N.eqb_spec w0 v); congruence.
    + intros x y Hl. destruct (tri_has_dec u w x y) as [Hu|Hu].
      2: { apply rtsc_lr. unfold link. rewrite <- (into_ne w) at 1 by done. apply col_keep; [done|]. by intros [? _]. }
      destruct (tri_has_dec v w x y) as [Hv|Hv].
      2: { apply rtsc_lr. unfold link. rewrite <- (into_ne w) at 1 by done. apply col_keep; [done|]. by intros [_ ?]. }
      destruct (col_both _ _ _ Hl Hu Hv) as [R|R]; destruct R as [(->&->&->)|[(->&->&->)|(->&->&->)]]; try done.
      * rewrite into_v, into_ne by done. apply rtc_refl.
      * rewrite into_v, into_ne by done. apply rtc_refl.
Qed.
End collapse.
End faces.
