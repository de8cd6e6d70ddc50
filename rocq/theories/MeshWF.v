(** The proof invariant [WF] is the same as the specification [WellFormed]. *)
From Verif Require Export MeshSpec MeshRemove2.
Local Open Scope N_scope.

Section wf.
Context {P : Type}.
Implicit Types (m : mesh P) (h k b c f g u v e t : N).

Lemma live_he_L m h x : live_he m h x ↔ L m h ∧ he m h = x.
Proof.
  unfold live_he. rewrite L_spec. unfold he. split.
  - intros [E Hr]. rewrite E. simpl. split; [by eauto|done].
  - intros [(y & E & Hr) Hx]. rewrite E in *. simpl in Hx. by subst.
Qed.

Lemma L_live m h : L m h → live_he m h (he m h).
Proof. intros. by apply live_he_L. Qed.

Lemma runs_L m h u v : runs m h u v ↔ L m h ∧ L m (tw m h) ∧ tl m h = u ∧ hd m h = v.
Proof.
  unfold runs. setoid_rewrite live_he_L. unfold tl, hd, tw. split.
  - intros (x & y & [HL <-] & [HL' <-] & <- & <-). done.
  - intros (?&?&<-&<-). eauto 10.
Qed.

Lemma runs_WF m h u v : SI m None → runs m h u v ↔ L m h ∧ tl m h = u ∧ hd m h = v.
Proof.
  intros HS. rewrite runs_L. split; [intros (?&?&?&?); done|intros (?&?&?)].
  split; [done|]. split; [|done]. by apply (si_tw _ _ HS).
Qed.

Lemma oriented_face_L m f a b c : SI m None → oriented_face m f a b c ↔
  ∃ e0, faces m !! f = Some (mkFC e0 false) ∧ L m e0 ∧ fc m e0 = Some f ∧
    tl m e0 = a ∧ hd m e0 = b ∧ hd m (nx m e0) = c.
Proof.
  intros HS. split.
  - intros (e0&e1&e2&x0&x1&x2&Hf&H0&H1&H2&F0&F1&F2&N0&N1&N2&P0&P1&P2&R0&R1&R2).
    exists e0. apply live_he_L in H0 as [H0 <-]. rewrite runs_WF in R0, R1 by done.
    fold (fc m e0) (nx m e0) in *. rewrite N0. naive_solver.
  - intros (e0&Hf&HL&Hfc&<-&<-&<-).
    destruct (face3 m HS _ _ HL Hfc) as (L1&L2&F1&F2&N1&N2&N3&N4&T1&T2&T3&_).
    exists e0, (nx m e0), (pv m e0), (he m e0), (he m (nx m e0)), (he m (pv m e0)).
    split; [done|]. do 3 (split; [by apply L_live|]).
    do 3 (split; [done|]). split; [done|]. split; [done|]. split; [done|].
    split; [done|]. split; [done|]. split; [done|].
    rewrite !runs_WF by done. rewrite T1, T2, T3. done.
Qed.

Lemma follow_iter m n h : (∀ i, (i < n)%nat → L m (Nat.iter i (nx m) h)) →
  follow m n h = Some (Nat.iter n (nx m) h).
Proof.
  revert h. induction n as [|n IH]; intros h Hi; [done|].
  cbn [follow]. pose proof (Hi 0%nat ltac:(lia)) as HL. cbn in HL.
  pose proof (L_getH _ _ HL) as E. unfold getH in E. rewrite E. cbn [mbind option_bind].
  fold (nx m h). rewrite IH.
  - by rewrite <- Nat.iter_succ_r.
  - intros i Hlt. rewrite <- Nat.iter_succ_r. apply Hi. lia.
Qed.

Lemma sweep_spokes m k c : SI m None → In m k → sweep m k c ↔ ∃ n, spokes m n k c.
Proof.
  intros HS HI. split.
  - induction 1 as [k x y Hx Hy Hf|k x y f c Hx Hy Hf Hs IH].
    + apply live_he_L in Hx as [HL <-]. apply live_he_L in Hy as [HL' <-].
      exists 0%nat. by apply sp_stop.
    + apply live_he_L in Hx as [HL <-]. apply live_he_L in Hy as [HL' <-].
      fold (tw m k) in *. fold (fc m (tw m k)) in Hf. fold (pv m (tw m k)) in *.
      assert (fc m (tw m k) ≠ None) as Hf' by congruence.
      destruct IH as [n Hn]; [by apply (rot_In m HS)|].
      exists (S n). by apply sp_step.
  - intros [n Hn]. induction Hn as [k Hk|n k c Hk Hs IH].
    + destruct HI as [HL _]. apply (sweep_stop m k (he m k) (he m (tw m k))); [by apply L_live| |done].
      by apply L_live, (si_tw _ _ HS).
    + destruct (fc m (tw m k)) as [f|] eqn:E; [|done]. pose proof HI as [HL _].
      apply (sweep_step m k (he m k) (he m (tw m k)) f); [by apply L_live| |done|].
      { by apply L_live, (si_tw _ _ HS). }
      apply IH. apply (rot_In m HS); [done|congruence].
Qed.

Lemma nx_pv_tail m h : WF m → L m h →
  L m (nx m h) ∧ pv m (nx m h) = h ∧ fc m (nx m h) = fc m h ∧ tl m (nx m h) = hd m h ∧
  L m (pv m h) ∧ nx m (pv m h) = h ∧ fc m (pv m h) = fc m h ∧ hd m (pv m h) = tl m h.
Proof.
  intros HW HL. pose proof (wf_si _ HW) as HS. destruct (fc m h) as [f|] eqn:Hf.
  - destruct (face3 m HS _ _ HL Hf) as (L1&L2&F1&F2&N1&N2&N3&N4&T1&T2&T3&_).
    split_and!; try done.
  - destruct (BI_ring m HS (wf_bi _ HW) h HL Hf) as (?&?&?&?&?&?).
    destruct (pv_tail m HS (wf_bi _ HW) h HL) as [_ ?].
    destruct (wf_bi _ HW h HL Hf) as (Hfan&_).
    destruct (fan_end m HS _ _ HL Hf Hfan) as (_&_&?). split_and!; done.
Qed.

Lemma border_loop m b : WF m → L m b → fc m b = None →
  ∃ n, (0 < n)%nat ∧ Nat.iter n (nx m) b = b.
Proof.
  intros HW HL Hf. pose proof (wf_si _ HW) as HS.
  destruct (period_exists m HS b HL Hf) as (p & Hp & Hpp & _).
  exists p. split; [lia|]. rewrite <- Hpp at 2. clear Hpp Hp.
  induction p as [|p IH]; [done|]. cbn [Nat.iter nat_rect].
  change (nat_rect (λ _ : nat, N) b (λ _ : nat, nx m) p) with (Nat.iter p (nx m) b). rewrite IH.
  destruct (beta_ok m HS b HL Hf p) as [H1 H2].
  destruct (wf_bi _ HW _ H1 H2) as (Hfan&_).
  apply (fan_fun m _ _ _ Hfan (beta_S m HS b HL Hf p)).
Qed.

Lemma WF_WellFormed m : WF m → WellFormed m.
Proof.
  intros HW. pose proof (wf_si _ HW) as HS. split.
  - apply HS. - apply HS. - apply HS.
  - split; [apply HS|]. split; apply HS.
  - intros h x Hx. apply live_he_L in Hx as [HL <-]. destruct (si_tw _ _ HS h HL) as (HLt&Ett&Hne).
    exists (he m (tw m h)). split; [by apply L_live|]. split; [done|]. split; [done|].
    apply (si_out _ _ HS h HL).
  - intros h x Hx. apply live_he_L in Hx as [HL <-]. by apply (si_hd _ _ HS).
  - intros h x u v Hx Hr. apply live_he_L in Hx as [HL <-]. apply runs_WF in Hr as (_&<-&<-); [|done].
    destruct (nx_pv_tail m h HW HL) as (A1&A2&A3&A4&A5&A6&A7&A8).
    exists (he m (nx m h)), (hd m (nx m h)). rewrite runs_WF by done.
    split; [by apply L_live|]. done.
  - intros h x u v Hx Hr. apply live_he_L in Hx as [HL <-]. apply runs_WF in Hr as (_&<-&<-); [|done].
    destruct (nx_pv_tail m h HW HL) as (A1&A2&A3&A4&A5&A6&A7&A8).
    exists (he m (pv m h)), (tl m (pv m h)). rewrite runs_WF by done.
    split; [by apply L_live|]. done.
  - intros h x Hx. apply live_he_L in Hx as [HL <-].
    assert (∃ n, (0 < n)%nat ∧ Nat.iter n (nx m) h = h) as (n & Hn & E).
    { destruct (fc m h) as [f|] eqn:Hf; [|by apply border_loop].
      destruct (face3 m HS _ _ HL Hf) as (L1&L2&F1&F2&N1&N2&N3&N4&_).
      exists 3%nat. split; [lia|]. simpl. congruence. }
    exists n. split; [done|]. rewrite follow_iter; [by rewrite E|].
    intros i _. clear n Hn E. induction i as [|i IH]; [done|]. simpl. by apply nx_pv_tail.
  - intros f (x & Hx & Hr). destruct (wf_fh _ HW f x Hx Hr ltac:(done)) as (HL&Hf&_).
    exists (tl m (fhe x)), (hd m (fhe x)), (hd m (nx m (fhe x))).
    apply oriented_face_L; [done|]. exists (fhe x). destruct x as [e r]. simpl in *. by subst.
  - intros h x f Hx Hf. apply live_he_L in Hx as [HL <-]. fold (fc m h) in Hf.
    destruct (si_in _ _ HS h f HL Hf ltac:(done)) as (_&_&_&_&_&_&_&_&x&Hx&Hr).
    destruct (wf_fh _ HW f x Hx Hr ltac:(done)) as (HL0&_&Hcyc).
    exists (fhe x), (he m (fhe x)). split; [by destruct x as [e r]; simpl in *; subst|].
    split; [by apply L_live|]. by apply Hcyc.
  - intros b x y Hx Hf Hy. apply live_he_L in Hx as [HL <-]. apply live_he_L in Hy as [_ <-].
    fold (tw m b) (nx m b). fold (pv m (tw m b)). apply sweep_spokes; [done| |].
    + by apply (spokes_start m HS).
    + by apply (wf_bi _ HW).
  - intros u v h. rewrite runs_WF by done. rewrite (si_em _ _ HS). fold (tl m h). naive_solver.
  - intros v x Hx. pose proof (wf_vi _ HW v x Hx) as Hv. destruct (vhe x) as [h|].
    + exists (hd m h). rewrite runs_WF by done. naive_solver.
    + intros h w. rewrite runs_WF by done. intros (?&?&?). by apply (Hv h).
Qed.

Lemma WellFormed_WF m : WellFormed m → WF m.
Proof.
  intros [S1 S2 S3 (S4&S5&S6) S8 S9 S10 S11 S12 S13 S14 S15 S16 S17].
  assert (∀ h, L m h → L m (tw m h) ∧ tw m (tw m h) = h ∧ hd m (tw m h) ≠ hd m h ∧
    (fc m h = None → fc m (tw m h) ≠ None)) as Htw.
  { intros h HL. destruct (S8 h _ (L_live _ _ HL)) as (y & Hy & ? & ? & ?).
    apply live_he_L in Hy as [? <-]. done. }
  assert (∀ h u v, runs m h u v ↔ L m h ∧ tl m h = u ∧ hd m h = v) as Hruns.
  { intros h u v. rewrite runs_L. split; [intros (?&?&?&?); done|intros (?&?&?)].
    split; [done|]. split; [|done]. by apply Htw. }
  assert (∀ h, L m h → L m (nx m h) ∧ pv m (nx m h) = h ∧ fc m (nx m h) = fc m h ∧ tl m (nx m h) = hd m h) as Hnx.
  { intros h HL. destruct (S10 h _ (tl m h) (hd m h) (L_live _ _ HL)) as (y & w & Hy & ? & ? & Hr).
    { by apply Hruns. } apply live_he_L in Hy as [? <-]. apply Hruns in Hr as (_&?&?). done. }
  assert (∀ h, L m h → L m (pv m h) ∧ nx m (pv m h) = h ∧ fc m (pv m h) = fc m h) as Hpv.
  { intros h HL. destruct (S11 h _ (tl m h) (hd m h) (L_live _ _ HL)) as (y & w & Hy & ? & ? & Hr).
    { by apply Hruns. } apply live_he_L in Hy as [? <-]. done. }
  assert (∀ h f, L m h → fc m h = Some f → ∃ e0, faces m !! f = Some (mkFC e0 false) ∧ L m e0 ∧
    (h = e0 ∨ h = nx m e0 ∨ h = pv m e0)) as Hside.
  { intros h f HL Hf. destruct (S14 h _ f (L_live _ _ HL) Hf) as (e0 & x0 & Hx & H0 & Hc).
    apply live_he_L in H0 as [? <-]. eauto. }
  assert (∀ f x, faces m !! f = Some x → frem x = false → L m (fhe x) ∧ fc m (fhe x) = Some f ∧
    nx m (nx m (fhe x)) = pv m (fhe x) ∧ nx m (pv m (fhe x)) = fhe x ∧
    pv m (pv m (fhe x)) = nx m (fhe x) ∧ pv m (nx m (fhe x)) = fhe x) as Hface.
  { intros f x Hx Hr. destruct (S13 f) as (a&b&c&e0&e1&e2&x0&x1&x2&Hf&H0&H1&H2&F0&F1&F2&N0&N1&N2&P0&P1&P2&_).
    { by exists x. }
    assert (x = mkFC e0 false) as -> by congruence. simpl.
    apply live_he_L in H0 as [H0 <-]. apply live_he_L in H1 as [H1 <-]. apply live_he_L in H2 as [H2 <-].
    fold (nx m e0) (nx m e1) (nx m e2) (pv m e0) (pv m e1) (pv m e2) in *.
    rewrite P0, N0, P1, P2, N1, N2. done. }
  assert (SI m None) as HS.
  { split; try done.
    - intros h HL. by destruct (Htw h HL) as (?&?&?&?).
    - intros u v h. rewrite S16, Hruns. fold (tl m h). naive_solver.
    - intros h f HL Hf _.
      destruct (Hnx h HL) as (A1&A2&A3&A4). destruct (Hpv h HL) as (B1&B2&B3).
      destruct (Hside h f HL Hf) as (e0 & Hx & _ & Hc).
      destruct (Hface f _ Hx eq_refl) as (C1&C2&C3&C4&C5&C6). simpl in *.
      split; [done|]. split; [congruence|]. split; [done|]. split; [done|]. split; [congruence|].
      split; [done|]. split; [|split; [exact A4|by eauto]].
      destruct Hc as [->|[->| ->]]; congruence.
    - intros b HL Hf. by apply (Htw b HL).
    - intros h HL. by apply (S9 h (he m h)), L_live. }
  assert (∀ b, L m b → fc m b = None → fan m b (nx m b)) as Hfan.
  { intros b HL Hf. destruct (Htw b HL) as (HLt&_&_&_).
    pose proof (S15 b _ _ (L_live _ _ HL) Hf (L_live _ _ HLt)) as Hsw.
    apply sweep_spokes in Hsw; [done|done|]. by apply (spokes_start m HS). }
  split; [done| | |].
  - intros f x Hx Hr _. destruct (Hface f x Hx Hr) as (C1&C2&_).
    split; [done|]. split; [done|]. intros h HL Hf. destruct (Hside h f HL Hf) as (e0 & Hx' & _ & Hc).
    assert (x = mkFC e0 false) as -> by congruence. done.
  - intros b HL Hf. destruct (Hpv b HL) as (B1&B2&B3). rewrite Hf in B3.
    split; [by apply Hfan|]. split; [|done]. rewrite <- B2 at 2. by apply Hfan.
  - intros v x Hx. pose proof (S17 v x Hx) as Hv. destruct (vhe x) as [h|].
    + destruct Hv as [w Hr]. apply Hruns in Hr as (?&?&?). done.
    + intros h HL Ht. apply (Hv h (hd m h)). by apply Hruns.
Qed.

Theorem WF_iff m : WF m ↔ WellFormed m.
Proof. split; [apply WF_WellFormed|apply WellFormed_WF]. Qed.
End wf.
