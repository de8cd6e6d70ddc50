(** Edge collapse, part 2: from the pointwise description of the result to its
    well-formedness. *)
From Verif Require Export MeshCollapse.
From Verif Require Import MeshBase.
Local Open Scope N_scope.

Section collapse.
Context {P : Type}.
Implicit Types (m : mesh P) (h k f w x y : N).

Lemma spokes_inv m n k c : spokes m n k c →
  (fc m (tw m k) = None ∧ c = tw m k) ∨
  (fc m (tw m k) ≠ None ∧ ∃ n', n = S n' ∧ spokes m n' (pv m (tw m k)) c).
Proof. intros H. destruct H as [k Hk|n k c Hk H]; [by left|right]. eauto. Qed.

(** the result, half-edge by half-edge *)
Record CP m (u v e t va au ub bv av ua bu vb fl fr : N) m' : Prop := {
  cp_hes : ∀ h, is_Some (hes m' !! h) ↔ is_Some (hes m !! h);
  cp_nhes : nhes m' = nhes m;
  cp_nfaces : nfaces m' = nfaces m;
  cp_nverts : nverts m' = nverts m;
  cp_verts : ∀ w, is_Some (verts m' !! w) ↔ is_Some (verts m !! w);
  cp_L : ∀ h, L m' h ↔ L m h ∧ ¬ gone e t va au ub bv h;
  cp_hd : ∀ h, L m' h → hd m' h = rho u v (hd m h);
  cp_nx : ∀ h, L m' h → nx m' h = nx m h;
  cp_pv : ∀ h, L m' h → pv m' h = pv m h;
  cp_fc : ∀ h, L m' h → fc m' h = fc m h;
  cp_tw : ∀ h, L m' h → tw m' h = sg m av ua bu vb h;
  cp_faces : ∀ f, f ≠ fl → f ≠ fr → faces m' !! f = faces m !! f;
  cp_fl : ∃ z, faces m' !! fl = Some z ∧ frem z = true;
  cp_fr : ∃ z, faces m' !! fr = Some z ∧ frem z = true;
  cp_em : ∀ x y h, emap m' !! (x, y) = Some h ↔ L m' h ∧ hd m' h = y ∧ hd m' (sg m av ua bu vb h) = x;
  cp_vi : ∀ w z, verts m' !! w = Some z →
    match vhe z with
    | Some h => L m' h ∧ rho u v (tl m h) = w
    | None => ∀ h, L m' h → rho u v (tl m h) ≠ w
    end
}.

Section quad.
Context m (HW : WF m) (u v e t va au ub bv av ua bu vb a b fl fr : N).
Context (Q : quad m u v e t va au ub bv av ua bu vb a b fl fr).
Let HS : SI m None := wf_si _ HW.
Local Notation gone := (gone e t va au ub bv).
Local Notation outer := (outer av ua bu vb).
Local Notation sg := (sg m av ua bu vb).
Local Notation rho := (rho u v).
Local Notation hop := (hop m e t va au ub bv av ua bu vb).
Local Notation turn := (turn m).

Ltac qd := pose proof Q as [? ? ? ? ? ? ? ?]; destruct_and!.

Lemma chain_u : inn m u → rtc hop (turn au) bu.
Proof.
  intros Hi. pose proof (chain_v m HW _ _ _ _ _ _ _ _ _ _ _ _ _ _ _ _ (quad_sym _ _ _ _ _ _ _ _ _ _ _ _ _ _ _ _ _ Q) Hi) as H.
  revert H. clear. generalize (turn au) as x. intros x. generalize bu at 2 4 as y. intros y.
  induction 1 as [|x y z H]; [apply rtc_refl|]. eapply rtc_l; [|done].
  destruct H as (H1&H2&H3&H4&H5). split; [done|]. unfold MeshCollapse.gone, MeshCollapse.outer in *.
  split; [tauto|]. split; [tauto|]. done.
Qed.

Context m' (C : CP m u v e t va au ub bv av ua bu vb fl fr m').
Context (Hinn : inn m u ∨ inn m v).

Lemma L'_sg h : L m' h → L m' (sg h) ∧ sg (sg h) = h ∧ hd m' (sg h) = rho (tl m h).
Proof.
  intros HL. pose proof (proj1 (cp_L _ _ _ _ _ _ _ _ _ _ _ _ _ _ _ _ C h) HL) as [HL0 Hg].
  destruct (sg_L m HW _ _ _ _ _ _ _ _ _ _ _ _ _ _ _ _ Q h HL0 Hg) as (A1&A2&A3).
  assert (L m' (sg h)) as HL' by (by apply (cp_L _ _ _ _ _ _ _ _ _ _ _ _ _ _ _ _ C)).
  split; [done|]. split; [done|]. rewrite (cp_hd _ _ _ _ _ _ _ _ _ _ _ _ _ _ _ _ C _ HL').
  by apply (sg_tail m _ _ _ _ _ _ _ _ _ _ _ _ _ _ _ _ Q).
Qed.

Lemma L'_nx h : L m' h → L m' (nx m h) ∧ L m' (pv m h).
Proof.
  intros HL. pose proof (proj1 (cp_L _ _ _ _ _ _ _ _ _ _ _ _ _ _ _ _ C h) HL) as [HL0 Hg].
  destruct (nx_pv_tail m h HW HL0) as (L1&_&_&_&L2&_).
  split; apply (cp_L _ _ _ _ _ _ _ _ _ _ _ _ _ _ _ _ C); (split; [done|]); intros X; apply Hg.
  - by apply (nx_gone m HW _ _ _ _ _ _ _ _ _ _ _ _ _ _ _ _ Q).
  - by apply (pv_gone m HW _ _ _ _ _ _ _ _ _ _ _ _ _ _ _ _ Q).
Qed.

(** rotation in the result *)
Lemma step' k n c : L m' k → fc m (sg k) ≠ None → spokes m' n (pv m (sg k)) c → spokes m' (S n) k c.
Proof.
  intros HL Hf Hs. destruct (L'_sg k HL) as (A1&_&_). constructor.
  - rewrite (cp_tw _ _ _ _ _ _ _ _ _ _ _ _ _ _ _ _ C k HL), (cp_fc _ _ _ _ _ _ _ _ _ _ _ _ _ _ _ _ C _ A1). done.
  - rewrite (cp_tw _ _ _ _ _ _ _ _ _ _ _ _ _ _ _ _ C k HL), (cp_pv _ _ _ _ _ _ _ _ _ _ _ _ _ _ _ _ C _ A1). done.
Qed.
Lemma stop' k : L m' k → fc m (sg k) = None → spokes m' 0 k (sg k).
Proof.
  intros HL Hf. destruct (L'_sg k HL) as (A1&_&_).
  rewrite <- (cp_tw _ _ _ _ _ _ _ _ _ _ _ _ _ _ _ _ C k HL). constructor.
  rewrite (cp_tw _ _ _ _ _ _ _ _ _ _ _ _ _ _ _ _ C k HL), (cp_fc _ _ _ _ _ _ _ _ _ _ _ _ _ _ _ _ C _ A1). done.
Qed.

Lemma step2 k k' n c : sg k = k' → L m' k → fc m k' ≠ None → spokes m' n (pv m k') c → spokes m' (S n) k c.
Proof. intros <-. apply step'. Qed.
Lemma stop2 k k' : sg k = k' → L m' k → fc m k' = None → spokes m' 0 k k'.
Proof. intros <-. apply stop'. Qed.

Lemma hops x y c : rtc hop x y → (∃ n, spokes m' n y c) → ∃ n, spokes m' n x c.
Proof.
  induction 1 as [|x y z H Hr IH]; [done|]. intros Hs. destruct (IH Hs) as [n Hn].
  destruct H as (HL&Hg&Ho&Hf&->). exists (S n).
  assert (sg x = tw m x) as E by (by apply sg_other).
  apply step'; [by apply (cp_L _ _ _ _ _ _ _ _ _ _ _ _ _ _ _ _ C)|by rewrite E|]. by rewrite E.
Qed.

Lemma outer_L h : outer h → L m' h.
Proof.
  intros Ho. apply (cp_L _ _ _ _ _ _ _ _ _ _ _ _ _ _ _ _ C).
  split; [|by apply (outer_not_gone m _ _ _ _ _ _ _ _ _ _ _ _ _ _ _ _ Q)].
  unfold MeshCollapse.outer in Ho. qd. destruct Ho as [->|[->|[->| ->]]]; done.
Qed.

Lemma spokes_keep n : ∀ k c, spokes m n k c → L m' k → ∃ n', spokes m' n' k c.
Proof.
  induction (lt_wf n) as [n _ IH]. intros k c Hs HL'.
  pose proof (proj1 (cp_L _ _ _ _ _ _ _ _ _ _ _ _ _ _ _ _ C k) HL') as [HL Hg].
  assert (sg ua = av ∧ sg av = ua ∧ sg bu = vb ∧ sg vb = bu) as (Sua&Sav&Sbu&Svb).
  { split; [apply sg_ua|]. split; [by apply (sg_av m _ _ _ _ _ _ _ _ _ _ _ _ _ _ _ _ Q)|].
    split; [by apply (sg_bu m _ _ _ _ _ _ _ _ _ _ _ _ _ _ _ _ Q)|by apply (sg_vb m _ _ _ _ _ _ _ _ _ _ _ _ _ _ _ _ Q)]. }
  assert (L m' ua ∧ L m' av ∧ L m' bu ∧ L m' vb) as (Lua&Lav&Lbu&Lvb).
  { split_and!; apply outer_L; unfold MeshCollapse.outer; auto. }
  assert (tw m va = av ∧ tw m av = va ∧ tw m au = ua ∧ tw m ua = au ∧ tw m ub = bu ∧ tw m bu = ub ∧ tw m bv = vb ∧ tw m vb = bv ∧ tw m e = t ∧ tw m t = e) as (W1&W2&W3&W4&W5&W6&W7&W8&W9&W10) by (qd; done).
  assert (pv m e = au ∧ pv m va = e ∧ pv m au = va ∧ pv m t = bv ∧ pv m ub = t ∧ pv m bv = ub) as (P1&P2&P3&P4&P5&P6) by (qd; done).
  assert (fc m e ≠ None ∧ fc m t ≠ None ∧ fc m va ≠ None ∧ fc m au ≠ None ∧ fc m ub ≠ None ∧ fc m bv ≠ None) as (F1&F2&F3&F4&F5&F6) by (qd; split_and!; congruence).
  assert (hd m av = v ∧ hd m bu = u ∧ tl m ua = u ∧ tl m vb = v ∧ L m av ∧ L m bu ∧ L m ua ∧ L m vb) as (E1&E2&E3&E4&L1&L2&L3&L4) by (qd; done).
  destruct (outer_dec av ua bu vb k) as [Ho|Ho].
  2: { pose proof (sg_other m _ _ _ _ k Ho) as E.
    destruct (spokes_inv m n k c Hs) as [[Hf ->]|(Hf&n'&->&Hs')].
    - exists 0%nat. by apply (stop2 _ _ E).
    - destruct (IH n' ltac:(lia) _ _ Hs') as [n1 H1].
      + rewrite <- E. by apply L'_nx, L'_sg.
      + exists (S n1). by apply (step2 _ _ _ _ E). }
  destruct Ho as [->|[->|[->| ->]]].
  - (* ua: au and va are skipped *)
    apply spokes_inv in Hs as [[Hf _]|(_&n1&->&Hs)]; [congruence|].
    rewrite W4, P3 in Hs. apply spokes_inv in Hs as [[Hf ->]|(Hf&n2&->&Hs)].
    + exists 0%nat. rewrite W1 in Hf |- *. by apply (stop2 _ _ Sua).
    + rewrite W1 in Hf, Hs. destruct (IH n2 ltac:(lia) _ _ Hs) as [n3 H3]; [by apply L'_nx|].
      exists (S n3). by apply (step2 _ _ _ _ Sua).
  - (* av: the vertex v is on the border, so u is inner *)
    apply spokes_inv in Hs as [[Hf _]|(_&n1&->&Hs)]; [congruence|].
    rewrite W2, P2 in Hs. apply spokes_inv in Hs as [[Hf _]|(_&n2&->&Hs)]; [congruence|].
    rewrite W9, P4 in Hs.
    assert (L m c ∧ fc m c = None ∧ tl m c = v) as (HLc&Hfc&Htc).
    { destruct (spokes_end m HS _ _ _ Hs) as (?&?&E); [by split; [qd|]|].
      split; [done|]. split; [done|]. rewrite E. by qd. }
    assert (inn m u) as Hu by (destruct Hinn as [|Hv]; [done|by apply Hv in Htc]).
    assert (∃ n', spokes m' n' bu c) as Hbu.
    { apply spokes_inv in Hs as [[Hf ->]|(Hf&n3&->&Hs)].
      - exists 0%nat. rewrite W7 in Hf |- *. by apply (stop2 _ _ Sbu).
      - rewrite W7 in Hf, Hs. destruct (IH n3 ltac:(lia) _ _ Hs) as [n4 H4]; [by apply L'_nx|].
        exists (S n4). by apply (step2 _ _ _ _ Sbu). }
    destruct (hops _ _ c (chain_u Hu) Hbu) as [n5 H5]. exists (S n5).
    apply step'; [done| |]; rewrite Sav.
    + by apply Hu.
    + unfold MeshCollapse.turn in H5. by rewrite W3 in H5.
  - (* bu: the vertex u is on the border, so v is inner *)
    apply spokes_inv in Hs as [[Hf _]|(_&n1&->&Hs)]; [congruence|].
    rewrite W6, P5 in Hs. apply spokes_inv in Hs as [[Hf _]|(_&n2&->&Hs)]; [congruence|].
    rewrite W10, P1 in Hs.
    assert (L m c ∧ fc m c = None ∧ tl m c = u) as (HLc&Hfc&Htc).
    { destruct (spokes_end m HS _ _ _ Hs) as (?&?&E); [by split; [qd|]|].
      split; [done|]. split; [done|]. rewrite E. by qd. }
    assert (inn m v) as Hv by (destruct Hinn as [Hu|]; [by apply Hu in Htc|done]).
    assert (∃ n', spokes m' n' av c) as Hav.
    { apply spokes_inv in Hs as [[Hf ->]|(Hf&n3&->&Hs)].
      - exists 0%nat. rewrite W3 in Hf |- *. by apply (stop2 _ _ Sav).
      - rewrite W3 in Hf, Hs. destruct (IH n3 ltac:(lia) _ _ Hs) as [n4 H4]; [by apply L'_nx|].
        exists (S n4). by apply (step2 _ _ _ _ Sav). }
    pose proof (chain_v m HW _ _ _ _ _ _ _ _ _ _ _ _ _ _ _ _ Q Hv) as Hch.
    destruct (hops _ _ c Hch Hav) as [n5 H5]. exists (S n5).
    apply step'; [done| |]; rewrite Sbu.
    + by apply Hv.
    + unfold MeshCollapse.turn in H5. by rewrite W7 in H5.
  - (* vb: bv and ub are skipped *)
    apply spokes_inv in Hs as [[Hf _]|(_&n1&->&Hs)]; [congruence|].
    rewrite W8, P6 in Hs. apply spokes_inv in Hs as [[Hf ->]|(Hf&n2&->&Hs)].
    + exists 0%nat. rewrite W5 in Hf |- *. by apply (stop2 _ _ Svb).
    + rewrite W5 in Hf, Hs. destruct (IH n2 ltac:(lia) _ _ Hs) as [n3 H3]; [by apply L'_nx|].
      exists (S n3). by apply (step2 _ _ _ _ Svb).
Qed.

Let CL := cp_L _ _ _ _ _ _ _ _ _ _ _ _ _ _ _ _ C.
Let Chd := cp_hd _ _ _ _ _ _ _ _ _ _ _ _ _ _ _ _ C.
Let Cnx := cp_nx _ _ _ _ _ _ _ _ _ _ _ _ _ _ _ _ C.
Let Cpv := cp_pv _ _ _ _ _ _ _ _ _ _ _ _ _ _ _ _ C.
Let Cfc := cp_fc _ _ _ _ _ _ _ _ _ _ _ _ _ _ _ _ C.
Let Ctw := cp_tw _ _ _ _ _ _ _ _ _ _ _ _ _ _ _ _ C.

(** the fans at the borders *)
Lemma fan_keep k : L m' k → fc m k = None → fan m' k (nx m k).
Proof.
  intros HL' Hf. pose proof (proj1 (CL k) HL') as [HL Hg]. destruct (wf_bi _ HW k HL Hf) as ([n Hs]&_).
  destruct (L'_sg k HL') as (HLs&_&_).
  unfold fan. rewrite (Ctw k HL'), (Cpv _ HLs).
  assert (sg ua = av ∧ sg av = ua ∧ sg bu = vb ∧ sg vb = bu) as (Sua&Sav&Sbu&Svb).
  { split; [apply sg_ua|]. split; [by apply (sg_av m _ _ _ _ _ _ _ _ _ _ _ _ _ _ _ _ Q)|].
    split; [by apply (sg_bu m _ _ _ _ _ _ _ _ _ _ _ _ _ _ _ _ Q)|by apply (sg_vb m _ _ _ _ _ _ _ _ _ _ _ _ _ _ _ _ Q)]. }
  assert (L m' ua ∧ L m' av ∧ L m' bu ∧ L m' vb) as (Lua&Lav&Lbu&Lvb).
  { split_and!; apply outer_L; unfold MeshCollapse.outer; auto. }
  assert (tw m va = av ∧ tw m av = va ∧ tw m au = ua ∧ tw m ua = au ∧ tw m ub = bu ∧ tw m bu = ub ∧ tw m bv = vb ∧ tw m vb = bv ∧ tw m e = t ∧ tw m t = e) as (W1&W2&W3&W4&W5&W6&W7&W8&W9&W10) by (qd; done).
  assert (pv m e = au ∧ pv m va = e ∧ pv m au = va ∧ pv m t = bv ∧ pv m ub = t ∧ pv m bv = ub) as (P1&P2&P3&P4&P5&P6) by (qd; done).
  assert (fc m e ≠ None ∧ fc m t ≠ None ∧ fc m va ≠ None ∧ fc m au ≠ None ∧ fc m ub ≠ None ∧ fc m bv ≠ None) as (F1&F2&F3&F4&F5&F6) by (qd; split_and!; congruence).
  assert (hd m av = v ∧ hd m bu = u ∧ tl m ua = u ∧ tl m vb = v ∧ L m av ∧ L m bu ∧ L m ua ∧ L m vb) as (E1&E2&E3&E4&L1&L2&L3&L4) by (qd; done).
  destruct (outer_dec av ua bu vb k) as [Ho|Ho].
  2: { pose proof (sg_other m _ _ _ _ k Ho) as E. rewrite <- E in Hs.
    apply (spokes_keep n _ _ Hs). by apply L'_nx. }
  destruct Ho as [->|[->|[->| ->]]].
  - assert (inn m v) as Hv by (destruct Hinn as [Hu|]; [by apply Hu in Hf|done]).
    rewrite W4, P3 in Hs. rewrite Sua.
    apply spokes_inv in Hs as [[Hf' _]|(Hf'&n1&->&Hs)]; rewrite W1 in Hf'.
    { by destruct (inn_in m HW v av Hv L1 E1). }
    rewrite W1 in Hs. apply (spokes_keep n1 _ _ Hs). by apply L'_nx.
  - assert (inn m u) as Hu.
    { destruct Hinn as [|Hv]; [done|]. by destruct (inn_in m HW v av Hv L1 E1). }
    rewrite Sav. rewrite W2, P2 in Hs.
    apply spokes_inv in Hs as [[Hf' _]|(_&n1&->&Hs)]; [congruence|].
    rewrite W9, P4 in Hs. rewrite <- W3. apply (hops (turn au) bu); [by apply chain_u|].
    apply spokes_inv in Hs as [[Hf' ->]|(Hf'&n3&->&Hs)].
    + exists 0%nat. rewrite W7 in Hf' |- *. by apply (stop2 _ _ Sbu).
    + rewrite W7 in Hf', Hs. destruct (spokes_keep n3 _ _ Hs) as [n4 H4]; [by apply L'_nx|].
      exists (S n4). by apply (step2 _ _ _ _ Sbu).
  - assert (inn m v) as Hv.
    { destruct Hinn as [Hu|]; [|done]. by destruct (inn_in m HW u bu Hu L2 E2). }
    rewrite Sbu. rewrite W6, P5 in Hs.
    apply spokes_inv in Hs as [[Hf' _]|(_&n1&->&Hs)]; [congruence|].
    rewrite W10, P1 in Hs. rewrite <- W7. apply (hops (turn bv) av).
    { by apply (chain_v m HW _ _ _ _ _ _ _ _ _ _ _ _ _ _ _ _ Q). }
    apply spokes_inv in Hs as [[Hf' ->]|(Hf'&n3&->&Hs)].
    + exists 0%nat. rewrite W3 in Hf' |- *. by apply (stop2 _ _ Sav).
    + rewrite W3 in Hf', Hs. destruct (spokes_keep n3 _ _ Hs) as [n4 H4]; [by apply L'_nx|].
      exists (S n4). by apply (step2 _ _ _ _ Sav).
  - assert (inn m u) as Hu by (destruct Hinn as [|Hv]; [done|by apply Hv in Hf]).
    rewrite W8, P6 in Hs. rewrite Svb.
    apply spokes_inv in Hs as [[Hf' _]|(Hf'&n1&->&Hs)]; rewrite W5 in Hf'.
    { by destruct (inn_in m HW u bu Hu L2 E2). }
    rewrite W5 in Hs. apply (spokes_keep n1 _ _ Hs). by apply L'_nx.
Qed.

Lemma live_face_ne f (x : FC) : faces m' !! f = Some x → frem x = false → f ≠ fl ∧ f ≠ fr.
Proof.
  intros Hx Hr. destruct (cp_fl _ _ _ _ _ _ _ _ _ _ _ _ _ _ _ _ C) as (z&Hz&Rz).
  destruct (cp_fr _ _ _ _ _ _ _ _ _ _ _ _ _ _ _ _ C) as (z'&Hz'&Rz').
  split; intros ->; congruence.
Qed.

Lemma keep_face h f : L m h → fc m h = Some f → f ≠ fl → f ≠ fr → L m' h.
Proof.
  intros HL Hf H1 H2. apply CL. split; [done|]. intros Hg.
  apply (gone_face m HW _ _ _ _ _ _ _ _ _ _ _ _ _ _ _ _ Q h f HL Hf) in Hg as [|]; done.
Qed.

Lemma CP_WF : WF m'.
Proof.
  assert (SI m' None) as HS'.
  { split.
    - intros h. rewrite (cp_hes _ _ _ _ _ _ _ _ _ _ _ _ _ _ _ _ C), (cp_nhes _ _ _ _ _ _ _ _ _ _ _ _ _ _ _ _ C). apply HS.
    - rewrite (cp_nhes _ _ _ _ _ _ _ _ _ _ _ _ _ _ _ _ C). apply HS.
    - intros f. rewrite (cp_nfaces _ _ _ _ _ _ _ _ _ _ _ _ _ _ _ _ C), <- (si_fb _ _ HS).
      destruct (cp_fl _ _ _ _ _ _ _ _ _ _ _ _ _ _ _ _ C) as (z&Hz&_).
      destruct (cp_fr _ _ _ _ _ _ _ _ _ _ _ _ _ _ _ _ C) as (z'&Hz'&_).
      assert (L m e ∧ fc m e = Some fl ∧ L m t ∧ fc m t = Some fr) as (A1&A2&A3&A4) by (by qd).
      destruct (si_in _ _ HS e fl A1 A2 ltac:(done)) as (_&_&_&_&_&_&_&_&y&Hy&_).
      destruct (si_in _ _ HS t fr A3 A4 ltac:(done)) as (_&_&_&_&_&_&_&_&y'&Hy'&_).
      destruct (decide (f = fl)) as [->|H1]; [rewrite Hz, Hy; split; eauto|].
      destruct (decide (f = fr)) as [->|H2]; [rewrite Hz', Hy'; split; eauto|].
      by rewrite (cp_faces _ _ _ _ _ _ _ _ _ _ _ _ _ _ _ _ C f).
    - rewrite (cp_nfaces _ _ _ _ _ _ _ _ _ _ _ _ _ _ _ _ C). apply HS.
    - intros w. rewrite (cp_verts _ _ _ _ _ _ _ _ _ _ _ _ _ _ _ _ C), (cp_nverts _ _ _ _ _ _ _ _ _ _ _ _ _ _ _ _ C). apply HS.
    - rewrite (cp_nverts _ _ _ _ _ _ _ _ _ _ _ _ _ _ _ _ C). apply HS.
    - intros h HL'. pose proof (proj1 (CL h) HL') as [HL Hg]. destruct (L'_sg h HL') as (A1&A2&A3).
      rewrite (Ctw h HL'), (Ctw _ A1). split; [done|]. split; [done|]. rewrite A3, (Chd h HL').
      intros E. apply Hg. by apply (edge_gone m HW _ _ _ _ _ _ _ _ _ _ _ _ _ _ _ _ Q).
    - intros x y h. rewrite (cp_em _ _ _ _ _ _ _ _ _ _ _ _ _ _ _ _ C). split; intros (HL'&?&?).
      + by rewrite (Ctw h HL').
      + by rewrite <- (Ctw h HL').
    - intros h f HL' Hf _. pose proof (proj1 (CL h) HL') as [HL Hg]. rewrite (Cfc h HL') in Hf.
      destruct (si_in _ _ HS h f HL Hf ltac:(done)) as (B1&B2&B3&B4&B5&B6&B7&B8&z&Hz&Rz).
      destruct (L'_nx h HL') as (N1&N2). rewrite (Cnx h HL'), (Cpv h HL').
      rewrite (Cfc _ N1), (Cpv _ N1), (Cfc _ N2), (Cnx _ N2), (Cnx _ N1), (Ctw _ N1).
      destruct (L'_sg _ N1) as (_&_&->). rewrite (Chd h HL').
      split_and!; try done.
      + unfold tl. by rewrite B8.
      + exists z. split; [|done]. rewrite (cp_faces _ _ _ _ _ _ _ _ _ _ _ _ _ _ _ _ C f); [done| |];
          intros ->; apply Hg; apply (gone_face m HW _ _ _ _ _ _ _ _ _ _ _ _ _ _ _ _ Q _ _ HL Hf); auto.
    - intros k HL' Hf. pose proof (proj1 (CL k) HL') as [HL Hg]. destruct (L'_sg k HL') as (A1&_&_).
      rewrite (Ctw k HL'), (Cfc _ A1). rewrite (Cfc k HL') in Hf.
      assert (hd m av = v ∧ hd m bu = u ∧ tl m ua = u ∧ tl m vb = v ∧ L m av ∧ L m bu ∧ L m ua ∧ L m vb) as (E1&E2&E3&E4&L1&L2&L3&L4) by (qd; done).
      destruct (outer_dec av ua bu vb k) as [Ho|Ho].
      2: { rewrite (sg_other m _ _ _ _ k Ho). by apply (si_out _ _ HS). }
      destruct Ho as [->|[->|[->| ->]]].
      + rewrite sg_ua. destruct Hinn as [Hu|Hv]; [by apply Hu in Hf|]. by apply (inn_in m HW v av Hv).
      + rewrite (sg_av m _ _ _ _ _ _ _ _ _ _ _ _ _ _ _ _ Q).
        destruct Hinn as [Hu|Hv]; [by apply Hu|]. by destruct (inn_in m HW v av Hv L1 E1).
      + rewrite (sg_bu m _ _ _ _ _ _ _ _ _ _ _ _ _ _ _ _ Q).
        destruct Hinn as [Hu|Hv]; [|by apply Hv]. by destruct (inn_in m HW u bu Hu L2 E2).
      + rewrite (sg_vb m _ _ _ _ _ _ _ _ _ _ _ _ _ _ _ _ Q).
        destruct Hinn as [Hu|Hv]; [by apply (inn_in m HW u bu Hu)|by apply Hv in Hf].
    - intros h HL'. pose proof (proj1 (CL h) HL') as [HL Hg].
      rewrite (Chd h HL'), (cp_nverts _ _ _ _ _ _ _ _ _ _ _ _ _ _ _ _ C). unfold MeshCollapse.rho.
      destruct (hd m h =? v); [|by apply (si_hd _ _ HS)].
      assert (L m t ∧ hd m t = u) as [Ht E] by (by qd). rewrite <- E. by apply (si_hd _ _ HS). }
  assert (BI m') as HB'.
  { intros k HL' Hf'. pose proof (proj1 (CL k) HL') as [HL Hg]. pose proof Hf' as Hf. rewrite (Cfc k HL') in Hf.
    destruct (nx_pv_tail m k HW HL) as (A1&A2&A3&_&A5&A6&A7&_).
    destruct (L'_nx k HL') as (N1&N2). rewrite (Cnx k HL'), (Cpv k HL').
    split; [by apply fan_keep|]. split; [|split; [done|by rewrite (Cfc _ N2), A7]].
    rewrite <- A6 at 2. apply fan_keep; [done|]. by rewrite A7. }
  split; [done| |done|].
  - intros f x Hx Hr _. destruct (live_face_ne f x Hx Hr) as [H1 H2].
    rewrite (cp_faces _ _ _ _ _ _ _ _ _ _ _ _ _ _ _ _ C f H1 H2) in Hx.
    destruct (wf_fh _ HW f x Hx Hr ltac:(done)) as (A1&A2&A3).
    pose proof (keep_face _ _ A1 A2 H1 H2) as HL'. rewrite (Cfc _ HL'). split; [done|]. split; [done|].
    intros h Hh Hfh. rewrite (Cfc h Hh) in Hfh. rewrite (Cnx _ HL'), (Cpv _ HL').
    apply A3; [by apply CL|done].
  - intros w z Hz. pose proof (cp_vi _ _ _ _ _ _ _ _ _ _ _ _ _ _ _ _ C w z Hz) as H. destruct (vhe z) as [h|].
    + destruct H as [HL' <-]. split; [done|]. unfold tl at 1. rewrite (Ctw h HL'). by apply L'_sg.
    + intros h HL'. unfold tl. rewrite (Ctw h HL'). destruct (L'_sg h HL') as (_&_&->). by apply H.
Qed.

(** the faces of the result *)
Lemma CP_faces f x y z : oriented_face m' f x y z ↔
  ∃ x0 y0 z0, oriented_face m f x0 y0 z0 ∧
    ¬ ((u = x0 ∨ u = y0 ∨ u = z0) ∧ (v = x0 ∨ v = y0 ∨ v = z0)) ∧
    x = rho x0 ∧ y = rho y0 ∧ z = rho z0.
Proof.
  pose proof CP_WF as HW'. pose proof (wf_si _ HW') as HS'.
  assert (∀ h, L m' h → tl m' h = rho (tl m h)) as Htl.
  { intros h HL'. unfold tl at 1. rewrite (Ctw h HL'). by apply L'_sg. }
  assert (∀ k, L m k → tl m k = u → hd m k = v → k = e) as Ue.
  { intros k Hk H1 H2. assert (L m e ∧ tl m e = u ∧ hd m e = v) as (?&?&?) by (by qd).
    apply (em_inj m None); congruence. }
  assert (∀ k, L m k → tl m k = v → hd m k = u → k = t) as Ut.
  { intros k Hk H1 H2. assert (L m t ∧ tl m t = v ∧ hd m t = u) as (?&?&?) by (by qd).
    apply (em_inj m None); congruence. }
  rewrite oriented_face_L by done. split.
  - intros (k&Hk&HL'&Hf&<-&<-&<-). destruct (live_face_ne f _ Hk eq_refl) as [H1 H2].
    rewrite (cp_faces _ _ _ _ _ _ _ _ _ _ _ _ _ _ _ _ C f H1 H2) in Hk.
    pose proof (proj1 (CL k) HL') as [HL Hg]. rewrite (Cfc k HL') in Hf.
    destruct (L'_nx k HL') as (N1&_).
    exists (tl m k), (hd m k), (hd m (nx m k)). split; [apply oriented_face_L; eauto 10|].
    rewrite (Htl k HL'), (Chd k HL'), (Cnx k HL'), (Chd _ N1). split; [|done].
    destruct (face3 m HS k f HL Hf) as (L1&L2&F1&F2&_&_&_&_&T1&T2&T3&_).
    pose proof (hd_tl_ne m HS k HL). pose proof (hd_tl_ne m HS _ L1). pose proof (hd_tl_ne m HS _ L2).
    assert (∀ g, gone g → fc m g = Some f → False) as Hno.
    { intros g Hgg Hfg. assert (L m g) as HLg by (by apply (gone_L m _ _ _ _ _ _ _ _ _ _ _ _ _ _ _ _ Q)).
      apply (gone_face m HW _ _ _ _ _ _ _ _ _ _ _ _ _ _ _ _ Q g f HLg Hfg) in Hgg as [|]; done. }
    assert (gone e ∧ gone t) as [Ge Gt] by (unfold MeshCollapse.gone; auto).
    assert (∀ g, L m g → fc m g = Some f → ¬ (tl m g = u ∧ hd m g = v) ∧ ¬ (tl m g = v ∧ hd m g = u)) as Hside.
    { intros g HLg Hfg. split; intros [X Y].
      - apply (Hno e Ge). by rewrite <- (Ue g).
      - apply (Hno t Gt). by rewrite <- (Ut g). }
    pose proof (Hside k HL Hf) as [S1 S2]. pose proof (Hside _ L1 F1) as [S3 S4].
    pose proof (Hside _ L2 F2) as [S5 S6]. rewrite T1 in S3, S4. rewrite T2, <- T3 in S5, S6.
    assert (u ≠ v) as Huv by (by qd). intros [Hu Hv].
    clear -S1 S2 S3 S4 S5 S6 Huv Hu Hv.
    destruct Hu as [Hu|[Hu|Hu]], Hv as [Hv|[Hv|Hv]];
      first [congruence|by apply S1|by apply S2|by apply S3|by apply S4|by apply S5|by apply S6].
  - intros (x0&y0&z0&Ho&Hno&->&->&->). apply oriented_face_L in Ho as (k&Hk&HL&Hf&<-&<-&<-); [|done].
    destruct (face3 m HS k f HL Hf) as (L1&L2&F1&F2&N1&N2&N3&N4&T1&T2&T3&_).
    assert (f ≠ fl ∧ f ≠ fr) as [H1 H2].
    { assert (fc m e = Some fl ∧ fc m t = Some fr ∧ L m e ∧ L m t ∧ tl m e = u ∧ hd m e = v ∧ tl m t = v ∧ hd m t = u) as (A1&A2&A3&A4&A5&A6&A7&A8) by (by qd).
      destruct (wf_fh _ HW f _ Hk eq_refl ltac:(done)) as (_&_&Hcyc). cbn in Hcyc.
      split; intros ->; apply Hno.
      - destruct (Hcyc e A3 A1) as [->|[->| ->]]; clear -A5 A6 T1 T2 T3; split;
          first [left; congruence|right; left; congruence|right; right; congruence].
      - destruct (Hcyc t A4 A2) as [->|[->| ->]]; clear -A7 A8 T1 T2 T3; split;
          first [left; congruence|right; left; congruence|right; right; congruence]. }
    pose proof (keep_face k f HL Hf H1 H2) as HL'. destruct (L'_nx k HL') as (M1&_).
    exists k. rewrite (cp_faces _ _ _ _ _ _ _ _ _ _ _ _ _ _ _ _ C f H1 H2).
    rewrite (Cfc k HL'), (Htl k HL'), (Chd k HL'), (Cnx k HL'), (Chd _ M1). done.
Qed.
End quad.
End collapse.
