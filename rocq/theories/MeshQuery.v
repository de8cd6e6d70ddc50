(** The queries of MeshQueryModel on well-formed meshes. *)
From Verif Require Export MeshQueryModel MeshQuerySpec MeshOps.
Local Open Scope N_scope.

(** ** Orbits of an injective map on a finite set *)
Section orbit.
Context (step : N → option N) (g : N → N) (S0 : N → Prop) (n start : N).
Context (Hstep : ∀ h, S0 h → step h = Some (g h) ∧ S0 (g h)).
Context (Hlt : ∀ h, S0 h → h < n).
Context (Hinj : ∀ h h', S0 h → S0 h' → g h = g h' → h = h').

Lemma nodup_bound (l : list N) : NoDup l → Forall S0 l → (length l ≤ N.to_nat n)%nat.
Proof.
  intros HN HF. rewrite <- (range_length n). apply submseteq_length, NoDup_submseteq; [done|].
  intros x Hx. rewrite range_spec. rewrite Forall_forall in HF. by apply Hlt, HF.
Qed.

Lemma orbit_loop fuel : ∀ cur acc,
  NoDup (cur :: acc) → Forall S0 (cur :: acc) →
  (cur = start ∨ start ∈ acc) →
  (∀ h, h ∈ acc → g h = cur ∨ g h ∈ acc) →
  (∀ h, h ∈ cur :: acc → h = start ∨ ∃ h', h' ∈ acc ∧ g h' = h) →
  (N.to_nat n < fuel + length acc)%nat →
  ∃ l, orbit fuel step start cur = Some (cur :: l) ∧ NoDup (cur :: l ++ acc) ∧ Forall S0 (cur :: l ++ acc) ∧
    (∀ h, h ∈ cur :: l → g h ∈ cur :: l ∨ g h = start) ∧
    (∀ h, h ∈ l → ∃ h', h' ∈ cur :: l ∧ g h' = h) ∧
    (∃ h, h ∈ cur :: l ∧ g h = start) ∧
    (∀ h, h ∈ cur :: l → rtc (λ a b, b = g a) cur h).
Proof.
  induction fuel as [|fuel IH]; intros cur acc HN HF Hs Hc Hp Hlen.
  { exfalso. pose proof (nodup_bound _ HN HF) as Hb. simpl in *. lia. }
  cbn [orbit]. pose proof HF as [HS HFa]%Forall_cons. destruct (Hstep cur HS) as [-> HSg].
  cbn [mbind option_bind]. destruct (N.eqb_spec (g cur) start) as [E|E].
  - exists []. split; [done|]. split; [done|]. split; [done|].
    split; [intros h [->|?]%elem_of_cons; [by right|by apply elem_of_nil in H]|].
    split; [intros h []%elem_of_nil|].
    split; [exists cur; split; [left|done]|].
    intros h [->|[]%elem_of_nil]%elem_of_cons. apply rtc_refl.
  - assert (g cur ∉ cur :: acc) as Hni.
    { intros Hin. destruct (Hp _ Hin) as [?|(h'&Hh'&Eh)]; [done|].
      apply Hinj in Eh; [|by rewrite Forall_forall in HFa; apply HFa|done]. subst h'.
      by apply NoDup_cons in HN as [HN _]. }
    destruct (IH (g cur) (cur :: acc)) as (l & -> & HN' & HF' & C1 & C2 & C3 & C4).
    + by apply NoDup_cons.
    + by apply Forall_cons.
    + right. destruct Hs as [->|?]; [left|by right].
    + intros h [->|Hh]%elem_of_cons; [by left|]. right. destruct (Hc h Hh) as [->|?]; [left|by right].
    + intros h [->|Hh]%elem_of_cons.
      * right. exists cur. split; [left|done].
      * destruct (Hp h Hh) as [?|(h'&?&?)]; [by left|]. right. exists h'. split; [by right|done].
    + simpl. lia.
    + exists (g cur :: l). cbn [mbind option_bind]. split; [done|].
      assert (cur :: (g cur :: l) ++ acc ≡ₚ g cur :: l ++ cur :: acc) as Hperm.
      { simpl. rewrite <- Permutation_middle. by rewrite (Permutation_swap cur). }
      rewrite Hperm. split; [done|]. split; [done|].
      split; [|split; [|split]].
      * intros h [->|Hh]%elem_of_cons; [left; right; left|].
        destruct (C1 h Hh) as [?|?]; [left; by right|by right].
      * intros h [->|Hh]%elem_of_cons.
        -- exists cur. split; [left|done].
        -- destruct (C2 h Hh) as (h'&?&?). exists h'. split; [by right|done].
      * destruct C3 as (h'&?&?). exists h'. split; [by right|done].
      * intros h [->|Hh]%elem_of_cons; [apply rtc_refl|]. eapply rtc_l; [done|by apply C4].
Qed.

Lemma orbit_ok : S0 start →
  ∃ l, orbit (S (N.to_nat n)) step start start = Some (start :: l) ∧ NoDup (start :: l) ∧ Forall S0 (start :: l) ∧
    (∀ h, h ∈ start :: l → g h ∈ start :: l) ∧
    (∀ h, h ∈ start :: l → ∃ h', h' ∈ start :: l ∧ g h' = h) ∧
    (∀ h, h ∈ start :: l → rtc (λ a b, b = g a) start h).
Proof.
  intros HS. destruct (orbit_loop (S (N.to_nat n)) start []) as (l & E & HN & HF & C1 & C2 & C3 & C4).
  - apply NoDup_singleton. - by apply Forall_singleton. - by left.
  - intros h []%elem_of_nil.
  - intros h [->|[]%elem_of_nil]%elem_of_cons. by left.
  - simpl; lia.
  - rewrite app_nil_r in *. exists l. split_and!; try done.
    + intros h Hh. destruct (C1 h Hh) as [?| ->]; [done|left].
    + intros h [->|Hh]%elem_of_cons; [done|by apply C2].
Qed.
End orbit.

Section query.
Context {P : Type}.
Implicit Types (m : mesh P) (h k b c f g u v e t : N).

(** ** Rotation around the tail *)
Section rot.
Context m (HW : WF m).
Let HS : SI m None := wf_si _ HW.

Lemma next_L h : L m h → L m (nx m h) ∧ pv m (nx m h) = h ∧ tl m (nx m h) = hd m h ∧ fc m (nx m h) = fc m h.
Proof.
  intros HL. destruct (fc m h) as [f|] eqn:Ef.
  - destruct (si_in _ _ HS h f HL Ef ltac:(done)) as (?&?&?&?&?&?&?&?&_). done.
  - destruct (BI_ring m HS (wf_bi _ HW) h HL Ef) as (?&?&?&?&?&?).
    destruct (wf_bi _ HW h HL Ef) as (Hfan&_).
    by destruct (fan_end m HS h _ HL Ef Hfan) as (_&_&?).
Qed.

Lemma prev_L h : L m h → L m (pv m h) ∧ nx m (pv m h) = h ∧ hd m (pv m h) = tl m h ∧ fc m (pv m h) = fc m h.
Proof.
  intros HL. assert (L m (pv m h) ∧ nx m (pv m h) = h) as [HLp Hn].
  { destruct (fc m h) as [f|] eqn:Ef.
    - by destruct (si_in _ _ HS h f HL Ef ltac:(done)) as (?&?&?&?&?&?&?&?&_).
    - by destruct (BI_ring m HS (wf_bi _ HW) h HL Ef) as (?&?&?&?&?&?). }
  destruct (next_L _ HLp) as (_&_&T&F). rewrite Hn in T, F. done.
Qed.

(** clockwise and counter-clockwise neighbours around the tail *)
Definition cwn h := nx m (tw m h).
Definition ccwn h := tw m (pv m h).

Lemma cwn_L h : L m h → L m (cwn h) ∧ tl m (cwn h) = tl m h ∧ ccwn (cwn h) = h.
Proof.
  intros HL. destruct (si_tw _ _ HS h HL) as (HLt&Htt&_). unfold cwn, ccwn.
  destruct (next_L _ HLt) as (?&Ep&Et&_). split; [done|]. split; [done|]. by rewrite Ep.
Qed.

Lemma ccwn_L h : L m h → L m (ccwn h) ∧ tl m (ccwn h) = tl m h ∧ cwn (ccwn h) = h.
Proof.
  intros HL. destruct (prev_L h HL) as (HLp&En&Eh&_).
  destruct (si_tw _ _ HS _ HLp) as (HLt&Htt&_). unfold cwn, ccwn, tl in *.
  rewrite Htt. done.
Qed.

Lemma out_step_ok h : L m h → out_step m h = Some (cwn h).
Proof.
  intros HL. unfold out_step. rewrite (L_getH m h HL). cbn [mbind option_bind]. fold (tw m h).
  by rewrite (L_getH m _ (tw_L m HS h HL)).
Qed.
Lemma rot_ccw_ok h : L m h → rot_ccw_around_vertex m h = Some (ccwn h).
Proof.
  intros HL. unfold rot_ccw_around_vertex. rewrite (L_getH m h HL). cbn [mbind option_bind]. fold (pv m h).
  by rewrite (L_getH m _ (proj1 (prev_L h HL))).
Qed.
Lemma source_ok h : L m h → source m h = Some (tl m h).
Proof.
  intros HL. unfold source. rewrite (L_getH m h HL). cbn [mbind option_bind]. fold (pv m h).
  rewrite (L_getH m _ (proj1 (prev_L h HL))). cbn. f_equal. by apply prev_L.
Qed.

(** [h'] follows [h] across the face on its left *)
Definition fstep h h' : Prop := L m h ∧ fc m h ≠ None ∧ h' = ccwn h.

Lemma spokes_fstep n k c : spokes m n k c → In m k → rtc fstep (tw m k) c.
Proof.
  induction 1 as [k Hk|n k c Hk Hs IH]; intros HI.
  - apply rtc_refl.
  - destruct (rot_In m HS k HI Hk) as (HI'&_). eapply rtc_l; [|by apply IH].
    split_and!; [by apply tw_L; [|apply HI]|done|done].
Qed.

Lemma fan_conn h : L m h → rtsc fstep h (ccwn h).
Proof.
  intros HL. destruct (fc m h) as [f|] eqn:Ef.
  - apply rtsc_lr. unfold fstep. split_and!; try done. by rewrite Ef.
  - pose proof (prev_L h HL) as (HLp&En&_&Fp). rewrite Ef in Fp.
    destruct (wf_bi _ HW _ HLp Fp) as ([n Hs]&_). rewrite En in Hs.
    destruct (spokes_start m HS _ HLp Fp) as (HI&_).
    pose proof (border_tw_In m HS _ HLp Fp) as [HLt Ht].
    apply rtc_rtsc_lr.
    eapply rtc_l; [|by eapply spokes_fstep]. split_and!; done.
Qed.

Lemma fstep_spec h h' : fstep h h' ↔ next_spoke m h h'.
Proof.
  unfold fstep, next_spoke. setoid_rewrite live_he_L. split.
  - intros (HL&Hf&->). exists (he m h), (he m (pv m h)). split_and!; try done. by apply prev_L.
  - intros (x&y&[HL <-]&Hf&[_ <-]&->). done.
Qed.

Lemma same_fan_fstep h h' : rtsc fstep h h' ↔ same_fan m h h'.
Proof.
  unfold same_fan. split; apply (rtsc_congruence id); intros x y; apply fstep_spec.
Qed.

Lemma anchor_L v x h : verts m !! v = Some x → vhe x = Some h → L m h ∧ tl m h = v.
Proof. intros Hx Hh. pose proof (wf_vi _ HW v x Hx) as Hv. by rewrite Hh in Hv. Qed.

Lemma has_anchor v h : L m h → tl m h = v → ∃ x k, verts m !! v = Some x ∧ vhe x = Some k.
Proof.
  intros HL Ht. assert (v < nverts m) as Hv.
  { rewrite <- Ht. apply (si_hd _ _ HS). by apply tw_L. }
  apply (si_vb _ _ HS) in Hv as [x Hx]. exists x. pose proof (wf_vi _ HW v x Hx) as Hq.
  destruct (vhe x) as [k|]; [by exists k|]. by apply Hq in Ht.
Qed.

(** the fan of a half-edge as a list, in both directions *)
Lemma fan_list (gn : N → N) step h0 :
  (∀ h, L m h → step h = Some (gn h)) →
  gn = cwn ∨ gn = ccwn →
  L m h0 →
  ∃ l, orbit (fuel_of m) step h0 h0 = Some (h0 :: l) ∧ NoDup (h0 :: l) ∧
    (∀ h, h ∈ h0 :: l → L m h ∧ tl m h = tl m h0) ∧
    (∀ h, h ∈ h0 :: l ↔ same_fan m h0 h).
Proof.
  intros Hstep Hg HL0.
  assert (∀ h, L m h → L m (gn h) ∧ tl m (gn h) = tl m h) as Hgn.
  { intros h HL. destruct Hg as [-> | ->]; [destruct (cwn_L h HL) as (?&?&_)|destruct (ccwn_L h HL) as (?&?&_)]; done. }
  assert (∀ h, L m h → rtsc fstep h (gn h)) as Hconn.
  { intros h HL. destruct Hg as [-> | ->]; [|by apply fan_conn]. symmetry.
    destruct (cwn_L h HL) as (HLc&_&E). rewrite <- E at 2. by apply fan_conn. }
  destruct (orbit_ok step gn (λ h, L m h) (nhes m) h0) as (l & E & HN & HF & C1 & C2 & C3).
  - intros h HL. split; [by apply Hstep|by apply Hgn].
  - intros h. by apply L_lt.
  - intros h h' HL HL' E. destruct Hg as [-> | ->].
    + destruct (cwn_L h HL) as (_&_&E1), (cwn_L h' HL') as (_&_&E2). congruence.
    + destruct (ccwn_L h HL) as (_&_&E1), (ccwn_L h' HL') as (_&_&E2). congruence.
  - done.
  - exists l. split; [done|]. split; [done|]. split.
    + intros h Hh%C3. clear -Hh HL0 Hgn. induction Hh as [h|h h' h'' -> Hr IH]; [done|].
      destruct (Hgn h HL0) as [HLg Htg]. destruct (IH HLg) as [? IHt]. 
      split; [done|]. congruence.
    + intros h. rewrite <- same_fan_fstep. split.
      * intros Hh%C3. clear -Hh HL0 Hgn Hconn. induction Hh as [h|h h' h'' -> Hr IH]; [apply rtc_refl|].
        trans (gn h); [by apply Hconn|]. apply IH. by apply Hgn.
      * intros Hr. rewrite Forall_forall in HF.
        unfold rtsc in Hr. revert h Hr. apply rtc_ind_r; [left|].
        intros y z _ Hyz Hy. destruct Hyz as [(HLy&_&->)|(HLz&_&->)].
        -- destruct Hg as [-> | ->]; [|by apply C1].
           destruct (C2 y Hy) as (y' & Hy' & <-). destruct (cwn_L y' (HF _ Hy')) as (_&_&->). done.
        -- destruct Hg as [-> | ->].
           ++ pose proof (C1 _ Hy) as Q. by destruct (ccwn_L z HLz) as (_&_&E2); rewrite E2 in Q.
           ++ destruct (C2 _ Hy) as (y' & Hy' & Ey).
              destruct (ccwn_L z HLz) as (_&_&E1), (ccwn_L y' (HF _ Hy')) as (_&_&E2).
              assert (z = y') as -> by congruence. done.
Qed.

Lemma outgoing_ok v x h0 : verts m !! v = Some x → vhe x = Some h0 →
  ∃ l, outgoing_half_edges m v = Some (h0 :: l) ∧ NoDup (h0 :: l) ∧
    (∀ h, h ∈ h0 :: l → L m h ∧ tl m h = v) ∧ (∀ h, h ∈ h0 :: l ↔ same_fan m h0 h).
Proof.
  intros Hx Hh. destruct (anchor_L v x h0 Hx Hh) as [HL <-].
  unfold outgoing_half_edges, getV. rewrite Hx. cbn [mbind option_bind]. rewrite Hh.
  apply (fan_list cwn); [apply out_step_ok|by left|done].
Qed.

Lemma mapM_ok {A B} (f : A → option B) (g : A → B) l :
  (∀ x, x ∈ l → f x = Some (g x)) → mapM f l = Some (g <$> l).
Proof.
  induction l as [|x l IH]; intros H; [done|]. cbn [mapM]. rewrite H by left.
  cbn [mbind option_bind]. rewrite IH by (intros; apply H; by right). done.
Qed.

Lemma one_ring_ok v x h0 l : verts m !! v = Some x → vhe x = Some h0 →
  outgoing_half_edges m v = Some l → one_ring_neighbors m v = Some (hd m <$> l).
Proof.
  intros Hx Hh E. destruct (outgoing_ok v x h0 Hx Hh) as (l'&E'&_&HL&_).
  rewrite E in E'. injection E' as ->.
  unfold one_ring_neighbors. rewrite E. cbn [mbind option_bind].
  apply mapM_ok. intros h Hin. unfold target. rewrite (L_getH m h); [done|]. by apply HL.
Qed.

Lemma boundary_vertex_ok v x h0 l : verts m !! v = Some x → vhe x = Some h0 →
  outgoing_half_edges m v = Some l →
  is_boundary_vertex m v = Some (existsb (λ h, is_none (fc m h)) l).
Proof.
  intros Hx Hh E. destruct (outgoing_ok v x h0 Hx Hh) as (l'&E'&_&HL&_).
  rewrite E in E'. injection E' as ->.
  unfold is_boundary_vertex. rewrite E. cbn [mbind option_bind].
  rewrite (mapM_ok _ (he m)) by (intros h Hin; apply L_getH; by apply HL).
  cbn [mbind option_bind]. f_equal. generalize (h0 :: l'). intros l. clear. induction l; [done|]. cbn. by f_equal.
Qed.

(** faces_around_vertex *)
Definition face_at h : list N := match fc m h with Some f => [f] | None => [] end.

Lemma face_live h f : L m h → fc m h = Some f → ∃ x, faces m !! f = Some x ∧ frem x = false.
Proof. intros HL Hf. by destruct (si_in _ _ HS h f HL Hf ltac:(done)) as (_&_&_&_&_&_&_&_&?). Qed.

Lemma fav_loop_ok fuel start : ∀ cur l, L m start → L m cur → orbit fuel (out_step m) start cur = Some l →
  fav_loop fuel m start cur = Some (l ≫= face_at).
Proof.
  induction fuel as [|fuel IH]; intros cur l HL0 HL E; [done|]. cbn [orbit fav_loop] in *.
  rewrite out_step_ok in E by done. cbn [mbind option_bind] in E.
  rewrite (L_getH m cur HL). cbn [mbind option_bind]. fold (fc m cur). fold (tw m cur).
  assert (face_at cur = match fc m cur with Some f => [f] | None => [] end) as Hat by done.
  destruct (fc m cur) as [f|] eqn:Ef;
  [destruct (face_live cur f HL Ef) as (y & Hy & Hr); unfold getF; rewrite Hy; cbn [mbind option_bind];
   rewrite Hr; cbn [mbind option_bind negb assertb]|cbn [mbind option_bind]];
  rewrite (L_getH m _ (tw_L m HS cur HL)); cbn [mbind option_bind]; fold (nx m (tw m cur)); fold (cwn cur);
  (destruct (cwn cur =? start);
   [injection E as <-; cbn; by rewrite Hat|]);
  (destruct (orbit fuel (out_step m) start (cwn cur)) as [l'|] eqn:E'; [|done]); injection E as <-;
  (rewrite (IH (cwn cur) l' HL0); [|by apply cwn_L|done]); rewrite bind_cons, Hat; done.
Qed.

Lemma vtf_loop_ok fuel f start : ∀ cur l, L m start → L m cur → orbit fuel (out_step m) start cur = Some l →
  vtf_loop fuel m f start cur = Some (bool_decide (Exists (λ h, fc m h = Some f) l)).
Proof.
  induction fuel as [|fuel IH]; intros cur l HL0 HL E; [done|]. cbn [orbit vtf_loop] in *.
  rewrite out_step_ok in E by done. cbn [mbind option_bind] in E.
  rewrite (L_getH m cur HL). cbn [mbind option_bind]. fold (fc m cur). fold (tw m cur).
  rewrite (L_getH m _ (tw_L m HS cur HL)). cbn [mbind option_bind]. fold (nx m (tw m cur)). fold (cwn cur).
  destruct (N.eqb_spec (tw m cur) umax) as [Eu|_].
  { exfalso. by apply (L_ne_umax m HS (tw m cur)); [apply tw_L|]. }
  assert (∃ l', l = cur :: l') as [l' ->].
  { destruct (cwn cur =? start); [by injection E as <-; eauto|].
    destruct (orbit _ _ _ _); [|done]. injection E as <-. eauto. }
  destruct (decide (fc m cur = Some f)) as [Hf|Hf].
  - by rewrite bool_decide_true by (by left).
  - destruct (cwn cur =? start).
    + injection E as <-. rewrite bool_decide_false; [done|]. by rewrite Exists_cons, Exists_nil; intros [?|[]].
    + destruct (orbit fuel (out_step m) start (cwn cur)) as [l''|] eqn:E'; [|done]. injection E as <-.
      rewrite (IH (cwn cur) l'' HL0); [|by apply cwn_L|done]. f_equal. apply bool_decide_ext.
      rewrite Exists_cons. naive_solver.
Qed.

(** the spokes of v with their face are the faces with corner v *)
Lemma corner_spoke f v : corner m f v ↔ ∃ h, L m h ∧ tl m h = v ∧ fc m h = Some f.
Proof.
  split.
  - intros (a&b&Hc). destruct (cycle_face_inv _ _ _ _ _ HS Hc) as (h&?&?&?&?&?). eauto.
  - intros (h&HL&<-&Hf). exists (hd m h), (hd m (nx m h)). by apply cycle_face_side.
Qed.

Lemma spoke_unique f h h' : L m h → L m h' → tl m h = tl m h' → fc m h = Some f → fc m h' = Some f → h = h'.
Proof.
  intros HL HL' Ht Hf Hf'.
  destruct (face3 m HS h f HL Hf) as (L1&L2&F1&F2&N1&N2&N3&N4&T1&T2&T3&_).
  pose proof (hd_tl_ne m HS _ HL). pose proof (hd_tl_ne m HS _ L1). pose proof (hd_tl_ne m HS _ L2).
  destruct (face_cycle m HS h h' f (wf_fh _ HW) HL HL' Hf Hf') as [->|[->| ->]]; congruence.
Qed.

Lemma faces_at_nodup l : NoDup l → (∀ h h', h ∈ l → h' ∈ l → L m h ∧ tl m h = tl m h') → NoDup (l ≫= face_at).
Proof.
  induction l as [|h l IH]; intros HN Ht; [constructor|]. apply NoDup_cons in HN as [Hni HN].
  rewrite bind_cons. apply NoDup_app. split; [|split].
  - unfold face_at. destruct (fc m h); [apply NoDup_singleton|constructor].
  - intros f Hf Hf'. apply elem_of_list_bind in Hf' as (h'&Hf'&Hh'). unfold face_at in *.
    destruct (fc m h) as [g|] eqn:E; [|by apply elem_of_nil in Hf].
    destruct (fc m h') as [g'|] eqn:E'; [|by apply elem_of_nil in Hf'].
    apply elem_of_list_singleton in Hf as ->. apply elem_of_list_singleton in Hf' as ->.
    destruct (Ht h h') as [? ?]; [left|by right|]. destruct (Ht h' h) as [? ?]; [by right|left|].
    assert (h = h') as -> by (by eapply spoke_unique). done.
  - apply IH; [done|]. intros ????. apply Ht; by right.
Qed.

(** vertex_ring_ccw *)
Definition spoke h : N * N * option N := (h, hd m h, fc m h).

Lemma face_ok_ok h : L m h → face_ok m h = Some (is_some (fc m h)).
Proof.
  intros HL. unfold face_ok. rewrite (L_getH m h HL). cbn [mbind option_bind]. fold (fc m h).
  destruct (fc m h) as [f|] eqn:Ef; [|done]. destruct (face_live h f HL Ef) as (y & Hy & Hr).
  unfold getF. rewrite Hy. cbn. by rewrite Hr.
Qed.

Lemma vr_loop_ok fuel start : ∀ cur l seen, L m cur →
  orbit fuel (rot_ccw_around_vertex m) start cur = Some (cur :: l) → NoDup (cur :: l) →
  (∀ h, h ∈ l → h ∉ seen) →
  vr_loop fuel m start cur seen = Some (spoke <$> (cur :: l)).
Proof.
  induction fuel as [|fuel IH]; intros cur l seen HL E HN Hs; [done|]. cbn [orbit vr_loop] in *.
  rewrite rot_ccw_ok in E |- * by done. cbn [mbind option_bind] in E |- *.
  rewrite (L_getH m cur HL). cbn [mbind option_bind]. rewrite (L_rem m cur HL).
  rewrite face_ok_ok by done. cbn [mbind option_bind]. fold (fc m cur) (hd m cur).
  assert ((if is_some (fc m cur) then fc m cur else None) = fc m cur) as -> by (by destruct (fc m cur)).
  destruct (ccwn cur =? start).
  - by injection E as <-.
  - destruct (orbit fuel (rot_ccw_around_vertex m) start (ccwn cur)) as [l'|] eqn:E'; [|done].
    injection E as <-.
    assert (∃ l'', l' = ccwn cur :: l'') as [l'' ->].
    { destruct fuel; [done|]. cbn [orbit] in E'. destruct (rot_ccw_around_vertex m (ccwn cur)); [|done].
      cbn in E'. destruct (_ =? start); [by injection E' as <-; eauto|]. destruct (orbit _ _ _ _); [|done].
      injection E' as <-. eauto. }
    rewrite bool_decide_false by (apply Hs; left).
    apply NoDup_cons in HN as [_ HN].
    rewrite (IH (ccwn cur) l'' _); [done|by apply ccwn_L|done|done|].
    intros h Hh [->|Hin]%elem_of_cons.
    + by apply NoDup_cons in HN as [HN _].
    + by apply (Hs h); [right|].
Qed.

Lemma vertex_ring_ok v x h0 : verts m !! v = Some x → vhe x = Some h0 →
  ∃ l, vertex_ring_ccw m v = Some (mkRing (spoke <$> l) (existsb (λ h, is_none (fc m h)) l)) ∧
    NoDup l ∧ head l = Some h0 ∧
    (∀ h, h ∈ l → L m h ∧ tl m h = v) ∧ (∀ h, h ∈ l ↔ same_fan m h0 h).
Proof.
  intros Hx Hh. destruct (anchor_L v x h0 Hx Hh) as [HL Ht].
  destruct (fan_list ccwn (rot_ccw_around_vertex m) h0) as (l & E & HN & HLl & Hf);
    [apply rot_ccw_ok|by right|done|].
  exists (h0 :: l). unfold vertex_ring_ccw, getV. rewrite Hx. cbn [mbind option_bind]. rewrite Hh.
  rewrite source_ok by done. cbn [mbind option_bind]. rewrite Ht, N.eqb_refl. cbn [mbind option_bind].
  assert (vr_seed (fuel_of m) m h0 h0 [] = Some h0) as ->.
  { unfold fuel_of. cbn [vr_seed]. rewrite (L_getH m h0 HL). cbn [mbind option_bind]. by rewrite (L_rem m h0 HL). }
  cbn [mbind option_bind]. rewrite (L_getH m h0 HL). cbn [mbind option_bind]. rewrite (L_rem m h0 HL).
  rewrite (vr_loop_ok _ _ _ l []); [|done|done|done|intros ???; by apply not_elem_of_nil in H0].
  cbn [mbind option_bind]. split.
  - do 2 f_equal. generalize (h0 :: l). clear. intros l. induction l; [done|]. cbn. by f_equal.
  - split; [done|]. split; [done|]. split; [|done]. rewrite <- Ht. done.
Qed.
End rot.
End query.
