(** The whole remeshing loop. *)
From Verif Require Export MeshRemesh.
From Verif Require Import MeshBase.
Local Open Scope N_scope.

Section loop.
Context {P : Type}.
Implicit Types (m : mesh P) (ops : list Z) (v h w : N).

(** ** Smoothing leaves border vertices alone *)
Definition pinned m v : Prop :=
  (∃ z, verts m !! v = Some z ∧ vrem z = true) ∨
  (one_fan m v ∧ ∃ h w x, runs m h v w ∧ hes m !! h = Some x ∧ hface x = None).
Lemma moved_pinned m m' v : moved m m' → pinned m v → pinned m' v.
Proof.
  intros (vs&->&H) [(z&Hz&Hr)|Hp].
  - left. destruct (H v) as [_ E]. rewrite Hz in E. destruct (vs !! v) as [z'|] eqn:Ez; [|done]. exists z'. cbn in E.
    split; [done|]. congruence.
  - right. exact Hp.
Qed.
Definition holds m m' v : Prop := vpos <$> verts m' !! v = vpos <$> verts m !! v.

Section smooth.
Context (target_of : P → list (P * option P) → P) (far : P → P → bool).
Lemma smooth_holds m v w m' b : WF m → v < nverts m → pinned m w →
  smooth_tangential target_of far m v = Some (m', b) → holds m m' w.
Proof.
  intros HW Hv Hp E. pose proof (wf_si _ HW) as HS.
  destruct (smooth_ok target_of far m v HW Hv) as (m1&b1&E1&H). rewrite E in E1. injection E1 as <- <-.
  unfold holds. destruct b; [|by subst]. destruct H as (z&p&Hz&Hr&->&h0&HL0&Ht0&Hfan). cbn.
  destruct (decide (w = v)) as [->|]; [|by rewrite lookup_insert_ne]. exfalso.
  destruct Hp as [(z'&Hz'&Hr')|(H1&h&x&y&Hrun&Hy&Hf)]; [congruence|].
  destruct (Hfan h) as [Hne _].
  - apply (H1 h0 h (hd m h0) x); [by apply runs_WF|done].
  - apply Hne. unfold fc, he. by rewrite Hy.
Qed.
Lemma smooth_each_holds w l : ∀ m m' n, WF m → (∀ v, v ∈ l → v < nverts m) → pinned m w →
  smooth_each target_of far l m = Some (m', n) → holds m m' w.
Proof.
  induction l as [|v l IH]; intros m m' n HW Hl Hp E; [by injection E as <- <-|].
  pose proof (wf_si _ HW) as HS. assert (v < nverts m) as Hv by (apply Hl; left).
  cbn [smooth_each] in E. pose proof Hv as [z Hz]%(si_vb _ _ HS). assert (getV m v = Some z) as Ez by exact Hz.
  rewrite Ez in E. cbn [mbind option_bind] in E.
  destruct (vrem z); [by apply (IH m m' n HW); [intros; apply Hl; right| |]|].
  destruct (smooth_moved target_of far m v HW Hv) as (m1&b&E1&Hm1). rewrite E1 in E. cbn [mbind option_bind] in E.
  destruct (smooth_each target_of far l m1) as [[m2 n2]|] eqn:E2; [|done]. cbn [mbind option_bind] in E. injection E as <- _.
  pose proof (smooth_holds _ _ _ _ _ HW Hv Hp E1) as H1. unfold holds in *. rewrite <- H1.
  apply (IH m1 m2 n2); [by eapply moved_WF| |by eapply moved_pinned|done].
  intros u Hu. destruct (moved_sizes _ _ Hm1) as (->&_). apply Hl. by right.
Qed.
Lemma smooth_pass_holds w k : ∀ m m' n, WF m → pinned m w →
  smooth_vertices target_of far k m = Some (m', n) → holds m m' w.
Proof.
  induction k as [|k IH]; intros m m' n HW Hp E; [by injection E as <- <-|]. cbn [smooth_vertices] in E.
  destruct (smooth_each_moved target_of far (below (nverts m)) m HW) as (m1&n1&E1&Hm1); [intros v; apply below_lt|].
  rewrite E1 in E. cbn [mbind option_bind] in E.
  destruct (smooth_vertices target_of far k m1) as [[m2 n2]|] eqn:E2; [|done]. cbn [mbind option_bind] in E. injection E as <- _.
  assert (holds m m1 w) as H1.
  { apply (smooth_each_holds w (below (nverts m)) m m1 n1); try done. intros v. apply below_lt. }
  unfold holds in *. rewrite <- H1. apply (IH m1 m2 n2); [by eapply moved_WF|by eapply moved_pinned|done].
Qed.
(** no move makes an edge long *)
Definition tame m m' : Prop := ∀ u w zu zw zu' zw', registered m u w →
  verts m !! u = Some zu → verts m !! w = Some zw → verts m' !! u = Some zu' → verts m' !! w = Some zw' →
  far (vpos zu') (vpos zw') = true → vpos zu' = vpos zu ∧ vpos zw' = vpos zw.
Definition manifold m : Prop := (∀ v, one_fan m v) ∧ removed_unused m.
Lemma tame_refl m : tame m m.
Proof. intros u w zu zw zu' zw' _ E1 E2 E3 E4 _. split; congruence. Qed.
Lemma tame_trans m1 m2 m3 : moved m1 m2 → tame m1 m2 → tame m2 m3 → tame m1 m3.
Proof.
  intros (vs&->&Hvs) T1 T2 u w zu zw zu' zw' Hr E1 E2 E3 E4 Hfar.
  destruct (Hvs u) as [A _], (Hvs w) as [B _]. rewrite E1 in A. rewrite E2 in B.
  destruct (vs !! u) as [yu|] eqn:Eu; [|done]. destruct (vs !! w) as [yw|] eqn:Ew; [|done].
  destruct (T2 u w yu yw zu' zw' Hr Eu Ew E3 E4 Hfar) as [F1 F2].
  rewrite F1, F2 in Hfar. destruct (T1 u w zu zw yu yw Hr E1 E2 Eu Ew Hfar). split; congruence.
Qed.
Lemma moved_manifold m m' : moved m m' → manifold m → manifold m'.
Proof.
  intros (vs&->&Hvs) [H1 H2]. split; [exact H1|]. intros h v w z Hr Hz. cbn in Hz.
  destruct (Hvs v) as [_ A]. rewrite Hz in A. destruct (verts m !! v) as [y|] eqn:E; [|done]. cbn in A.
  injection A as ->. by apply (H2 h v w y).
Qed.
Lemma runs_back m h u w : WF m → runs m h u w → ∃ k, runs m k w u.
Proof.
  intros HW Hr. pose proof (wf_si _ HW) as HS. apply runs_WF in Hr as (HL&E1&E2); [|done]. exists (tw m h). apply runs_WF; [done|].
  destruct (si_tw _ _ HS h HL) as (L1&E&_). split; [done|]. unfold tl in *. by rewrite E.
Qed.
Lemma smooth_tame m v m' b : (∀ p q, far p q = far q p) → manifold m → WF m → v < nverts m →
  smooth_tangential target_of far m v = Some (m', b) → tame m m'.
Proof.
  intros Hsym [H1 H2] HW Hv E. pose proof (wf_si _ HW) as HS.
  destruct (smooth_ok target_of far m v HW Hv) as (m1&b1&E1&H). rewrite E in E1. injection E1 as <- <-.
  destruct b; [|subst; apply tame_refl]. destruct H as (z&p&Hz&Hr&->&h0&HL0&Ht0&Hfan).
  assert (∀ h w y, runs m h v w → verts m !! w = Some y → far p (vpos y) = false) as Hnear.
  { intros h w y Hrun Hy. destruct (Hfan h) as [_ Hf].
    - apply (H1 v h0 h (hd m h0) w); [by apply runs_WF|done].
    - destruct (runs_back m h v w HW Hrun) as [k Hk]. apply runs_WF in Hrun as (_&_&Ew); [|done]. rewrite Ew in Hf.
      apply Hf; [done|]. by apply (H2 k w v y). }
  intros u w zu zw zu' zw' [h Hrun] Zu Zw Zu' Zw' Hfar. cbn in Zu', Zw'.
  assert (u ≠ w) as Duw.
  { apply runs_WF in Hrun as (HL&<-&<-); [|done]. intros EE. by apply (hd_tl_ne m HS h HL). }
  destruct (decide (u = v)) as [->|Nu].
  - rewrite lookup_insert_ne in Zw' by done. rewrite lookup_insert in Zu'. injection Zu' as <-. cbn in Hfar.
    assert (zw' = zw) as -> by congruence. rewrite (Hnear h w zw) in Hfar; done.
  - rewrite lookup_insert_ne in Zu' by done. assert (zu' = zu) as -> by congruence.
    destruct (decide (w = v)) as [->|Nw].
    + rewrite lookup_insert in Zw'. injection Zw' as <-. cbn in Hfar. rewrite Hsym in Hfar.
      destruct (runs_back m h u v HW Hrun) as [k Hk]. rewrite (Hnear k u zu) in Hfar; done.
    + rewrite lookup_insert_ne in Zw' by done. split; congruence.
Qed.
Lemma smooth_each_tame l : (∀ p q, far p q = far q p) → ∀ m m' n, manifold m → WF m → (∀ v, v ∈ l → v < nverts m) →
  smooth_each target_of far l m = Some (m', n) → tame m m'.
Proof.
  intros Hsym. induction l as [|v l IH]; intros m m' n HM HW Hl E; [injection E as <- <-; apply tame_refl|].
  pose proof (wf_si _ HW) as HS. assert (v < nverts m) as Hv by (apply Hl; left).
  cbn [smooth_each] in E. pose proof Hv as [z Hz]%(si_vb _ _ HS). assert (getV m v = Some z) as Ez by exact Hz.
  rewrite Ez in E. cbn [mbind option_bind] in E.
  destruct (vrem z); [by apply (IH m m' n HM HW); [intros; apply Hl; right|]|].
  destruct (smooth_moved target_of far m v HW Hv) as (m1&b&E1&Hm1). rewrite E1 in E. cbn [mbind option_bind] in E.
  destruct (smooth_each target_of far l m1) as [[m2 n2]|] eqn:E2; [|done]. cbn [mbind option_bind] in E. injection E as <- _.
  apply (tame_trans m m1 m2 Hm1); [by eapply smooth_tame|].
  apply (IH m1 m2 n2); [by eapply moved_manifold|by eapply moved_WF| |done].
  intros u Hu. destruct (moved_sizes _ _ Hm1) as (->&_). apply Hl. by right.
Qed.
Lemma smooth_pass_tame k : (∀ p q, far p q = far q p) → ∀ m m' n, manifold m → WF m →
  smooth_vertices target_of far k m = Some (m', n) → tame m m'.
Proof.
  intros Hsym. induction k as [|k IH]; intros m m' n HM HW E; [injection E as <- <-; apply tame_refl|]. cbn [smooth_vertices] in E.
  destruct (smooth_each_moved target_of far (below (nverts m)) m HW) as (m1&n1&E1&Hm1); [intros v; apply below_lt|].
  rewrite E1 in E. cbn [mbind option_bind] in E.
  destruct (smooth_vertices target_of far k m1) as [[m2 n2]|] eqn:E2; [|done]. cbn [mbind option_bind] in E. injection E as <- _.
  apply (tame_trans m m1 m2 Hm1).
  - apply (smooth_each_tame (below (nverts m)) Hsym m m1 n1); try done. intros v. apply below_lt.
  - apply (IH m1 m2 n2); [by eapply moved_manifold|by eapply moved_WF|done].
Qed.
(** where the vertex moves *)
Lemma spoke_full m h z c : WF m → L m h → fc m h ≠ None → verts m !! hd m h = Some z →
  verts m !! hd m (nx m h) = Some c → vrem c = false → spoke_positions m (h, hd m h) = Some (vpos z, Some (vpos c)).
Proof.
  intros HW HL Hf Hz Hc Hr. pose proof (wf_si _ HW) as HS. unfold spoke_positions, getV. rewrite Hz. cbn [mbind option_bind].
  rewrite (L_getH m h HL). cbn [mbind option_bind]. fold (fc m h). destruct (fc m h); [|done]. cbn [is_none].
  fold (nx m h). pose proof (proj1 (next_L m HW h HL)) as L1.
  rewrite (proj2 (N.leb_gt _ _)) by (by apply (L_lt m HS)).
  rewrite (L_getH m _ L1). cbn [mbind option_bind]. rewrite (L_rem m _ L1). fold (hd m (nx m h)).
  destruct (live_ends m _ HW L1) as [_ V1]. rewrite (proj2 (N.leb_gt _ _) V1), Hc. cbn [mbind option_bind]. by rewrite Hr.
Qed.
Lemma smooth_target m v m' : WF m → removed_unused m → v < nverts m →
  smooth_tangential target_of far m v = Some (m', true) →
  ∃ z h0 l ps, verts m !! v = Some z ∧ L m h0 ∧ tl m h0 = v ∧ NoDup l ∧ (∀ h, h ∈ l ↔ same_fan m h0 h) ∧
    Forall2 (λ h e, L m h ∧ tl m h = v ∧ fc m h ≠ None ∧ ∃ y c, verts m !! hd m h = Some y ∧
      verts m !! hd m (nx m h) = Some c ∧ e = (vpos y, Some (vpos c))) l ps ∧
    m' = set_verts (<[v := mkVX (target_of (vpos z) ps) (vhe z) (vrem z)]> (verts m)) m.
Proof.
  intros HW Hru Hv E. pose proof (wf_si _ HW) as HS. unfold smooth_tangential in E.
  rewrite (proj2 (N.leb_gt _ _) Hv) in E. pose proof Hv as [z Hz]%(si_vb _ _ HS).
  assert (getV m v = Some z) as Ez by exact Hz. rewrite Ez in E.
  cbn [mbind option_bind] in E. destruct (vrem z) eqn:Er; [done|].
  destruct (vhe z) as [h0|] eqn:Eh.
  2: { unfold vertex_ring_ccw, getV in E. rewrite Hz in E. cbn [mbind option_bind] in E. rewrite Eh in E. done. }
  destruct (vertex_ring_ok m HW v z h0 Hz Eh) as (l&El&HND&_&HLl&Hf). rewrite El in E. clear El. cbn [mbind option_bind ring_spokes] in E.
  destruct (spoke m <$> l) as [|s ss] eqn:Es; [done|]. rewrite <- Es in E. clear Es s ss.
  assert ((fst ∘ fst <$> (spoke m <$> l)) = l) as Efl.
  { clear. induction l as [|h l IH]; [done|]. cbn. by f_equal. }
  rewrite Efl, ring_entries_ok in E; [|done|intros h Hh; by apply HLl]. cbn [mbind option_bind] in E. clear Efl.
  set (g := λ h, (is_none (fc m h),
    match verts m !! hd m h with Some y => if vrem y then None else Some (h, hd m h) | None => None end)) in E.
  destruct (existsb fst (g <$> l)) eqn:Eb; [done|]. cbn [orb] in E.
  destruct (length (omap snd (g <$> l)) <? 2)%nat; [done|].
  assert (∀ w k, L m k → hd m k = w → ∃ y, verts m !! w = Some y ∧ vrem y = false) as Hkept.
  { intros w k HLk <-. destruct (live_ends m k HW HLk) as [_ V1]. apply (si_vb _ _ HS) in V1 as [y Hy].
    exists y. split; [done|]. apply (Hru (tw m k) (hd m k) (tl m k)); [|done]. apply runs_WF; [done|].
    destruct (si_tw _ _ HS k HLk) as (L1&Ek&_). split; [done|]. unfold tl. by rewrite Ek. }
  assert (∀ h, h ∈ l → fc m h ≠ None) as Hfc.
  { intros h Hh En. assert (existsb fst (g <$> l) = true); [|congruence]. apply existsb_exists.
    exists (g h). split; [by apply elem_of_list_In, elem_of_list_fmap_1|]. unfold g. cbn. by rewrite En. }
  assert (∀ l0, l0 ⊆ l → ∃ ps, mapM (spoke_positions m) (omap snd (g <$> l0)) = Some ps ∧
    Forall2 (λ h e, L m h ∧ tl m h = v ∧ fc m h ≠ None ∧ ∃ y c, verts m !! hd m h = Some y ∧
      verts m !! hd m (nx m h) = Some c ∧ e = (vpos y, Some (vpos c))) l0 ps) as Hps.
  { induction l0 as [|h l0 IH]; intros Hsub; [by exists []|].
    destruct IH as (ps&Eps&HF); [intros k Hk; apply Hsub; by right|].
    assert (h ∈ l) as Hh by (apply Hsub; left). destruct (HLl h Hh) as [HL Ht].
    destruct (Hkept _ h HL eq_refl) as (y&Hy&Ry).
    destruct (Hkept _ (nx m h) (proj1 (next_L m HW h HL)) eq_refl) as (c&Hc&Rc).
    exists ((vpos y, Some (vpos c)) :: ps). split.
    - assert (omap snd (g <$> (h :: l0)) = (h, hd m h) :: omap snd (g <$> l0)) as -> by (cbn; by rewrite Hy, Ry).
      cbn [mapM]. rewrite (spoke_full m h y c HW HL (Hfc h Hh) Hy Hc Rc). cbn [mbind option_bind].
      rewrite Eps. done.
    - constructor; [|done]. split; [done|]. split; [done|]. split; [by apply Hfc|]. eauto. }
  destruct (Hps l) as (ps&Eps&HF); [done|]. rewrite Eps in E. cbn [mbind option_bind] in E.
  destruct (existsb _ ps); [done|]. unfold updV, getV in E. rewrite Hz in E. cbn [mbind option_bind] in E.
  injection E as <-. destruct (anchor_L m HW v z h0 Hz Eh) as [HL0 Ht0].
  exists z, h0, l, ps. split_and!; try done; by rewrite Eh.
Qed.
End smooth.

(** ** One iteration, then all *)
Section rounds.
Context (half mid : P → P → P) (thin : P → P → P → bool).
Context (better : P → P → P → P → option bool) (degen : P → P → P → P → bool).
Context (target_of : P → list (P * option P) → P) (long short : P → P → bool).

Definition proper (ch : choices) : Prop :=
  (∀ l e, e ∈ ch_pairs ch l ↔ e ∈ l) ∧ (∀ e, lists_all (ch_o1 ch e)) ∧ (∀ e, lists_all (ch_o2 ch e)).

(** room for [k] more iterations in tables indexed by usize *)
Definition room (k : nat) m : Prop :=
  nverts m + 16 ^ N.of_nat k * nhes m ≤ umax ∧ nfaces m + 16 ^ N.of_nat k * nhes m ≤ umax.

Lemma round_ok ch iter m ops k : proper ch → surf m → no_pillow m → room (S k) m →
  match remesh_round half mid thin better degen target_of long short ch iter m ops with
  | Some (m', _, _) => surf m' ∧ room k m'
  | None => ∃ p q r s, better p q r s = None
  end.
Proof.
  intros (Hpair&Ho1&Ho2) Hsf HN [R1 R2]. unfold remesh_round.
  rewrite Nat2N.inj_succ, N.pow_succ_r' in R1, R2. set (q := 16 ^ N.of_nat k) in *.
  assert (1 ≤ q) as Hq by (unfold q; pose proof (N.pow_nonzero 16 (N.of_nat k)); lia).
  assert (nhes m ≤ q * nhes m) as Hqn by nia.
  destruct (split_pass_ok half (ch_found ch) iter long m (grow ops (nverts m)))
    as (m1&ops1&n1&->&S1&_&_&_&B1&B2&B3); [done|done|apply grow_covers|nia|nia|nia|]. cbn [mbind option_bind].
  destruct (collapse_pass_ok mid thin (ch_o1 ch) (ch_o2 ch) iter Ho1 Ho2 short (ch_pairs ch) m1 (grow ops1 (nverts m1)))
    as (m2&ops2&n2&->&S2&_&E1&E2&E3); [intros l e; apply Hpair|done|apply grow_covers|]. cbn [mbind option_bind].
  pose proof (flip_pass_ok better degen (λ x, surf x ∧ nverts x = nverts m2 ∧ nhes x = nhes m2 ∧ nfaces x = nfaces m2)) as Hf.
  feed specialize Hf.
  { by intros x [[? _ _ _] _]. }
  { intros x y h f0 f1 a b c d ([HWx HCx HRx HUx]&X1&X2&X3) Hfb _ Hfl.
    split; [by eapply flip_surf|]. destruct Hfl as [_ _ _ _ _ [Y1 Y2] [Y3 _]]. split_and!; congruence. }
  specialize (Hf m2 ltac:(by split_and!)).
  destruct (flip_edges better degen m2) as [[m3 n3]|]; [|done]. destruct Hf as (S3&G1&G2&G3).
  cbn [mbind option_bind].
  destruct (smooth_pass_moved target_of long 2 m3) as (m4&n4&->&Hm); [apply S3|]. cbn [mbind option_bind].
  split; [by eapply moved_surf|]. destruct (moved_sizes _ _ Hm) as (K1&K2&K3). unfold room. fold q.
  rewrite K1, K2, K3, G1, G2, G3, E1, E2, E3.
  assert (q * nhes m1 ≤ q * (9 * nhes m)) by (apply N.mul_le_mono_l; lia). split; nia.
Qed.

Lemma loop_ok (ch : Z → choices) todo : (∀ i, proper (ch i)) → ∀ iter m ops, surf m → room todo m →
  (∀ k m', (k < todo)%nat → remesh_loop half mid thin better degen target_of long short ch k iter m ops = Some m' → no_pillow m') →
  match remesh_loop half mid thin better degen target_of long short ch todo iter m ops with
  | Some m' => surf m'
  | None => ∃ p q r s, better p q r s = None
  end.
Proof.
  intros Hch. induction todo as [|t IH]; intros iter m ops Hsf Hr HN; [done|]. cbn [remesh_loop].
  pose proof (round_ok (ch iter) iter m ops t (Hch iter) Hsf) as Hround.
  feed specialize Hround; [|done|]. { by apply (HN 0%nat); [lia|]. }
  assert (∀ k m', (k < t)%nat →
    match remesh_round half mid thin better degen target_of long short (ch iter) iter m ops with
    | Some (m1, ops1, false) => remesh_loop half mid thin better degen target_of long short ch k (iter + 1) m1 ops1 = Some m' → no_pillow m'
    | _ => True end) as HN'.
  { intros k m' Hk. specialize (HN (S k) m' ltac:(lia)). cbn [remesh_loop] in HN.
    destruct (remesh_round _ _ _ _ _ _ _ _ _ _ _ _) as [[[m1 ops1] [|]]|]; [done| |done]. exact HN. }
  destruct (remesh_round _ _ _ _ _ _ _ _ _ _ _ _) as [[[m1 ops1] stop]|]; [|done]. cbn [mbind option_bind].
  destruct Hround as [S1 R1]. destruct stop; [done|]. by apply IH.
Qed.
End rounds.
End loop.
