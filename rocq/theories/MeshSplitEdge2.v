(** split_edge, as called: insertion of the vertex, then the subdivision. *)
From Verif Require Export MeshSplitEdge.
Local Open Scope N_scope.

Section split_edge2.
Context {P : Type}.
Implicit Types (m : mesh P) (h k a b c d f g u v e t w : N).

(** outcome of splitting the edge between [f1] = (c,a,b) and [f2] = (a,c,d) by a
    new vertex [w] at [p] *)
Record SplitEdgeAt m f1 f2 (p : P) a b c d w m' : Prop := {
  sea_wf : WF m';
  sea_w : w = nverts m ∧ nverts m' = nverts m + 1;
  sea_pos : vpos <$> verts m' !! w = Some p ∧ vrem <$> verts m' !! w = Some false;
  sea_old : ∀ v, v ≠ w → vpos <$> verts m' !! v = vpos <$> verts m !! v ∧
                         vrem <$> verts m' !! v = vrem <$> verts m !! v;
  sea_f1 : ¬ live_face m' f1;
  sea_f2 : ¬ live_face m' f2;
  sea_1 : oriented_face m' (nfaces m) w b c;
  sea_2 : oriented_face m' (nfaces m + 1) w a b;
  sea_3 : oriented_face m' (nfaces m + 2) w c d;
  sea_4 : oriented_face m' (nfaces m + 3) w d a;
  sea_rest : ∀ g a' b' c', g ≠ f1 → g ≠ f2 → g < nfaces m →
     (oriented_face m' g a' b' c' ↔ oriented_face m g a' b' c');
  sea_size : nfaces m' = nfaces m + 4 ∧ nhes m' = nhes m + 8;
  sea_ends : ∀ h, L m' h → h < nhes m → L m h ∧ hd m' h = hd m h ∧ tl m' h = tl m h
}.

Lemma split_edge_ok m h f1 f2 p a b c d : WF m → runs m h c a →
  cycle_face m f1 c a b → cycle_face m f2 a c d → b ≠ d →
  nverts m < umax → nhes m + 8 ≤ umax → nfaces m + 4 ≤ umax →
  ∃ m', split_edge m None h p =
      Some (m', SplitEdge (nverts m) [nfaces m; nfaces m + 1; nfaces m + 2; nfaces m + 3]) ∧
    SplitEdgeAt m f1 f2 p a b c d (nverts m) m'.
Proof.
  intros HW Hr Hc1 Hc2 Hbd Hv Hh Hf. pose proof (wf_si _ HW) as HS.
  apply runs_WF in Hr as (HL&Ht&Hhd); [|done].
  apply cycle_face_inv in Hc1 as (h1&HL1&Hf1&E1&E2&E3); [|done].
  assert (h1 = h) as -> by (apply (em_inj m None); congruence).
  destruct (si_tw _ _ HS h HL) as (HLt&Htt&_).
  apply cycle_face_inv in Hc2 as (h2&HL2&Hf2&E4&E5&E6); [|done].
  assert (h2 = tw m h) as ->.
  { apply (em_inj m None); [done|done|done|..]; unfold tl in *; rewrite ?Htt; congruence. }
  destruct (add_vertex_ok m p HW Hv) as (m1 & w & Ea & [HW1 [-> Hn1] [Hp1 Hr1] Ho1 Hs1 [Hh1 Hf1']]).
  pose proof (wf_si _ HW1) as HS1.
  assert (hes m1 = hes m ∧ faces m1 = faces m) as [Ehes Efc].
  { unfold add_vertex, pushV in Ea. rewrite (proj2 (N.ltb_lt _ _) Hv) in Ea. cbn [mbind option_bind] in Ea.
    injection Ea as <-. done. }
  assert (∀ k, he m1 k = he m k) as Ehe by (intros k; unfold he; by rewrite Ehes).
  assert (∀ k, L m1 k ↔ L m k) as ELk by (intros k; by rewrite !L_spec, Ehes).
  assert (∀ k, hd m1 k = hd m k ∧ nx m1 k = nx m k ∧ pv m1 k = pv m k ∧ tw m1 k = tw m k ∧ fc m1 k = fc m k) as Ef.
  { intros k. unfold hd, nx, pv, tw, fc. by rewrite Ehe. }
  assert (∀ k, hd m1 k = hd m k) as Ehd by (intros; by apply Ef).
  assert (∀ k, nx m1 k = nx m k) as Enx by (intros; by apply Ef).
  assert (∀ k, pv m1 k = pv m k) as Epv by (intros; by apply Ef).
  assert (∀ k, tw m1 k = tw m k) as Etw by (intros; by apply Ef).
  assert (∀ k, fc m1 k = fc m k) as Efk by (intros; by apply Ef).
  destruct (face3 m HS _ _ HL1 Hf1) as (L1&L2&F1&F2&N1&N2&N3&N4&T1&T2&T3&D1&D2&D3).
  destruct (face3 m HS _ _ HLt Hf2) as (K1&K2&J1&J2&M1&M2&M3&M4&U1&U2&U3&G1&G2&G3).
  destruct (spl_cmds_ok m1 h f1 f2 (nverts m) HW1) as (m' & Er & Hsp).
  { by rewrite ELk. } { by rewrite Efk. } { by rewrite Etw, Efk. } { lia. }
  { intros k HLk Hw. rewrite Ehd in Hw. rewrite ELk in HLk. pose proof (si_hd _ _ HS k HLk). lia. }
  { lia. } { lia. }
  { rewrite Etw, !Enx, !Ehd. congruence. }
  unfold tl in Er, Hsp. rewrite ?Etw, ?Enx, ?Epv, ?Ehd in Hsp.
  repeat first [rewrite Etw in Er|rewrite Enx in Er|rewrite Epv in Er|rewrite Ehd in Er].
  fold (tl m h) in Er, Hsp. rewrite ?E1, ?E2, ?E3, ?E6 in Er, Hsp.
  exists m'. split.
  - unfold split_edge. rewrite (L_getH m h HL). cbn [mbind option_bind].
    fold (nx m h) (tw m h). rewrite (L_getH m _ L1). cbn [mbind option_bind].
    fold (nx m (nx m h)). rewrite N1, (L_getH m _ L2). cbn [mbind option_bind].
    unfold get_or_insert_vertex. rewrite Ea. cbn [mbind option_bind fst snd].
    fold (fc m h). rewrite Hf1. cbn [mbind option_bind].
    assert (∀ k, L m k → getH m1 k = Some (he m k)) as EgetH.
    { intros k HLk. unfold getH. rewrite Ehes. by apply L_getH. }
    rewrite (EgetH _ HLt). cbn [mbind option_bind]. fold (fc m (tw m h)). rewrite Hf2.
    unfold split_interior. rewrite (EgetH _ HLt). cbn [mbind option_bind].
    fold (nx m (tw m h)). rewrite (EgetH _ K1). cbn [mbind option_bind].
    rewrite (EgetH _ L1), (EgetH _ L2). cbn [mbind option_bind].
    fold (nx m (nx m (tw m h))). rewrite M1, (EgetH _ K2). cbn [mbind option_bind].
    fold (tw m (nx m h)) (tw m (pv m h)) (tw m (nx m (tw m h))) (tw m (pv m (tw m h))).
    fold (hd m h) (hd m (nx m h)) (hd m (pv m h)) (hd m (nx m (tw m h))).
    assert (hd m (pv m h) = c) as -> by (rewrite <- T3; done).
    rewrite E2, E3, E6. unfold spl_cmds in Er. rewrite Er. cbn [mbind option_bind].
    by rewrite Hf1', N.add_0_r.
  - destruct Hsp as [s1 s2 s3 s4 s5 s6 s7 s8 s9 s10 s11]. rewrite ?Hf1', ?Hh1, ?Hn1 in *. destruct s10 as [Hnv Hpos].
    split; try done.
    + split; [done|]. by rewrite Hnv.
    + destruct (Hpos (nverts m)) as [-> ->]. done.
    + intros v Hvw. destruct (Hpos v) as [-> ->]. by rewrite Ho1.
    + intros g a' b' c' ???. rewrite s8 by done. apply Hs1.
    + intros k HLk Hk. destruct (s11 k HLk Hk) as (Q1&Q2&Q3). rewrite Ehd in Q2. unfold tl in Q3 at 2.
      rewrite Etw, Ehd in Q3. split_and!; [by apply ELk|done|done].
Qed.

(** the vertex search found an existing vertex: nothing changes *)
Lemma split_edge_found m h v p : WF m → L m h → split_edge m (Some v) h p = Some (m, NoSplit v).
Proof.
  intros HW HL. pose proof (wf_si _ HW) as HS. unfold split_edge. rewrite (L_getH m h HL).
  cbn [mbind option_bind]. fold (nx m h).
  assert (∀ k, L m k → L m (nx m k)) as Hnx.
  { intros k HLk. destruct (fc m k) as [f|] eqn:Ef.
    - by apply (si_in _ _ HS k f).
    - by apply (BI_ring m HS (wf_bi _ HW) k HLk Ef). }
  rewrite (L_getH m _ (Hnx _ HL)). cbn [mbind option_bind]. fold (nx m (nx m h)).
  rewrite (L_getH m _ (Hnx _ (Hnx _ HL))). done.
Qed.
End split_edge2.
