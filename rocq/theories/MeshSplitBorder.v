(** split_edge on an edge with a face on one side only: what it gets right. *)
From Verif Require Export MeshEdit.
Local Open Scope N_scope.

Section split_border.
Context {P : Type}.
Implicit Types (m : mesh P) (h k a b c d f g u v e t w : N).

Definition spb_cmds n fb f1 ca ab bc ac eba ecb a b c w : list (cmd (P:=P)) :=
  [Frem f1; Hrem ca; Hrem ac; MapRemove (a, c); MapRemove (c, a);
     PushHe (he_new w); PushHe (he_new a); PushHe (he_new w);
     PushHe (he_new b); PushHe (he_new c); PushHe (he_new w)]
    ++ Twins (n + 0) (n + 4) ++ Twins (n + 1) (n + 5) ++ Twins (n + 2) (n + 3)
    ++ [PushFc (mkFC ab false); PushFc (mkFC (n + 3) false);
        Hface ab (fb + 0); Hface (n + 2) (fb + 0); Hface (n + 1) (fb + 0)]
    ++ TriLink ab (n + 2) (n + 1)
    ++ [Hface (n + 3) (fb + 1); Hface bc (fb + 1); Hface (n + 0) (fb + 1)]
    ++ TriLink (n + 3) bc (n + 0)
    ++ [Htwin eba ab] ++ [Htwin ecb bc]
    ++ [SetHe (n + 4) (with_face None); Hnext (n + 4) (n + 4); Hprev (n + 4) (n + 4);
        SetHe (n + 5) (with_face None); Hnext (n + 5) (n + 5); Hprev (n + 5) (n + 5);
        MapInsert (c, w) (n + 0); MapInsert (w, a) (n + 1); MapInsert (b, w) (n + 2);
        MapInsert (w, b) (n + 3); MapInsert (w, c) (n + 4); MapInsert (a, w) (n + 5);
        Vor w (n + 3); Vor a ab; Vor b bc; Vor c (n + 0)].

Record SplitB m ca f1 a b c w m' : Prop := {
  sb_f1 : ¬ live_face m' f1;
  sb_1 : oriented_face m' (nfaces m) a b w;
  sb_2 : oriented_face m' (nfaces m + 1) w b c;
  sb_rest : ∀ g a' b' c', g ≠ f1 → g < nfaces m →
     (oriented_face m' g a' b' c' ↔ oriented_face m g a' b' c');
  sb_size : nfaces m' = nfaces m + 2 ∧ nhes m' = nhes m + 6;
  sb_filled : filled m';
  sb_pos : same_positions m m';
  sb_twin : ∀ h, L m' h → L m' (tw m' h) ∧ tw m' (tw m' h) = h ∧ hd m' (tw m' h) ≠ hd m' h;
  sb_em : ∀ u v h, emap m' !! (u, v) = Some h ↔ L m' h ∧ tl m' h = u ∧ hd m' h = v;
  sb_anchor : ∀ v x, verts m' !! v = Some x → match vhe x with
     | Some h => (L m' h ∧ tl m' h = v) ∨ h = ca ∨ h = tw m ca
     | None => ∀ h, L m' h → tl m' h ≠ v
     end
}.

(** faces, without assumptions on the mesh *)
Lemma oriented_rows m f e0 e1 e2 : faces m !! f = Some (mkFC e0 false) →
  L m e0 → L m e1 → L m e2 → L m (tw m e0) → L m (tw m e1) → L m (tw m e2) →
  fc m e0 = Some f → fc m e1 = Some f → fc m e2 = Some f →
  nx m e0 = e1 → nx m e1 = e2 → nx m e2 = e0 → pv m e0 = e2 → pv m e1 = e0 → pv m e2 = e1 →
  tl m e0 = hd m e2 → tl m e1 = hd m e0 → tl m e2 = hd m e1 →
  oriented_face m f (tl m e0) (hd m e0) (hd m e1).
Proof.
  intros Hf L0 L1 L2 K0 K1 K2 F0 F1 F2 N0 N1 N2 P0 P1 P2 T0 T1 T2.
  exists e0, e1, e2, (he m e0), (he m e1), (he m e2).
  split; [done|]. split; [by apply L_live|]. split; [by apply L_live|]. split; [by apply L_live|].
  split_and!; try done; apply runs_L; split_and!; congruence.
Qed.
Lemma oriented_fun m f a b c a' b' c' : oriented_face m f a b c → oriented_face m f a' b' c' → a = a' ∧ b = b' ∧ c = c'.
Proof.
  intros (e0&e1&e2&x0&x1&x2&Hf&H0&H1&H2&_&_&_&N0&N1&_&_&_&_&R0&R1&R2)
    (e0'&e1'&e2'&x0'&x1'&x2'&Hf'&H0'&H1'&H2'&_&_&_&N0'&N1'&_&_&_&_&R0'&R1'&R2').
  rewrite Hf in Hf'. injection Hf' as <-. destruct H0 as [H0 _], H0' as [H0' _]. rewrite H0 in H0'. injection H0' as <-.
  rewrite N0 in N0'. subst e1'. destruct H1 as [H1 _], H1' as [H1' _]. rewrite H1 in H1'. injection H1' as <-.
  rewrite N1 in N1'. subst e2'.
  apply runs_L in R0 as (_&_&?&?), R1 as (_&_&?&?), R0' as (_&_&?&?), R1' as (_&_&?&?). split_and!; congruence.
Qed.

Lemma spb_cmds_ok m ca f1 w : WF m → L m ca → fc m ca = Some f1 → fc m (tw m ca) = None →
  w < nverts m → (∀ h, L m h → hd m h ≠ w) →
  nhes m + 6 ≤ umax → nfaces m + 2 ≤ umax →
  let ac := tw m ca in let ab := nx m ca in let bc := pv m ca in
  let c := tl m ca in let a := hd m ca in let b := hd m ab in
  ∃ m', run m (spb_cmds (nhes m) (nfaces m) f1 ca ab bc ac (tw m ab) (tw m bc) a b c w) = Some m' ∧
    SplitB m ca f1 a b c w m'.
Proof.
  intros HW HL Hf Hft Hw Hfresh Hsz Hfz ac ab bc c a b. pose proof (wf_si _ HW) as HS.
  destruct (si_tw _ _ HS ca HL) as (HLt & Htt & _). fold ac in HLt, Htt, Hft.
  destruct (face3 m HS _ _ HL Hf) as (L1&L2&F1&F2&N1&N2&N3&N4&T1&T2&T3&D1&D2&D3).
  fold ab in L1, F1, N1, N3, N4, T1, T2, D1, D3. fold bc in L2, F2, N1, N2, N4, T2, T3, D2, D3.
  assert (tl m ac = a ∧ hd m ac = c) as [Tac Hac].
  { unfold tl. rewrite Htt. done. }
  assert (hd m bc = c) as Hbc by (by rewrite <- T3).
  assert (tl m ab = a) as Tab by done. assert (tl m bc = b) as Tbc by done.
  assert (tl m ca = c) as Tca by done. assert (hd m ca = a) as Hca by done.
  assert (hd m ab = b) as Hab by done.
  assert (tw m ca = ac) as Wca by done.
  pose proof (hd_tl_ne m HS _ HL) as Dca. rewrite Tca, Hca in Dca.
  pose proof (hd_tl_ne m HS _ L1) as Dab. rewrite Tab, Hab in Dab.
  pose proof (hd_tl_ne m HS _ L2) as Dbc. rewrite Tbc, Hbc in Dbc.
  assert (nx m ca = ab) as Nca by done. assert (pv m ca = bc) as Pca by done.
  clear T1 T2 T3.
  destruct (si_tw _ _ HS ab L1) as (Lx1 & Wx1 & _). destruct (si_tw _ _ HS bc L2) as (Lx2 & Wx2 & _).
  assert (hd m (tw m ab) = a ∧ tl m (tw m ab) = b) as [Hx1 Tx1] by (unfold tl in *; by rewrite Wx1).
  assert (hd m (tw m bc) = b ∧ tl m (tw m bc) = c) as [Hx2 Tx2] by (unfold tl in *; by rewrite Wx2).
  clearbody a b c. clearbody ac. clearbody ab bc.
  remember (tw m ab) as eba eqn:Wab. remember (tw m bc) as ecb eqn:Wbc.
  symmetry in Wab, Wbc.
  assert (∀ x y, tl m x ≠ tl m y ∨ hd m x ≠ hd m y → x ≠ y) as Hne.
  { intros x y [Hq|Hq] ->; done. }
  assert (ca ≠ ac ∧ ab ≠ ac ∧ bc ≠ ac) as (A1&A4&A7).
  { split_and!; apply Hne; rewrite ?Tca, ?Tab, ?Tbc, ?Tac, ?Hca, ?Hab, ?Hbc, ?Hac;
      first [left; congruence | right; congruence]. }
  assert (eba ≠ ca ∧ eba ≠ ab ∧ eba ≠ bc ∧ eba ≠ ac) as (X1&X2&X3&X4).
  { split_and!; apply Hne; rewrite ?Tx1, ?Hx1, ?Tca, ?Tab, ?Tbc, ?Tac, ?Hca, ?Hab, ?Hbc, ?Hac;
      first [left; congruence | right; congruence]. }
  assert (ecb ≠ ca ∧ ecb ≠ ab ∧ ecb ≠ bc ∧ ecb ≠ ac) as (X7&X8&X9&X10).
  { split_and!; apply Hne; rewrite ?Tx2, ?Hx2, ?Tca, ?Tab, ?Tbc, ?Tac, ?Hca, ?Hab, ?Hbc, ?Hac;
      first [left; congruence | right; congruence]. }
  clear Hne.
  pose proof (L_lt m HS _ HL) as Ica. pose proof (L_lt m HS _ L1) as Iab. pose proof (L_lt m HS _ L2) as Ibc.
  pose proof (L_lt m HS _ HLt) as Iac.
  pose proof (L_lt m HS _ Lx1) as Ix1. pose proof (L_lt m HS _ Lx2) as Ix2.
  assert (∃ x, faces m !! f1 = Some x ∧ frem x = false) as (x1 & Hfx1 & Hr1) by (by apply (si_in _ _ HS ca)).
  assert (f1 < nfaces m) as If1 by (apply (si_fb _ _ HS); eauto).
  assert (a < nverts m) as Ia by (rewrite <- Hca; by apply (si_hd _ _ HS)).
  assert (b < nverts m) as Ib by (rewrite <- Hab; by apply (si_hd _ _ HS)).
  assert (c < nverts m) as Ic by (rewrite <- Hbc; by apply (si_hd _ _ HS)).
  assert (∀ h, L m h → tl m h ≠ w) as Hfresht.
  { intros h HLh. apply Hfresh. by apply (si_tw _ _ HS). }
  assert (a ≠ w) as Daw by (rewrite <- Hca; by apply Hfresh).
  assert (b ≠ w) as Dbw by (rewrite <- Hab; by apply Hfresh).
  assert (c ≠ w) as Dcw by (rewrite <- Hbc; by apply Hfresh).
  set (n := nhes m) in *. set (F0 := nfaces m) in *.
  set (l := spb_cmds n F0 f1 ca ab bc ac eba ecb a b c w).
  destruct (run_ok m l (SI_filled _ _ HS)) as (m' & Erun & Hfl & Enh & Enf & Env & Hhe & Hfc & Hvx & Hem).
  { unfold l, spb_cmds. cmdcbn. fold n F0. rewrite ?N.add_0_r.
    split_and!; first [exact I|assumption|apply lt_add_lt; assumption|clear -Hsz Hfz; lia]. }
  exists m'. split; [done|].
  assert (nhes m' = n + 6) as Enh' by exact Enh.
  assert (nfaces m' = F0 + 2) as Enf' by exact Enf.
  clear Enh Enf. fold n in Hhe. fold F0 in Hfc.
  assert (he m ca = mkHE a (Some f1) ab bc ac false) as Oca.
  { rewrite (he_row m ca HL). f_equal; congruence. }
  assert (he m ab = mkHE b (Some f1) bc ca eba false) as Oab.
  { rewrite (he_row m ab L1). f_equal; congruence. }
  assert (he m bc = mkHE c (Some f1) ca ab ecb false) as Obc.
  { rewrite (he_row m bc L2). f_equal; congruence. }
  assert (he m ac = mkHE c None (nx m ac) (pv m ac) ca false) as Oac.
  { rewrite (he_row m ac HLt). f_equal; congruence. }
  assert (he m' ca = mkHE a (Some f1) ab bc ac true) as Rca.
  { rewrite Hhe, Oca. unfold l, spb_cmds. cmdcbn. hsteps. by hfields. }
  assert (he m' ac = mkHE c None (nx m ac) (pv m ac) ca true) as Rac.
  { rewrite Hhe, Oac. unfold l, spb_cmds. cmdcbn. hsteps. by hfields. }
  assert (he m' ab = mkHE b (Some (F0 + 0)) (n + 2) (n + 1) eba false) as Rab.
  { rewrite Hhe, Oab. unfold l, spb_cmds. cmdcbn. hsteps. by hfields. }
  assert (he m' bc = mkHE c (Some (F0 + 1)) (n + 0) (n + 3) ecb false) as Rbc.
  { rewrite Hhe, Obc. unfold l, spb_cmds. cmdcbn. hsteps. by hfields. }
  assert (he m' (n + 0) = mkHE w (Some (F0 + 1)) (n + 3) bc (n + 4) false) as R0.
  { rewrite Hhe. unfold l, spb_cmds. cmdcbn. hsteps. by hfields. }
  assert (he m' (n + 1) = mkHE a (Some (F0 + 0)) ab (n + 2) (n + 5) false) as R1.
  { rewrite Hhe. unfold l, spb_cmds. cmdcbn. hsteps. by hfields. }
  assert (he m' (n + 2) = mkHE w (Some (F0 + 0)) (n + 1) ab (n + 3) false) as R2.
  { rewrite Hhe. unfold l, spb_cmds. cmdcbn. hsteps. by hfields. }
  assert (he m' (n + 3) = mkHE b (Some (F0 + 1)) bc (n + 0) (n + 2) false) as R3.
  { rewrite Hhe. unfold l, spb_cmds. cmdcbn. hsteps. by hfields. }
  assert (he m' (n + 4) = mkHE c None (n + 4) (n + 4) (n + 0) false) as R4.
  { rewrite Hhe. unfold l, spb_cmds. cmdcbn. hsteps. by hfields. }
  assert (he m' (n + 5) = mkHE w None (n + 5) (n + 5) (n + 1) false) as R5.
  { rewrite Hhe. unfold l, spb_cmds. cmdcbn. hsteps. by hfields. }
  pose proof (row_nL _ _ _ _ _ _ _ Hfl Rca) as nLca. pose proof (row_nL _ _ _ _ _ _ _ Hfl Rac) as nLac.
  row Rca; row Rac; row Rab; row Rbc.
  row R0; row R1; row R2; row R3; row R4; row R5.
  rowL Rab Enh'; rowL Rbc Enh'.
  rowL R0 Enh'; rowL R1 Enh'; rowL R2 Enh'; rowL R3 Enh'; rowL R4 Enh'; rowL R5 Enh'.
  set (N6 h := h = n + 0 ∨ h = n + 1 ∨ h = n + 2 ∨ h = n + 3 ∨ h = n + 4 ∨ h = n + 5).
  set (D h := h = ca ∨ h = ac).
  set (Q h := h = ab ∨ h = bc).
  set (X h := D h ∨ Q h ∨ N6 h).
  assert (∀ h, h < n + 6 → h < n ∨ N6 h) as Hlt6.
  { intros h. unfold N6. clear. lia. }
  assert (∀ h, h < n → ¬ N6 h) as HN6.
  { intros h. unfold N6. clear. lia. }
  assert (∀ h, X h ∨ ¬ X h) as Xdec.
  { intros h. unfold X, D, Q, N6. clear. lia. }
  assert (∀ h, D h ∨ ¬ D h) as Ddec.
  { intros h. unfold D. clear. lia. }
  assert (∀ h, ¬ X h → he m' h = he m h) as Hun.
  { intros h HXh. rewrite Hhe. apply hrun_same. unfold l, spb_cmds. cmdcbn.
    assert (h ≠ ca ∧ h ≠ ac ∧ h ≠ ab ∧ h ≠ bc ∧
      h ≠ n + 0 ∧ h ≠ n + 1 ∧ h ≠ n + 2 ∧ h ≠ n + 3 ∧ h ≠ n + 4 ∧ h ≠ n + 5)
      as (?&?&?&?&?&?&?&?&?&?) by (clear -HXh; unfold X, D, Q, N6 in HXh; tauto).
    assert (∀ x k, tw m k = x → with_twin x (he m k) = he m k) as Hsame.
    { intros x k <-. unfold tw, with_twin. by destruct (he m k). }
    split_and!; first [exact I | assumption | intros ?; contradiction | intros ->; by apply Hsame]. }
  assert (∀ h, ¬ X h → hd m' h = hd m h ∧ nx m' h = nx m h ∧ pv m' h = pv m h ∧ tw m' h = tw m h ∧ fc m' h = fc m h) as Hunf.
  { intros h HXh. unfold hd, nx, pv, tw, fc. by rewrite Hun. }
  assert (∀ h, ¬ X h → L m' h ↔ L m h) as HunL.
  { intros h HXh. rewrite !filled_L by (done || by eapply SI_filled). rewrite Hun, Enh' by done.
    fold n. split; intros [? ?]; split; try done.
    - destruct (Hlt6 h); [done|done|]. exfalso. apply HXh. unfold X. tauto.
    - by apply lt_add_lt. }
  assert (∀ h, h < n → hd m' h = hd m h ∧ tw m' h = tw m h) as Hold.
  { intros h Hh. destruct (Xdec h) as [HXh|HXh]; [|by destruct (Hunf h HXh) as (?&?&?&?&?)].
    destruct HXh as [[->| ->]|[[->| ->]|HXh]]; [rwm m'; split; congruence..|]. by apply HN6 in HXh. }
  assert (∀ h, L m h → ¬ D h → L m' h) as HoldL.
  { intros h HLh HD. destruct (Xdec h) as [HXh|HXh]; [|by apply HunL].
    destruct HXh as [?|[[->| ->]|HXh]]; try done. exfalso. by eapply HN6, HXh; apply (L_lt m HS). }
  assert (¬ D ab ∧ ¬ D bc) as (nDab&nDbc).
  { unfold D. split_and!; intros [E|E]; first [contradiction|symmetry in E; contradiction]. }
  assert (∀ h, L m' h → L m h ∧ ¬ D h ∨ N6 h) as HL'.
  { intros h HLh. destruct (Xdec h) as [HXh|HXh].
    - destruct HXh as [[->| ->]|[[->| ->]|HXh]]; [done|done|..|by right]; left;
        (split; [done|]); assumption.
    - left. split; [by apply HunL|]. intros ?. apply HXh. by left. }
  assert (∀ h, L m h → ¬ D h → ¬ D (tw m h)) as HDtw.
  { intros h HLh HD. destruct (si_tw _ _ HS h HLh) as (_&B&_). unfold D in *.
    intros [E|E]; rewrite E in B; apply HD; [right|left]; congruence. }
  assert (∀ h, L m h → tl m' h = tl m h) as Htl.
  { intros h HLh. unfold tl. destruct (Hold h) as [_ ->]; [by apply (L_lt m HS)|].
    apply Hold. apply (L_lt m HS). by apply (si_tw _ _ HS). }
  assert (∀ h, L m h → hd m' h = hd m h) as Hhd.
  { intros h HLh. apply Hold. by apply (L_lt m HS). }
  assert (∀ h, N6 h → L m' (tw m' h) ∧ tw m' (tw m' h) = h ∧ hd m' (tw m' h) ≠ hd m' h) as HN6tw.
  { intros h [->|[->|[->|[->|[->| ->]]]]]; rwm m'; (split; [assumption|split; [reflexivity|]]);
      first [assumption|apply not_eq_sym; assumption]. }
  assert (∀ h, L m' h → L m' (tw m' h) ∧ tw m' (tw m' h) = h ∧ hd m' (tw m' h) ≠ hd m' h) as Htwin.
  { intros h HLh. destruct (HL' h HLh) as [[HLo HDo]|HN]; [|by apply HN6tw].
    destruct (si_tw _ _ HS h HLo) as (B1&B2&B3).
    destruct (Hold h (L_lt m HS _ HLo)) as [-> ->]. destruct (Hold _ (L_lt m HS _ B1)) as [-> ->].
    split; [apply HoldL; [done|by apply HDtw]|]. done. }
  pose proof (Htl ab L1) as Tab'. pose proof (Htl bc L2) as Tbc'.
  rewrite Tab in Tab'. rewrite Tbc in Tbc'.
  assert (tl m' (n + 1) = w ∧ tl m' (n + 3) = w ∧ tl m' (n + 4) = w) as (Tn1&Tn3&Tn4).
  { unfold tl; rwm m'. done. }
  assert (tl m' (n + 0) = c ∧ tl m' (n + 2) = b ∧ tl m' (n + 5) = a) as (Tn0&Tn2&Tn5).
  { unfold tl; rwm m'. done. }
  assert (faces m' !! (F0 + 0) = Some (mkFC ab false)) as G0.
  { rewrite Hfc. unfold l, spb_cmds. cmdcbn. hsteps. reflexivity. }
  assert (faces m' !! (F0 + 1) = Some (mkFC (n + 3) false)) as G1.
  { rewrite Hfc. unfold l, spb_cmds. cmdcbn. hsteps. reflexivity. }
  assert (faces m' !! f1 = Some (mkFC (fhe x1) true)) as Gf1.
  { rewrite Hfc, Hfx1. unfold l, spb_cmds. cmdcbn. hsteps. reflexivity. }
  assert (∀ g, g ≠ f1 → g ≠ F0 + 0 → g ≠ F0 + 1 → faces m' !! g = faces m !! g) as Gun.
  { intros g ???. rewrite Hfc. unfold l, spb_cmds. cmdcbn. hsteps. reflexivity. }
  assert (∀ v, v ≠ w → v ≠ a → v ≠ b → v ≠ c → verts m' !! v = verts m !! v) as Vun.
  { intros v ????. rewrite Hvx. unfold l, spb_cmds. cmdcbn. hsteps. reflexivity. }
  assert (∀ v h x, (v, h) = (w, n + 3) ∨ (v, h) = (a, ab) ∨ (v, h) = (b, bc) ∨ (v, h) = (c, n + 0) →
     verts m !! v = Some x → verts m' !! v = Some (anchor_if_none h x)) as Vn.
  { intros v h x Hv Hx0. rewrite Hvx, Hx0. unfold l, spb_cmds. cmdcbn.
    destruct Hv as [Hv|[Hv|[Hv|Hv]]]; injection Hv as -> ->; hsteps; reflexivity. }
  assert (∀ v x, verts m !! v = Some x → (verts m' !! v = Some x ∧ v ≠ w ∧ v ≠ a ∧ v ≠ b ∧ v ≠ c) ∨
     ∃ h, verts m' !! v = Some (anchor_if_none h x) ∧ L m' h ∧ tl m' h = v) as Vall.
  { intros v x Hx. destruct (decide (v = w)) as [->|]; [|destruct (decide (v = a)) as [->|];
      [|destruct (decide (v = b)) as [->|]; [|destruct (decide (v = c)) as [->|]]]].
    5: left; by rewrite Vun.
    all: right.
    - exists (n + 3). rewrite (Vn w (n + 3) x) by auto. done.
    - exists ab. rewrite (Vn a ab x) by auto. done.
    - exists bc. rewrite (Vn b bc x) by auto. done.
    - exists (n + 0). rewrite (Vn c (n + 0) x) by auto. done. }
  split.
  - intros (x & E & Hr). rewrite Gf1 in E. by injection E as <-.
  - rewrite <- (N.add_0_r (nfaces m)). fold F0.
    pose proof (oriented_rows m' (F0 + 0) ab (n + 2) (n + 1) G0) as Ho. rewrite Tab' in Ho. revert Ho. rwm m'. intros Ho.
    apply Ho; try done; try congruence. apply HoldL; [by rewrite ?Wab|]. rewrite <- Wab. by apply HDtw.
  - pose proof (oriented_rows m' (F0 + 1) (n + 3) bc (n + 0) G1) as Ho. rewrite Tn3 in Ho. revert Ho. rwm m'. intros Ho.
    apply Ho; try done; try congruence. apply HoldL; [by rewrite ?Wbc|]. rewrite <- Wbc. by apply HDtw.
  - assert (∀ g a' b' c', g ≠ f1 → g < nfaces m → oriented_face m g a' b' c' → oriented_face m' g a' b' c') as Hfw.
    { intros g a' b' c' Hg Hlt Ho. pose proof Ho as (e0&_&_&_&_&_&Hgf&_).
      assert (∀ h, L m h → fc m h = Some g → ¬ X h) as HnX.
      { intros h HLh Hfh [[->| ->]|[[->| ->]|HN]]; [congruence..|]. eapply HN6, HN. by apply (L_lt m HS). }
      apply oriented_face_L in Ho as (e&Hge&HLe&Hfe&<-&<-&<-); [|done].
      destruct (face3 m HS _ _ HLe Hfe) as (K1&K2&J1&J2&M1&M2&M3&M4&U1&U2&U3&E1&E2&E3).
      pose proof (HnX _ HLe Hfe) as Y0. pose proof (HnX _ K1 J1) as Y1. pose proof (HnX _ K2 J2) as Y2.
      destruct (Hunf _ Y0) as (h0&n0&p0&t0&q0). destruct (Hunf _ Y1) as (h1&n1&p1&t1&q1). destruct (Hunf _ Y2) as (h2&n2&p2&t2&q2).
      pose proof (proj2 (HunL _ Y0) HLe) as V0. pose proof (proj2 (HunL _ Y1) K1) as V1. pose proof (proj2 (HunL _ Y2) K2) as V2.
      rewrite <- (Htl e HLe), <- h0, <- h1.
      apply (oriented_rows m' g e (nx m e) (pv m e)); rewrite ?Htl by done; try done; try congruence.
      - rewrite Gun; [done|done|apply lt_add_ne; assumption..].
      - by apply Htwin.
      - by apply Htwin.
      - by apply Htwin. }
    intros g a' b' c' Hg Hlt. split; [|by apply Hfw]. intros Ho.
    assert (live_face m g) as Hl.
    { destruct Ho as (e0&e1&e2&x0&x1'&x2&Hgf&_). rewrite Gun in Hgf; [|done|apply lt_add_ne; assumption..]. by eexists. }
    destruct (wfs_face m (proj1 (WF_iff m) HW) g Hl) as (a0&b0&c0&Ho0).
    destruct (oriented_fun _ _ _ _ _ _ _ _ Ho (Hfw g _ _ _ Hg Hlt Ho0)) as (->&->&->). done.
  - done.
  - done.
  - split; [done|]. intros v. destruct (verts m !! v) as [x|] eqn:E.
    + destruct (Vall v x E) as [[-> _]|(h&->&_)]; [done|]. unfold anchor_if_none. by destruct (vhe x).
    + destruct (verts m' !! v) as [x'|] eqn:E'; [|done].
      assert (v < nverts m') as Hlt by (apply (fl_v _ Hfl); eauto). rewrite Env in Hlt.
      apply (si_vb _ _ HS) in Hlt as [? ?]. congruence.
  - done.
  - intros u v h. rewrite Hem. unfold l, spb_cmds. cmdcbn. split.
    + rewrite !lookup_insert_Some, !lookup_delete_Some.
      intros [[E <-]|[_ [[E <-]|[_ [[E <-]|[_ [[E <-]|[_ [[E <-]|[_ [[E <-]|[_ [Z1 [Z2 E]]]]]]]]]]]]]].
      1-6: injection E as <- <-; split_and!; assumption.
      apply (si_em _ _ HS) in E as (B1&B2&B3). fold (tl m h) in B3.
      rewrite Hhd, Htl by done. split; [|done]. apply HoldL; [done|].
      intros [->| ->]; [apply Z1|apply Z2]; congruence.
    + intros (HLh&Et&Eh). destruct (HL' h HLh) as [[HLo HDo]|HN].
      * rewrite Hhd in Eh by done. rewrite Htl in Et by done.
        assert (v ≠ w) by (rewrite <- Eh; by apply Hfresh).
        assert (u ≠ w) by (rewrite <- Et; by apply Hfresht).
        rewrite !lookup_insert_ne, !lookup_delete_ne; [by apply (si_em _ _ HS)|..].
        all: intros Eq; injection Eq as <- <-; try contradiction.
        -- apply HDo. right. apply (em_inj m None); [done|done|done|congruence|congruence].
        -- apply HDo. left. apply (em_inj m None); [done|done|done|congruence|congruence].
      * destruct HN as [->|[->|[->|[->|[->| ->]]]]];
        revert Et Eh; match goal with |- context [Some (n + ?i)] => match goal with
             H1 : tl m' (n + i) = _, H2 : hd m' (n + i) = _ |- _ => rewrite H1, H2 end end;
             intros <- <-; rewrite ?lookup_insert_ne by (intros Eq; injection Eq; intros; congruence); apply lookup_insert.
  - intros v x Hv. assert (is_Some (verts m !! v)) as [x0 Hx0].
    { apply (si_vb _ _ HS). rewrite <- Env. apply (fl_v _ Hfl). by eexists. }
    pose proof (wf_vi _ HW v x0 Hx0) as HV.
    assert (∀ h, L m h → tl m h = v → (L m' h ∧ tl m' h = v) ∨ h = ca ∨ h = tw m ca) as Hk.
    { intros h HLh Ht. destruct (Ddec h) as [HD|HD]; [right; rewrite Wca; done|]. left. split; [by apply HoldL|]. by rewrite Htl. }
    destruct (Vall v x0 Hx0) as [(Ev&?&?&?&?)|(h&Ev&HLh&Hth)]; rewrite Ev in Hv; injection Hv as <-.
    + destruct (vhe x0) as [k|]; [destruct HV; by apply Hk|]. intros h HLh. destruct (HL' h HLh) as [[HLo _]|HN]; [rewrite Htl by done; by apply HV|].
      destruct HN as [->|[->|[->|[->|[->| ->]]]]];
        match goal with |- tl m' ?x ≠ _ => match goal with H : tl m' x = _ |- _ => rewrite H end end; by apply not_eq_sym.
    + unfold anchor_if_none. destruct (vhe x0) as [k|] eqn:Ek; [rewrite Ek; destruct HV; by apply Hk|]. cbn. by left.
Qed.

(** outcome of splitting the border edge of [f1] = (c,a,b) by a new vertex [w] at [p] *)
Record SplitBorderAt m ca f1 (p : P) a b c w m' : Prop := {
  sba_w : w = nverts m ∧ nverts m' = nverts m + 1;
  sba_pos : vpos <$> verts m' !! w = Some p ∧ vrem <$> verts m' !! w = Some false;
  sba_old : ∀ v, v ≠ w → vpos <$> verts m' !! v = vpos <$> verts m !! v ∧
                         vrem <$> verts m' !! v = vrem <$> verts m !! v;
  sba_f1 : ¬ live_face m' f1;
  sba_1 : oriented_face m' (nfaces m) a b w;
  sba_2 : oriented_face m' (nfaces m + 1) w b c;
  sba_rest : ∀ g a' b' c', g ≠ f1 → g < nfaces m →
     (oriented_face m' g a' b' c' ↔ oriented_face m g a' b' c');
  sba_size : nfaces m' = nfaces m + 2 ∧ nhes m' = nhes m + 6;
  sba_filled : filled m';
  sba_twin : ∀ h, L m' h → L m' (tw m' h) ∧ tw m' (tw m' h) = h ∧ hd m' (tw m' h) ≠ hd m' h;
  sba_em : ∀ u v h, emap m' !! (u, v) = Some h ↔ L m' h ∧ tl m' h = u ∧ hd m' h = v;
  sba_anchor : ∀ v x, verts m' !! v = Some x → match vhe x with
     | Some h => (L m' h ∧ tl m' h = v) ∨ h = ca ∨ h = tw m ca
     | None => ∀ h, L m' h → tl m' h ≠ v
     end
}.

Lemma split_border_ok m h f1 p a b c : WF m → runs m h c a →
  cycle_face m f1 c a b → fc m (tw m h) = None →
  nverts m < umax → nhes m + 6 ≤ umax → nfaces m + 2 ≤ umax →
  ∃ m', split_edge m None h p = Some (m', SplitEdge (nverts m) [nfaces m; nfaces m + 1]) ∧
    SplitBorderAt m h f1 p a b c (nverts m) m'.
Proof.
  intros HW Hr Hc1 Hf2 Hv Hh Hf. pose proof (wf_si _ HW) as HS.
  apply runs_WF in Hr as (HL&Ht&Hhd); [|done].
  apply cycle_face_inv in Hc1 as (h1&HL1&Hf1&E1&E2&E3); [|done].
  assert (h1 = h) as -> by (apply (em_inj m None); congruence).
  destruct (si_tw _ _ HS h HL) as (HLt&Htt&_).
  destruct (add_vertex_ok m p HW Hv) as (m1 & w & Ea & [HW1 [-> Hn1] [Hp1 Hr1] Ho1 Hs1 [Hh1 Hf1']]).
  pose proof (wf_si _ HW1) as HS1.
  assert (hes m1 = hes m ∧ faces m1 = faces m) as [Ehes Efc].
  { unfold add_vertex, pushV in Ea. rewrite (proj2 (N.ltb_lt _ _) Hv) in Ea. cbn [mbind option_bind] in Ea.
    injection Ea as <-. done. }
  assert (∀ k, he m1 k = he m k) as Ehe by (intros k; unfold he; by rewrite Ehes).
  assert (∀ k, L m1 k ↔ L m k) as ELk by (intros k; by rewrite !L_spec, Ehes).
  assert (∀ k, hd m1 k = hd m k ∧ nx m1 k = nx m k ∧ pv m1 k = pv m k ∧ tw m1 k = tw m k ∧ fc m1 k = fc m k) as Ef.
  { intros k. unfold hd, nx, pv, tw, fc. by rewrite Ehe. }
  assert (∀ k, hd m1 k = hd m k) as Ehd by (intros; by apply Ef).
  assert (∀ k, nx m1 k = nx m k) as Enx by (intros; by apply Ef).
  assert (∀ k, pv m1 k = pv m k) as Epv by (intros; by apply Ef).
  assert (∀ k, tw m1 k = tw m k) as Etw by (intros; by apply Ef).
  assert (∀ k, fc m1 k = fc m k) as Efk by (intros; by apply Ef).
  destruct (face3 m HS _ _ HL1 Hf1) as (L1&L2&F1&F2&N1&N2&N3&N4&T1&T2&T3&D1&D2&D3).
  destruct (spb_cmds_ok m1 h f1 (nverts m) HW1) as (m' & Er & Hsp).
  { by rewrite ELk. } { by rewrite Efk. } { by rewrite Etw, Efk. } { lia. }
  { intros k HLk Hw. rewrite Ehd in Hw. rewrite ELk in HLk. pose proof (si_hd _ _ HS k HLk). lia. }
  { lia. } { lia. }
  destruct (si_tw _ _ HS _ L1) as (Lx1 & _). destruct (si_tw _ _ HS _ L2) as (Lx2 & _).
  pose proof (L_lt m HS _ Lx1) as Ix1. pose proof (L_lt m HS _ Lx2) as Ix2.
  unfold tl in Er. repeat first [rewrite Etw in Er|rewrite Enx in Er|rewrite Epv in Er|rewrite Ehd in Er].
  fold (tl m h) in Er. rewrite ?E1, ?E2, ?E3 in Er.
  exists m'. split.
  - unfold split_edge. rewrite (L_getH m h HL). cbn [mbind option_bind].
    fold (nx m h) (tw m h). rewrite (L_getH m _ L1). cbn [mbind option_bind].
    fold (nx m (nx m h)). rewrite N1, (L_getH m _ L2). cbn [mbind option_bind].
    unfold get_or_insert_vertex. rewrite Ea. cbn [mbind option_bind fst snd].
    fold (fc m h). rewrite Hf1. cbn [mbind option_bind].
    assert (∀ k, L m k → getH m1 k = Some (he m k)) as EgetH.
    { intros k HLk. unfold getH. rewrite Ehes. by apply L_getH. }
    rewrite (EgetH _ HLt). cbn [mbind option_bind]. fold (fc m (tw m h)). rewrite Hf2.
    unfold split_border. rewrite (EgetH _ L1), (EgetH _ L2). cbn [mbind option_bind].
    fold (tw m (nx m h)) (tw m (pv m h)).
    fold (hd m h) (hd m (nx m h)) (hd m (pv m h)).
    assert (hd m (pv m h) = c) as -> by (rewrite <- T3; done).
    rewrite (proj2 (N.eqb_neq (tw m (nx m h)) umax)) by lia. rewrite (proj2 (N.eqb_neq (tw m (pv m h)) umax)) by lia.
    rewrite E2, E3. unfold spb_cmds in Er. rewrite ?N.add_0_r in Er. rewrite ?N.add_0_r. rewrite Er. cbn [mbind option_bind].
    by rewrite Hf1'.
  - assert (tl m1 h = c ∧ hd m1 h = a ∧ hd m1 (nx m1 h) = b) as (T1'&T2'&T3').
    { unfold tl. rewrite Etw, Enx, !Ehd. fold (tl m h). split_and!; congruence. }
    rewrite T1', T2', T3' in Hsp.
    destruct Hsp as [s2 s3 s4 s5 s6 s7 s8 s9 s10 s11]. rewrite ?Hf1', ?Hh1, ?Hn1, ?Etw in *. destruct s8 as [Hnv Hpos].
    split; try done.
    + split; [done|]. by rewrite Hnv.
    + destruct (Hpos (nverts m)) as [-> ->]. done.
    + intros v Hvw. destruct (Hpos v) as [-> ->]. by rewrite Ho1.
    + intros g a' b' c' ??. rewrite s5 by done. apply Hs1.
Qed.
End split_border.
