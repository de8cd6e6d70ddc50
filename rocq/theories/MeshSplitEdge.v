(** split_edge on an edge with a face on both sides. *)
From Verif Require Export MeshEdit.
Local Open Scope N_scope.

Section split_edge.
Context {P : Type}.
Implicit Types (m : mesh P) (h k a b c d f g u v e t w : N).

Definition spl_cmds n fb f1 f2 ca ab bc ac cd da eba ecb edc ead a b c d w : list (cmd (P:=P)) :=
    PushEv w b (fb + 0) (n + 0) ++ PushEv c w (fb + 0) (n + 1) ++
    PushEv w a (fb + 1) (n + 2) ++ PushEv b w (fb + 1) (n + 3) ++
    PushEv w c (fb + 2) (n + 4) ++ PushEv d w (fb + 2) (n + 5) ++
    PushEv w d (fb + 3) (n + 6) ++ PushEv a w (fb + 3) (n + 7) ++
    TriLink (n + 0) bc (n + 1) ++ [PushFc (mkFC (n + 0) false); Fhe (fb + 0) (n + 0)] ++
    TriLink (n + 2) ab (n + 3) ++ [PushFc (mkFC (n + 2) false); Fhe (fb + 1) (n + 2)] ++
    TriLink (n + 4) cd (n + 5) ++ [PushFc (mkFC (n + 4) false); Fhe (fb + 2) (n + 4)] ++
    TriLink (n + 6) da (n + 7) ++ [PushFc (mkFC (n + 6) false); Fhe (fb + 3) (n + 6)] ++
    Twins (n + 0) (n + 3) ++ Twins (n + 1) (n + 4) ++
    Twins (n + 2) (n + 7) ++ Twins (n + 5) (n + 6) ++
    [Vhe w (n + 0); Vhe a ab; Vhe b bc; Vhe c cd; Vhe d da;
     MapRemove (c, a); MapRemove (a, c)] ++
    Twins eba ab ++ Twins ecb bc ++ Twins edc cd ++ Twins ead da ++
    [Frem f1; Frem f2; Hrem ca; Hrem ac;
     Hface bc (fb + 0); Hface ab (fb + 1); Hface cd (fb + 2); Hface da (fb + 3);
     Hv bc c; Hv ab b; Hv cd d; Hv da a].

Record SplitE m f1 f2 a b c d w m' : Prop := {
  se_wf : WF m';
  se_f1 : ¬ live_face m' f1;
  se_f2 : ¬ live_face m' f2;
  se_1 : oriented_face m' (nfaces m) w b c;
  se_2 : oriented_face m' (nfaces m + 1) w a b;
  se_3 : oriented_face m' (nfaces m + 2) w c d;
  se_4 : oriented_face m' (nfaces m + 3) w d a;
  se_rest : ∀ g a' b' c', g ≠ f1 → g ≠ f2 → g < nfaces m →
     (oriented_face m' g a' b' c' ↔ oriented_face m g a' b' c');
  se_size : nfaces m' = nfaces m + 4 ∧ nhes m' = nhes m + 8;
  se_pos : same_positions m m';
  se_ends : ∀ h, L m' h → h < nhes m → L m h ∧ hd m' h = hd m h ∧ tl m' h = tl m h
}.

Lemma spl_cmds_ok m ca f1 f2 w : WF m → L m ca → fc m ca = Some f1 → fc m (tw m ca) = Some f2 →
  w < nverts m → (∀ h, L m h → hd m h ≠ w) →
  nhes m + 8 ≤ umax → nfaces m + 4 ≤ umax →
  let ac := tw m ca in let ab := nx m ca in let bc := pv m ca in
  let cd := nx m ac in let da := pv m ac in
  let c := tl m ca in let a := hd m ca in let b := hd m ab in let d := hd m cd in
  b ≠ d →
  ∃ m', run m (spl_cmds (nhes m) (nfaces m) f1 f2 ca ab bc ac cd da
            (tw m ab) (tw m bc) (tw m cd) (tw m da) a b c d w) = Some m' ∧
    SplitE m f1 f2 a b c d w m'.
Proof.
  intros HW HL Hf Hft Hw Hfresh Hsz Hfz ac ab bc cd da c a b d Dbd. pose proof (wf_si _ HW) as HS.
  assert (f1 ≠ f2) as Dff.
  { intros <-. by apply (no_self_glue m HS ca f1 (wf_fh _ HW) HL Hf). }
  destruct (si_tw _ _ HS ca HL) as (HLt & Htt & _). fold ac in HLt, Htt, Hft.
  destruct (face3 m HS _ _ HL Hf) as (L1&L2&F1&F2&N1&N2&N3&N4&T1&T2&T3&D1&D2&D3).
  destruct (face3 m HS _ _ HLt Hft) as (K1&K2&J1&J2&M1&M2&M3&M4&U1&U2&U3&E1&E2&E3).
  fold ab in L1, F1, N1, N3, N4, T1, T2, D1, D3. fold bc in L2, F2, N1, N2, N4, T2, T3, D2, D3.
  fold cd in K1, J1, M1, M3, M4, U1, U2, E1, E3. fold da in K2, J2, M1, M2, M4, U2, U3, E2, E3.
  assert (tl m ac = a ∧ hd m ac = c) as [Tac Hac].
  { unfold tl. rewrite Htt. done. }
  assert (hd m bc = c) as Hbc by (by rewrite <- T3).
  assert (hd m da = a) as Hda by (by rewrite <- U3).
  assert (tl m ab = a) as Tab by done. assert (tl m bc = b) as Tbc by done.
  assert (tl m cd = c) as Tcd by congruence. assert (tl m da = d) as Tda by done.
  assert (tl m ca = c) as Tca by done. assert (hd m ca = a) as Hca by done.
  assert (hd m ab = b) as Hab by done. assert (hd m cd = d) as Hcd by done.
  assert (tw m ca = ac) as Wca by done.
  pose proof (hd_tl_ne m HS _ HL) as Dca. rewrite Tca, Hca in Dca.
  pose proof (hd_tl_ne m HS _ L1) as Dab. rewrite Tab, Hab in Dab.
  pose proof (hd_tl_ne m HS _ L2) as Dbc. rewrite Tbc, Hbc in Dbc.
  pose proof (hd_tl_ne m HS _ K1) as Dcd. rewrite Tcd, Hcd in Dcd.
  pose proof (hd_tl_ne m HS _ K2) as Dda. rewrite Tda, Hda in Dda.
  assert (nx m ca = ab) as Nca by done. assert (pv m ca = bc) as Pca by done.
  assert (nx m ac = cd) as Nac by done. assert (pv m ac = da) as Pac by done.
  clear T1 T2 T3 U1 U2 U3.
  destruct (si_tw _ _ HS ab L1) as (Lx1 & Wx1 & _). destruct (si_tw _ _ HS bc L2) as (Lx2 & Wx2 & _).
  destruct (si_tw _ _ HS cd K1) as (Lx3 & Wx3 & _). destruct (si_tw _ _ HS da K2) as (Lx4 & Wx4 & _).
  assert (hd m (tw m ab) = a ∧ tl m (tw m ab) = b) as [Hx1 Tx1] by (unfold tl in *; by rewrite Wx1).
  assert (hd m (tw m bc) = b ∧ tl m (tw m bc) = c) as [Hx2 Tx2] by (unfold tl in *; by rewrite Wx2).
  assert (hd m (tw m cd) = c ∧ tl m (tw m cd) = d) as [Hx3 Tx3] by (unfold tl in *; by rewrite Wx3).
  assert (hd m (tw m da) = d ∧ tl m (tw m da) = a) as [Hx4 Tx4] by (unfold tl in *; by rewrite Wx4).
  clearbody a b c d. clearbody ac. clearbody ab bc cd da.
  remember (tw m ab) as eba eqn:Wab. remember (tw m bc) as ecb eqn:Wbc.
  remember (tw m cd) as edc eqn:Wcd. remember (tw m da) as ead eqn:Wda.
  symmetry in Wab, Wbc, Wcd, Wda.
  assert (∀ x y, tl m x ≠ tl m y ∨ hd m x ≠ hd m y → x ≠ y) as Hne.
  { intros x y [Hq|Hq] ->; done. }
  assert (ca ≠ ac ∧ ca ≠ cd ∧ ca ≠ da ∧ ab ≠ ac ∧ ab ≠ cd ∧ ab ≠ da ∧ bc ≠ ac ∧ bc ≠ cd ∧ bc ≠ da)
    as (A1&A2&A3&A4&A5&A6&A7&A8&A9).
  { split_and!; apply Hne; rewrite ?Tca, ?Tab, ?Tbc, ?Tac, ?Tcd, ?Tda, ?Hca, ?Hab, ?Hbc, ?Hac, ?Hcd, ?Hda;
      first [left; congruence | right; congruence]. }
  assert (eba ≠ ca ∧ eba ≠ ab ∧ eba ≠ bc ∧ eba ≠ ac ∧ eba ≠ cd ∧ eba ≠ da) as (X1&X2&X3&X4&X5&X6).
  { split_and!; apply Hne; rewrite ?Tx1, ?Hx1, ?Tca, ?Tab, ?Tbc, ?Tac, ?Tcd, ?Tda, ?Hca, ?Hab, ?Hbc, ?Hac, ?Hcd, ?Hda;
      first [left; congruence | right; congruence]. }
  assert (ecb ≠ ca ∧ ecb ≠ ab ∧ ecb ≠ bc ∧ ecb ≠ ac ∧ ecb ≠ cd ∧ ecb ≠ da) as (X7&X8&X9&X10&X11&X12).
  { split_and!; apply Hne; rewrite ?Tx2, ?Hx2, ?Tca, ?Tab, ?Tbc, ?Tac, ?Tcd, ?Tda, ?Hca, ?Hab, ?Hbc, ?Hac, ?Hcd, ?Hda;
      first [left; congruence | right; congruence]. }
  assert (edc ≠ ca ∧ edc ≠ ab ∧ edc ≠ bc ∧ edc ≠ ac ∧ edc ≠ cd ∧ edc ≠ da) as (X13&X14&X15&X16&X17&X18).
  { split_and!; apply Hne; rewrite ?Tx3, ?Hx3, ?Tca, ?Tab, ?Tbc, ?Tac, ?Tcd, ?Tda, ?Hca, ?Hab, ?Hbc, ?Hac, ?Hcd, ?Hda;
      first [left; congruence | right; congruence]. }
  assert (ead ≠ ca ∧ ead ≠ ab ∧ ead ≠ bc ∧ ead ≠ ac ∧ ead ≠ cd ∧ ead ≠ da) as (X19&X20&X21&X22&X23&X24).
  { split_and!; apply Hne; rewrite ?Tx4, ?Hx4, ?Tca, ?Tab, ?Tbc, ?Tac, ?Tcd, ?Tda, ?Hca, ?Hab, ?Hbc, ?Hac, ?Hcd, ?Hda;
      first [left; congruence | right; congruence]. }
  clear Hne.
  pose proof (L_lt m HS _ HL) as Ica. pose proof (L_lt m HS _ L1) as Iab. pose proof (L_lt m HS _ L2) as Ibc.
  pose proof (L_lt m HS _ HLt) as Iac. pose proof (L_lt m HS _ K1) as Icd. pose proof (L_lt m HS _ K2) as Ida.
  pose proof (L_lt m HS _ Lx1) as Ix1. pose proof (L_lt m HS _ Lx2) as Ix2. pose proof (L_lt m HS _ Lx3) as Ix3.
  pose proof (L_lt m HS _ Lx4) as Ix4.
  assert (∃ x, faces m !! f1 = Some x ∧ frem x = false) as (x1 & Hfx1 & Hr1) by (by apply (si_in _ _ HS ca)).
  assert (∃ x, faces m !! f2 = Some x ∧ frem x = false) as (x2 & Hfx2 & Hr2) by (by apply (si_in _ _ HS ac)).
  assert (f1 < nfaces m) as If1 by (apply (si_fb _ _ HS); eauto).
  assert (f2 < nfaces m) as If2 by (apply (si_fb _ _ HS); eauto).
  assert (a < nverts m) as Ia by (rewrite <- Hca; by apply (si_hd _ _ HS)).
  assert (b < nverts m) as Ib by (rewrite <- Hab; by apply (si_hd _ _ HS)).
  assert (c < nverts m) as Ic by (rewrite <- Hbc; by apply (si_hd _ _ HS)).
  assert (d < nverts m) as Id by (rewrite <- Hcd; by apply (si_hd _ _ HS)).
  assert (∀ h, L m h → tl m h ≠ w) as Hfresht.
  { intros h HLh. apply Hfresh. by apply (si_tw _ _ HS). }
  assert (a ≠ w) as Daw by (rewrite <- Hca; by apply Hfresh).
  assert (b ≠ w) as Dbw by (rewrite <- Hab; by apply Hfresh).
  assert (c ≠ w) as Dcw by (rewrite <- Hbc; by apply Hfresh).
  assert (d ≠ w) as Ddw by (rewrite <- Hcd; by apply Hfresh).
  set (n := nhes m) in *. set (F0 := nfaces m) in *.
  set (l := spl_cmds n F0 f1 f2 ca ab bc ac cd da eba ecb edc ead a b c d w).
  destruct (run_ok m l (SI_filled _ _ HS)) as (m' & Erun & Hfl & Enh & Enf & Env & Hhe & Hfc & Hvx & Hem).
  { unfold l, spl_cmds. cmdcbn. fold n F0. rewrite ?N.add_0_r.
    split_and!; first [exact I|assumption|apply lt_add_lt; assumption|clear -Hsz Hfz; lia]. }
  exists m'. split; [done|].
  assert (nhes m' = n + 8) as Enh' by exact Enh.
  assert (nfaces m' = F0 + 4) as Enf' by exact Enf.
  clear Enh Enf. fold n in Hhe. fold F0 in Hfc.
  assert (he m ca = mkHE a (Some f1) ab bc ac false) as Oca.
  { rewrite (he_row m ca HL). f_equal; congruence. }
  assert (he m ab = mkHE b (Some f1) bc ca eba false) as Oab.
  { rewrite (he_row m ab L1). f_equal; congruence. }
  assert (he m bc = mkHE c (Some f1) ca ab ecb false) as Obc.
  { rewrite (he_row m bc L2). f_equal; congruence. }
  assert (he m ac = mkHE c (Some f2) cd da ca false) as Oac.
  { rewrite (he_row m ac HLt). f_equal; congruence. }
  assert (he m cd = mkHE d (Some f2) da ac edc false) as Ocd.
  { rewrite (he_row m cd K1). f_equal; congruence. }
  assert (he m da = mkHE a (Some f2) ac cd ead false) as Oda.
  { rewrite (he_row m da K2). f_equal; congruence. }
  assert (he m' ca = mkHE a (Some f1) ab bc ac true) as Rca.
  { rewrite Hhe, Oca. unfold l, spl_cmds. cmdcbn. hsteps. by hfields. }
  assert (he m' ac = mkHE c (Some f2) cd da ca true) as Rac.
  { rewrite Hhe, Oac. unfold l, spl_cmds. cmdcbn. hsteps. by hfields. }
  assert (he m' ab = mkHE b (Some (F0 + 1)) (n + 3) (n + 2) eba false) as Rab.
  { rewrite Hhe, Oab. unfold l, spl_cmds. cmdcbn. hsteps. by hfields. }
  assert (he m' bc = mkHE c (Some (F0 + 0)) (n + 1) (n + 0) ecb false) as Rbc.
  { rewrite Hhe, Obc. unfold l, spl_cmds. cmdcbn. hsteps. by hfields. }
  assert (he m' cd = mkHE d (Some (F0 + 2)) (n + 5) (n + 4) edc false) as Rcd.
  { rewrite Hhe, Ocd. unfold l, spl_cmds. cmdcbn. hsteps. by hfields. }
  assert (he m' da = mkHE a (Some (F0 + 3)) (n + 7) (n + 6) ead false) as Rda.
  { rewrite Hhe, Oda. unfold l, spl_cmds. cmdcbn. hsteps. by hfields. }
  assert (he m' (n + 0) = mkHE b (Some (F0 + 0)) bc (n + 1) (n + 3) false) as R0.
  { rewrite Hhe. unfold l, spl_cmds. cmdcbn. hsteps. by hfields. }
  assert (he m' (n + 1) = mkHE w (Some (F0 + 0)) (n + 0) bc (n + 4) false) as R1.
  { rewrite Hhe. unfold l, spl_cmds. cmdcbn. hsteps. by hfields. }
  assert (he m' (n + 2) = mkHE a (Some (F0 + 1)) ab (n + 3) (n + 7) false) as R2.
  { rewrite Hhe. unfold l, spl_cmds. cmdcbn. hsteps. by hfields. }
  assert (he m' (n + 3) = mkHE w (Some (F0 + 1)) (n + 2) ab (n + 0) false) as R3.
  { rewrite Hhe. unfold l, spl_cmds. cmdcbn. hsteps. by hfields. }
  assert (he m' (n + 4) = mkHE c (Some (F0 + 2)) cd (n + 5) (n + 1) false) as R4.
  { rewrite Hhe. unfold l, spl_cmds. cmdcbn. hsteps. by hfields. }
  assert (he m' (n + 5) = mkHE w (Some (F0 + 2)) (n + 4) cd (n + 6) false) as R5.
  { rewrite Hhe. unfold l, spl_cmds. cmdcbn. hsteps. by hfields. }
  assert (he m' (n + 6) = mkHE d (Some (F0 + 3)) da (n + 7) (n + 5) false) as R6.
  { rewrite Hhe. unfold l, spl_cmds. cmdcbn. hsteps. by hfields. }
  assert (he m' (n + 7) = mkHE w (Some (F0 + 3)) (n + 6) da (n + 2) false) as R7.
  { rewrite Hhe. unfold l, spl_cmds. cmdcbn. hsteps. by hfields. }
  pose proof (row_nL _ _ _ _ _ _ _ Hfl Rca) as nLca. pose proof (row_nL _ _ _ _ _ _ _ Hfl Rac) as nLac.
  row Rca; row Rac; row Rab; row Rbc; row Rcd; row Rda.
  row R0; row R1; row R2; row R3; row R4; row R5; row R6; row R7.
  rowL Rab Enh'; rowL Rbc Enh'; rowL Rcd Enh'; rowL Rda Enh'.
  rowL R0 Enh'; rowL R1 Enh'; rowL R2 Enh'; rowL R3 Enh'; rowL R4 Enh'; rowL R5 Enh'; rowL R6 Enh'; rowL R7 Enh'.
  set (N8 h := h = n + 0 ∨ h = n + 1 ∨ h = n + 2 ∨ h = n + 3 ∨ h = n + 4 ∨ h = n + 5 ∨ h = n + 6 ∨ h = n + 7).
  set (D h := h = ca ∨ h = ac).
  set (Q h := h = ab ∨ h = bc ∨ h = cd ∨ h = da).
  set (X h := D h ∨ Q h ∨ N8 h).
  assert (∀ h, h < n + 8 → h < n ∨ N8 h) as Hlt8.
  { intros h. unfold N8. clear. lia. }
  assert (∀ h, h < n → ¬ N8 h) as HN8.
  { intros h. unfold N8. clear. lia. }
  assert (∀ h, X h ∨ ¬ X h) as Xdec.
  { intros h. unfold X, D, Q, N8. clear. lia. }
  assert (∀ h, D h ∨ ¬ D h) as Ddec.
  { intros h. unfold D. clear. lia. }
  assert (∀ h, L m h → tw m h = eba → h = ab) as Back1.
  { intros h HLh E. destruct (si_tw _ _ HS h HLh) as (_&B&_). congruence. }
  assert (∀ h, ¬ X h → he m' h = he m h) as Hun.
  { intros h HXh. rewrite Hhe. apply hrun_same. unfold l, spl_cmds. cmdcbn.
    assert (h ≠ ca ∧ h ≠ ac ∧ h ≠ ab ∧ h ≠ bc ∧ h ≠ cd ∧ h ≠ da ∧
      h ≠ n + 0 ∧ h ≠ n + 1 ∧ h ≠ n + 2 ∧ h ≠ n + 3 ∧ h ≠ n + 4 ∧ h ≠ n + 5 ∧ h ≠ n + 6 ∧ h ≠ n + 7)
      as (?&?&?&?&?&?&?&?&?&?&?&?&?&?) by (clear -HXh; unfold X, D, Q, N8 in HXh; tauto).
    assert (∀ x k, tw m k = x → with_twin x (he m k) = he m k) as Hsame.
    { intros x k <-. unfold tw, with_twin. by destruct (he m k). }
    split_and!; first [exact I | assumption | intros ?; contradiction | intros ->; by apply Hsame]. }
  assert (∀ h, ¬ X h → hd m' h = hd m h ∧ nx m' h = nx m h ∧ pv m' h = pv m h ∧ tw m' h = tw m h ∧ fc m' h = fc m h) as Hunf.
  { intros h HXh. unfold hd, nx, pv, tw, fc. by rewrite Hun. }
  assert (∀ h, ¬ X h → L m' h ↔ L m h) as HunL.
  { intros h HXh. rewrite !filled_L by (done || by eapply SI_filled). rewrite Hun, Enh' by done.
    fold n. split; intros [? ?]; split; try done.
    - destruct (Hlt8 h); [done|done|]. exfalso. apply HXh. unfold X. tauto.
    - by apply lt_add_lt. }
  assert (∀ h, h < n → hd m' h = hd m h ∧ tw m' h = tw m h) as Hold.
  { intros h Hh. destruct (Xdec h) as [HXh|HXh]; [|by destruct (Hunf h HXh) as (?&?&?&?&?)].
    destruct HXh as [[->| ->]|[[->|[->|[->| ->]]]|HXh]]; [rwm m'; split; congruence..|]. by apply HN8 in HXh. }
  assert (∀ h, L m h → ¬ D h → L m' h) as HoldL.
  { intros h HLh HD. destruct (Xdec h) as [HXh|HXh]; [|by apply HunL].
    destruct HXh as [?|[[->|[->|[->| ->]]]|HXh]]; try done. exfalso. by eapply HN8, HXh; apply (L_lt m HS). }
  assert (¬ D ab ∧ ¬ D bc ∧ ¬ D cd ∧ ¬ D da) as (nDab&nDbc&nDcd&nDda).
  { unfold D. split_and!; intros [E|E]; first [contradiction|symmetry in E; contradiction]. }
  assert (∀ h, L m' h → L m h ∧ ¬ D h ∨ N8 h) as HL'.
  { intros h HLh. destruct (Xdec h) as [HXh|HXh].
    - destruct HXh as [[->| ->]|[[->|[->|[->| ->]]]|HXh]]; [done|done|..|by right]; left;
        (split; [done|]); assumption.
    - left. split; [by apply HunL|]. intros ?. apply HXh. by left. }
  assert (∀ h, L m h → ¬ D h → ¬ D (tw m h)) as HDtw.
  { intros h HLh HD. destruct (si_tw _ _ HS h HLh) as (_&B&_). unfold D in *.
    intros [E|E]; rewrite E in B; apply HD; [right|left]; congruence. }
  assert (∀ h, L m h → tl m' h = tl m h) as Htl.
  { intros h HLh. unfold tl. destruct (Hold h) as [_ ->]; [by apply (L_lt m HS)|].
    apply Hold. apply (L_lt m HS). by apply (si_tw _ _ HS). }
  assert (∀ h, L m h → hd m' h = hd m h) as Hhd.
  { intros h HLh. apply Hold. by apply (L_lt m HS). }
  assert (∀ h, N8 h → L m' h ∧ L m' (tw m' h) ∧ tw m' (tw m' h) = h ∧ hd m' (tw m' h) ≠ hd m' h) as HN8tw.
  { intros h [->|[->|[->|[->|[->|[->|[->| ->]]]]]]]; rwm m'; (split; [assumption|split; [assumption|split; [reflexivity|]]]);
      first [assumption|apply not_eq_sym; assumption]. }
  pose proof (Htl ab L1) as Tab'. pose proof (Htl bc L2) as Tbc'. pose proof (Htl cd K1) as Tcd'. pose proof (Htl da K2) as Tda'.
  rewrite Tab in Tab'. rewrite Tbc in Tbc'. rewrite Tcd in Tcd'. rewrite Tda in Tda'.
  assert (tl m' (n + 0) = w ∧ tl m' (n + 2) = w ∧ tl m' (n + 4) = w ∧ tl m' (n + 6) = w) as (Tn0&Tn2&Tn4&Tn6).
  { unfold tl; rwm m'. done. }
  assert (tl m' (n + 1) = c ∧ tl m' (n + 3) = b ∧ tl m' (n + 5) = d ∧ tl m' (n + 7) = a) as (Tn1&Tn3&Tn5&Tn7).
  { unfold tl; rwm m'. done. }
  assert (faces m' !! (F0 + 0) = Some (mkFC (n + 0) false)) as G0.
  { rewrite Hfc. unfold l, spl_cmds. cmdcbn. hsteps. reflexivity. }
  assert (faces m' !! (F0 + 1) = Some (mkFC (n + 2) false)) as G1.
  { rewrite Hfc. unfold l, spl_cmds. cmdcbn. hsteps. reflexivity. }
  assert (faces m' !! (F0 + 2) = Some (mkFC (n + 4) false)) as G2.
  { rewrite Hfc. unfold l, spl_cmds. cmdcbn. hsteps. reflexivity. }
  assert (faces m' !! (F0 + 3) = Some (mkFC (n + 6) false)) as G3.
  { rewrite Hfc. unfold l, spl_cmds. cmdcbn. hsteps. reflexivity. }
  assert (faces m' !! f1 = Some (mkFC (fhe x1) true)) as Gf1.
  { rewrite Hfc, Hfx1. unfold l, spl_cmds. cmdcbn. hsteps. reflexivity. }
  assert (faces m' !! f2 = Some (mkFC (fhe x2) true)) as Gf2.
  { rewrite Hfc, Hfx2. unfold l, spl_cmds. cmdcbn. hsteps. reflexivity. }
  assert (∀ g, g ≠ f1 → g ≠ f2 → g ≠ F0 + 0 → g ≠ F0 + 1 → g ≠ F0 + 2 → g ≠ F0 + 3 → faces m' !! g = faces m !! g) as Gun.
  { intros g ??????. rewrite Hfc. unfold l, spl_cmds. cmdcbn. hsteps. reflexivity. }
  assert (∀ v, v ≠ w → v ≠ a → v ≠ b → v ≠ c → v ≠ d → verts m' !! v = verts m !! v) as Vun.
  { intros v ?????. rewrite Hvx. unfold l, spl_cmds. cmdcbn. hsteps. reflexivity. }
  assert (∀ v h x, (v, h) = (w, n + 0) ∨ (v, h) = (a, ab) ∨ (v, h) = (b, bc) ∨ (v, h) = (c, cd) ∨ (v, h) = (d, da) →
     verts m !! v = Some x → verts m' !! v = Some (mkVX (vpos x) (Some h) (vrem x))) as Vn.
  { intros v h x Hv Hx0. rewrite Hvx, Hx0. unfold l, spl_cmds. cmdcbn.
    destruct Hv as [Hv|[Hv|[Hv|[Hv|Hv]]]]; injection Hv as -> ->; hsteps; reflexivity. }
  assert (VI m') as HVI'.
  { intros v x Hv. assert (is_Some (verts m !! v)) as [x0 Hx0].
    { apply (si_vb _ _ HS). rewrite <- Env. apply (fl_v _ Hfl). by eexists. }
    destruct (decide (v = w)) as [->|]; [|destruct (decide (v = a)) as [->|];
      [|destruct (decide (v = b)) as [->|]; [|destruct (decide (v = c)) as [->|]; [|destruct (decide (v = d)) as [->|]]]]].
    1: rewrite (Vn w (n + 0) x0) in Hv by auto.
    2: rewrite (Vn a ab x0) in Hv by auto.
    3: rewrite (Vn b bc x0) in Hv by auto.
    4: rewrite (Vn c cd x0) in Hv by auto.
    5: rewrite (Vn d da x0) in Hv by auto 9.
    1-5: injection Hv as <-; cbn; by auto.
    rewrite Vun in Hv by done. pose proof (wf_vi _ HW v x Hv) as HV. destruct (vhe x) as [h|].
    - destruct HV as [? <-]. split; [|by apply Htl]. apply HoldL; [done|]. intros [->| ->]; contradiction.
    - intros h HLh. destruct (HL' h HLh) as [[HLo _]|HN]; [rewrite Htl by done; by apply HV|].
      destruct HN as [->|[->|[->|[->|[->|[->|[->| ->]]]]]]];
        match goal with |- tl m' ?x ≠ _ => match goal with H : tl m' x = _ |- _ => rewrite H end end; by apply not_eq_sym. }
  assert (WF m') as HW'.
  { eapply (surgery m m' X (λ g, g = f1 ∨ g = f2) (λ g, g = F0 + 0 ∨ g = F0 + 1 ∨ g = F0 + 2 ∨ g = F0 + 3)).
    - done.
    - done.
    - by rewrite Enh'.
    - by rewrite Enf'.
    - rewrite Enh'. fold n. clear. lia.
    - by rewrite Env.
    - rewrite Env. apply (si_vmax _ _ HS).
    - done.
    - intros h HXh. split; [by apply Hun|by apply HunL].
    - intros h HXh HLh. destruct HXh as [[->| ->]|[[->|[->|[->| ->]]]|HXh]].
      7: exfalso; by eapply HN8, HXh; apply (L_lt m HS).
      all: eexists; (split; [eassumption|by auto]).
    - intros h g HLh Hfh [-> | ->].
      + destruct (face_cycle m HS ca h f1 (wf_fh _ HW) HL HLh Hf Hfh) as [->|[->| ->]]; unfold X, D, Q;
          rewrite ?Nca, ?Pca; by auto 9.
      + destruct (face_cycle m HS ac h f2 (wf_fh _ HW) HLt HLh Hft Hfh) as [->|[->| ->]]; unfold X, D, Q;
          rewrite ?Nac, ?Pac; by auto 9.
    - intros g Hg Hg'. apply Gun; intros ->; first [apply Hg; by auto|apply Hg'; by auto].
    - intros g [->| ->] _; by eexists.
    - intros g Hg. right. fold F0. clear -Hg. lia.
    - intros g [->|[->|[->| ->]]]; [exists (n + 0)|exists (n + 2)|exists (n + 4)|exists (n + 6)];
        (split; [done|split; [done|split; [unfold X, N8; by auto 12|split; [done|]]]]);
        intros h HXh HLh Hq; destruct HXh as [[->| ->]|[[->|[->|[->| ->]]]|[->|[->|[->|[->|[->|[->|[->| ->]]]]]]]]];
        first [contradiction | known_face Hq; rwm m'; first [ by auto | ne_faces Hq]].
    - intros h HXh HLh. destruct HXh as [[->| ->]|[HXh|HXh]]; [done|done|..].
      2: { destruct (HN8tw h HXh) as (?&?&?&?). split_and!; try done. rewrite Env.
           destruct HXh as [->|[->|[->|[->|[->|[->|[->| ->]]]]]]]; by rwm m'. }
      assert (L m h ∧ ¬ D h) as [HLo HDo].
      { destruct (HL' h HLh) as [?|HN]; [done|]. exfalso.
        destruct HXh as [->|[->|[->| ->]]]; by eapply HN8, HN. }
      destruct (si_tw _ _ HS h HLo) as (B1&B2&B3).
      destruct (Hold h (L_lt m HS _ HLo)) as [-> ->]. destruct (Hold _ (L_lt m HS _ B1)) as [-> ->].
      split_and!; [apply HoldL; [done|by apply HDtw]|done|done|]. rewrite Env. by apply (si_hd _ _ HS).
    - intros h HXh HLh. fold (tl m' (nx m' h)).
      destruct HXh as [[->| ->]|[[->|[->|[->| ->]]]|[->|[->|[->|[->|[->|[->|[->| ->]]]]]]]]]; [done|done|..]; rwm m'; eexists;
        (split; [reflexivity|]); (split; [by auto|]); (split; [unfold X, Q, N8; by auto 12|]); (split; [unfold X, Q, N8; by auto 12|]);
        split_and!; first [assumption|reflexivity].
    - intros h HXh HLh HXt. destruct (si_tw _ _ HS h HLh) as (B1&B2&B3).
      destruct (Hold _ (L_lt m HS _ B1)) as [-> ->]. split; [|done]. apply HoldL; [done|].
      apply HDtw; [done|]. intros HD. apply HXh. by left.
    - intros u v h. rewrite Hem. unfold l, spl_cmds. cmdcbn. fold (tl m' h). split.
      + rewrite !lookup_delete_Some, !lookup_insert_Some.
        intros [Z1 [Z2 Z]]. revert Z.
        intros [[E <-]|[_ [[E <-]|[_ [[E <-]|[_ [[E <-]|[_ [[E <-]|[_ [[E <-]|[_ [[E <-]|[_ [[E <-]|[_ E]]]]]]]]]]]]]]]].
        1-8: injection E as <- <-; split_and!; assumption.
        apply (si_em _ _ HS) in E as (B1&B2&B3). fold (tl m h) in B3.
        rewrite Hhd, Htl by done. split; [|done]. apply HoldL; [done|].
        intros [->| ->]; [apply Z2|apply Z1]; congruence.
      + intros (HLh&Eh&Et). destruct (HL' h HLh) as [[HLo HDo]|HN].
        * rewrite Hhd in Eh by done. rewrite Htl in Et by done.
          assert (v ≠ w) by (rewrite <- Eh; by apply Hfresh).
          assert (u ≠ w) by (rewrite <- Et; by apply Hfresht).
          rewrite !lookup_delete_ne, !lookup_insert_ne; [by apply (si_em _ _ HS)|..].
          all: intros Eq; injection Eq as <- <-; try contradiction.
          -- apply HDo. left. apply (em_inj m None); [done|done|done|congruence|congruence].
          -- apply HDo. right. apply (em_inj m None); [done|done|done|congruence|congruence].
        * assert ((u, v) ≠ (a, c) ∧ (u, v) ≠ (c, a)) as [Y1 Y2].
          { destruct HN as [->|[->|[->|[->|[->|[->|[->| ->]]]]]]]; split; congruence. }
          rewrite !lookup_delete_ne by (by apply not_eq_sym).
          destruct HN as [->|[->|[->|[->|[->|[->|[->| ->]]]]]]];
          clear Y1 Y2; revert Et Eh; match goal with |- context [Some (n + ?i)] => match goal with
             H1 : tl m' (n + i) = _, H2 : hd m' (n + i) = _ |- _ => rewrite H1, H2 end end;
             intros <- <-; rewrite ?lookup_insert_ne by (intros Eq; injection Eq; intros; congruence); apply lookup_insert.
    - apply (fan_transfer m m' D); [done|..].
      + intros h HLh [E|E]; [right|left]; (destruct (si_tw _ _ HS h HLh) as (_&B2&_); congruence).
      + intros h [->| ->]; congruence.
      + intros h HLh HnD. destruct (Hold h (L_lt m HS _ HLh)) as [_ ->]. split; [done|].
        destruct (Xdec h) as [HXh|HXh]; [|by destruct (Hunf h HXh) as (_&_&_&_&->)].
        destruct HXh as [?|[[->|[->|[->| ->]]]|HXh]]; [contradiction|..].
        5: exfalso; by eapply HN8, HXh; apply (L_lt m HS).
        all: rwm m'; split; congruence.
      + intros t HIt HnD. destruct (Xdec t) as [HXh|HXh].
        * destruct HXh as [?|[[->|[->|[->| ->]]]|HXh]]; [contradiction|..].
          5: exfalso; eapply HN8, HXh; apply (L_lt m HS), HIt.
          -- exists da, 1%nat, 1%nat. split; [split; congruence|]. split; [done|]. split.
             ++ apply hop_S; rewrite N3, Wca; [congruence|]. rewrite <- Pac. apply hop_1.
             ++ apply hop_S; rwm m'; [congruence|]. replace da with (pv m' (n + 7)). apply hop_1.
          -- exists ab, 0%nat, 1%nat. split; [split; congruence|]. split; [done|]. split.
             ++ replace ab with (pv m bc). apply hop_1.
             ++ apply hop_S; rwm m'; [congruence|]. replace ab with (pv m' (n + 3)). apply hop_1.
          -- exists bc, 1%nat, 1%nat. split; [split; congruence|]. split; [done|]. split.
             ++ apply hop_S; rewrite M3, Htt; [congruence|]. rewrite <- Pca. apply hop_1.
             ++ apply hop_S; rwm m'; [congruence|]. replace bc with (pv m' (n + 1)). apply hop_1.
          -- exists cd, 0%nat, 1%nat. split; [split; congruence|]. split; [done|]. split.
             ++ replace cd with (pv m da). apply hop_1.
             ++ apply hop_S; rwm m'; [congruence|]. replace cd with (pv m' (n + 5)). apply hop_1.
        * exists (pv m t), 0%nat, 0%nat. split; [by apply (In_pv m HS)|]. split.
          { destruct HIt as [HLt' Hft']. destruct (fc m t) as [g|] eqn:Eg; [|done].
            destruct (face3 m HS _ _ HLt' Eg) as (_&_&_&_&_&Qn&_).
            intros [E|E]; rewrite E in Qn; apply HXh; unfold X, Q; [rewrite Nca in Qn|rewrite Nac in Qn]; subst t; by auto 9. }
          split; [apply hop_1|]. destruct (Hunf t HXh) as (_&_&<-&_&_). apply hop_1.
    - done. }
  pose proof (wf_si _ HW') as HS'.
  split.
  - done.
  - intros (x & E & Hr). rewrite Gf1 in E. by injection E as <-.
  - intros (x & E & Hr). rewrite Gf2 in E. by injection E as <-.
  - rewrite <- (N.add_0_r (nfaces m)). fold F0. apply oriented_face_L; [done|]. exists (n + 0). rwm m'. by auto.
  - apply oriented_face_L; [done|]. exists (n + 2). rwm m'. by auto.
  - apply oriented_face_L; [done|]. exists (n + 4). rwm m'. by auto.
  - apply oriented_face_L; [done|]. exists (n + 6). rwm m'. by auto.
  - intros g a' b' c' Hg Hg' Hlt. apply same_oriented; [done|done| |].
    + apply Gun; [done|done|apply lt_add_ne; assumption..].
    + intros h HLh Hfh. assert (¬ X h) as HXh.
      { intros [[->| ->]|[[->|[->|[->| ->]]]|HN]]; [congruence..|]. eapply HN8, HN. by apply (L_lt m HS). }
      destruct (Hunf h HXh) as (?&?&?&?&?). split_and!; try congruence; [|by apply Htl].
      apply HoldL; [done|]. intros ?. apply HXh. by left.
  - done.
  - apply same_positions_intro; [done..|]. intros v x Hv.
    destruct (decide (v = w)) as [->|]; [|destruct (decide (v = a)) as [->|];
      [|destruct (decide (v = b)) as [->|]; [|destruct (decide (v = c)) as [->|]; [|destruct (decide (v = d)) as [->|]]]]].
    6: exists x; by rewrite Vun.
    1: rewrite (Vn w (n + 0) x) by auto.
    2: rewrite (Vn a ab x) by auto.
    3: rewrite (Vn b bc x) by auto.
    4: rewrite (Vn c cd x) by auto.
    5: rewrite (Vn d da x) by auto 9.
    all: eexists; split; [reflexivity|done].
  - intros h HLh Hlt. destruct (HL' h HLh) as [[HLo _]|HN]; [|exfalso; by eapply HN8, HN].
    split; [done|]. split; [by apply Hhd|by apply Htl].
Qed.
End split_edge.
