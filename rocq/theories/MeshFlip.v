(** flip_edge. *)
From Verif Require Export MeshEdit.
Local Open Scope N_scope.

Section flip.
Context {P : Type}.
Implicit Types (m : mesh P) (h k a b c d f g u v e t : N).

Definition flip_cmds f0 f1 ab bc ca ba ad db a b c d : list (cmd (P:=P)) :=
  [ Hv ab d; Hv ba c;
    Hface ad f0; Hface ba f0; Hface ca f0;
    Hface bc f1; Hface ab f1; Hface db f1;
    Hnext ad ba; Hnext ba ca; Hnext ca ad;
    Hprev ba ad; Hprev ca ba; Hprev ad ca;
    Hnext bc ab; Hnext ab db; Hnext db bc;
    Hprev ab bc; Hprev db ab; Hprev bc db;
    Fhe f0 ad; Fhe f1 bc;
    MapRemove (a, b); MapRemove (b, a);
    MapInsert (c, d) ab; MapInsert (d, c) ba;
    Vrepl a ab ad; Vrepl b ba bc;
    Vor c ca; Vor d db ].

Record Flipped m h f0 f1 a b c d m' : Prop := {
  fl_wf : WF m';
  fl_0 : oriented_face m' f0 a d c;
  fl_1 : oriented_face m' f1 b c d;
  fl_h : runs m' h c d;
  fl_rest : ∀ g a' b' c', g ≠ f0 → g ≠ f1 → (oriented_face m' g a' b' c' ↔ oriented_face m g a' b' c');
  fl_size : nfaces m' = nfaces m ∧ nhes m' = nhes m;
  fl_pos : same_positions m m'
}.

Lemma flip_cmds_ok m ab f0 f1 : WF m → L m ab → fc m ab = Some f0 → fc m (tw m ab) = Some f1 →
  let ba := tw m ab in let bc := nx m ab in let ca := pv m ab in
  let ad := nx m ba in let db := pv m ba in
  let a := tl m ab in let b := hd m ab in let c := hd m bc in let d := hd m ad in
  c ≠ d → (∀ h, L m h → tl m h = c → hd m h = d → False) → (∀ h, L m h → tl m h = d → hd m h = c → False) →
  ∃ m', run m (flip_cmds f0 f1 ab bc ca ba ad db a b c d) = Some m' ∧
    Flipped m ab f0 f1 a b c d m'.
Proof.
  intros HW HL Hf Hft ba bc ca ad db a b c d Dcd Hcd Hdc. pose proof (wf_si _ HW) as HS.
  assert (f0 ≠ f1) as Dff.
  { intros <-. by apply (no_self_glue m HS ab f0 (wf_fh _ HW) HL Hf). }
  destruct (si_tw _ _ HS ab HL) as (HLt & Htt & _). fold ba in HLt, Htt, Hft.
  destruct (face3 m HS _ _ HL Hf) as (L1&L2&F1&F2&N1&N2&N3&N4&T1&T2&T3&D1&D2&D3).
  destruct (face3 m HS _ _ HLt Hft) as (K1&K2&J1&J2&M1&M2&M3&M4&U1&U2&U3&E1&E2&E3).
  fold bc in L1, F1, N1, N3, N4, T1, T2, D1, D3. fold ca in L2, F2, N1, N2, N4, T2, T3, D2, D3.
  fold ad in K1, J1, M1, M3, M4, U1, U2, E1, E3. fold db in K2, J2, M1, M2, M4, U2, U3, E2, E3.
  assert (tl m ba = b ∧ hd m ba = a) as [Tba Hba].
  { unfold tl. rewrite Htt. done. }
  assert (hd m ca = a) as Hca by (by rewrite <- T3).
  assert (hd m db = b) as Hdb by (by rewrite <- U3).
  assert (tl m bc = b) as Tbc by done. assert (tl m ca = c) as Tca by done.
  assert (tl m ad = a) as Tad by congruence. assert (tl m db = d) as Tdb by done.
  assert (tl m ab = a) as Tab by done. assert (hd m ab = b) as Hab by done.
  assert (hd m bc = c) as Hbc by done. assert (hd m ad = d) as Had by done.
  assert (tw m ab = ba) as Wab by done.
  pose proof (hd_tl_ne m HS _ HL) as Dab. rewrite Tab, Hab in Dab.
  pose proof (hd_tl_ne m HS _ L1) as Dbc. rewrite Tbc, Hbc in Dbc.
  pose proof (hd_tl_ne m HS _ L2) as Dca. rewrite Tca, Hca in Dca.
  pose proof (hd_tl_ne m HS _ K1) as Dad. rewrite Tad, Had in Dad.
  pose proof (hd_tl_ne m HS _ K2) as Ddb. rewrite Tdb, Hdb in Ddb.
  assert (nx m ab = bc) as Nab by done. assert (pv m ab = ca) as Pab by done.
  assert (nx m ba = ad) as Nba by done. assert (pv m ba = db) as Pba by done.
  clear T1 T2 T3 U1 U2 U3.
  clearbody a b c d. clearbody ba. clearbody bc ca ad db.
  assert (∀ x y, L m x → L m y → fc m x = Some f0 → fc m y = Some f1 → x ≠ y ∧ y ≠ x) as Hne2.
  { intros x y _ _ ??. split; congruence. }
  destruct (Hne2 ab ba) as [A1 A1']; [done..|]. destruct (Hne2 ab ad) as [A2 A2']; [done..|].
  destruct (Hne2 ab db) as [A3 A3']; [done..|]. destruct (Hne2 bc ba) as [A4 A4']; [done..|].
  destruct (Hne2 bc ad) as [A5 A5']; [done..|]. destruct (Hne2 bc db) as [A6 A6']; [done..|].
  destruct (Hne2 ca ba) as [A7 A7']; [done..|]. destruct (Hne2 ca ad) as [A8 A8']; [done..|].
  destruct (Hne2 ca db) as [A9 A9']; [done..|]. clear Hne2.
  pose proof (L_lt m HS _ HL) as Iab. pose proof (L_lt m HS _ L1) as Ibc. pose proof (L_lt m HS _ L2) as Ica.
  pose proof (L_lt m HS _ HLt) as Iba. pose proof (L_lt m HS _ K1) as Iad. pose proof (L_lt m HS _ K2) as Idb.
  assert (∃ x, faces m !! f0 = Some x ∧ frem x = false) as (x0 & Hx0 & Hr0) by (by apply (si_in _ _ HS ab)).
  assert (∃ x, faces m !! f1 = Some x ∧ frem x = false) as (x1 & Hx1 & Hr1) by (by apply (si_in _ _ HS ba)).
  assert (f0 < nfaces m) as If0 by (apply (si_fb _ _ HS); eauto).
  assert (f1 < nfaces m) as If1 by (apply (si_fb _ _ HS); eauto).
  assert (a < nverts m) as Ia by (rewrite <- Hba; by apply (si_hd _ _ HS)).
  assert (b < nverts m) as Ib by (rewrite <- Hab; by apply (si_hd _ _ HS)).
  assert (c < nverts m) as Ic by (rewrite <- Hbc; by apply (si_hd _ _ HS)).
  assert (d < nverts m) as Id by (rewrite <- Had; by apply (si_hd _ _ HS)).
  set (l := flip_cmds f0 f1 ab bc ca ba ad db a b c d).
  destruct (run_ok m l (SI_filled _ _ HS)) as (m' & Erun & Hfl & Enh & Enf & Env & Hhe & Hfc & Hvx & Hem).
  { unfold l, flip_cmds. cmdcbn. rewrite !N.add_0_r. split_and!; first [exact I|assumption]. }
  exists m'. split; [done|].
  assert (nhes m' = nhes m) as Enh' by (rewrite Enh; apply N.add_0_r).
  assert (nfaces m' = nfaces m) as Enf' by (rewrite Enf; apply N.add_0_r).
  clear Enh Enf.
  assert (he m ab = mkHE b (Some f0) bc ca ba false) as Oab.
  { rewrite (he_row m ab HL). f_equal; congruence. }
  assert (he m bc = mkHE c (Some f0) ca ab (tw m bc) false) as Obc.
  { rewrite (he_row m bc L1). f_equal; congruence. }
  assert (he m ca = mkHE a (Some f0) ab bc (tw m ca) false) as Oca.
  { rewrite (he_row m ca L2). f_equal; congruence. }
  assert (he m ba = mkHE a (Some f1) ad db ab false) as Oba.
  { rewrite (he_row m ba HLt). f_equal; congruence. }
  assert (he m ad = mkHE d (Some f1) db ba (tw m ad) false) as Oad.
  { rewrite (he_row m ad K1). f_equal; congruence. }
  assert (he m db = mkHE b (Some f1) ba ad (tw m db) false) as Odb.
  { rewrite (he_row m db K2). f_equal; congruence. }
  assert (he m' ab = mkHE d (Some f1) db bc ba false) as Rab.
  { rewrite Hhe, Oab. unfold l, flip_cmds. cmdcbn. hsteps. by hfields. }
  assert (he m' ba = mkHE c (Some f0) ca ad ab false) as Rba.
  { rewrite Hhe, Oba. unfold l, flip_cmds. cmdcbn. hsteps. by hfields. }
  assert (he m' ad = mkHE d (Some f0) ba ca (tw m ad) false) as Rad.
  { rewrite Hhe, Oad. unfold l, flip_cmds. cmdcbn. hsteps. by hfields. }
  assert (he m' ca = mkHE a (Some f0) ad ba (tw m ca) false) as Rca.
  { rewrite Hhe, Oca. unfold l, flip_cmds. cmdcbn. hsteps. by hfields. }
  assert (he m' bc = mkHE c (Some f1) ab db (tw m bc) false) as Rbc.
  { rewrite Hhe, Obc. unfold l, flip_cmds. cmdcbn. hsteps. by hfields. }
  assert (he m' db = mkHE b (Some f1) bc ab (tw m db) false) as Rdb.
  { rewrite Hhe, Odb. unfold l, flip_cmds. cmdcbn. hsteps. by hfields. }
  row Rab; row Rba; row Rad; row Rca; row Rbc; row Rdb.
  rowL Rab Enh'; rowL Rba Enh'; rowL Rad Enh'; rowL Rca Enh'; rowL Rbc Enh'; rowL Rdb Enh'.
  set (X h := h = ab ∨ h = ba ∨ h = ad ∨ h = ca ∨ h = bc ∨ h = db).
  assert (∀ h, X h ∨ ¬ X h) as Xdec.
  { intros h. unfold X. clear. lia. }
  assert (∀ h, ¬ X h → he m' h = he m h) as Hun.
  { intros h HXh. rewrite Hhe. apply hrun_not. unfold l, flip_cmds. cmdcbn.
    assert (h ≠ ab ∧ h ≠ bc ∧ h ≠ ca ∧ h ≠ ba ∧ h ≠ ad ∧ h ≠ db)
      as (?&?&?&?&?&?) by (clear -HXh; unfold X in HXh; tauto).
    split_and!; first [exact I | assumption]. }
  assert (∀ h, ¬ X h → hd m' h = hd m h ∧ nx m' h = nx m h ∧ pv m' h = pv m h ∧ tw m' h = tw m h ∧ fc m' h = fc m h) as Hunf.
  { intros h HXh. unfold hd, nx, pv, tw, fc. by rewrite Hun. }
  assert (∀ h, L m' h ↔ L m h) as HLiff.
  { intros h. destruct (Xdec h) as [HXh|HXh].
    - destruct HXh as [->|[->|[->|[->|[->| ->]]]]]; done.
    - rewrite !filled_L by (done || by eapply SI_filled). by rewrite Hun, Enh'. }
  assert (∀ h, tw m' h = tw m h) as Htw.
  { intros h. destruct (Xdec h) as [HXh|HXh]; [|by destruct (Hunf h HXh) as (?&?&?&?&?)].
    destruct HXh as [->|[->|[->|[->|[->| ->]]]]]; congruence. }
  assert (∀ h, h ≠ ab → h ≠ ba → hd m' h = hd m h) as Hhd.
  { intros h ??. destruct (Xdec h) as [HXh|HXh]; [|by destruct (Hunf h HXh) as (?&?&?&?&?)].
    destruct HXh as [->|[->|[->|[->|[->| ->]]]]]; congruence. }
  assert (∀ h, L m h → h ≠ ab → h ≠ ba → tl m' h = tl m h) as Htl.
  { intros h HLh ??. unfold tl. rewrite Htw. destruct (si_tw _ _ HS h HLh) as (?&?&?).
    apply Hhd; congruence. }
  assert (tl m' ab = c) as Tab' by (unfold tl; congruence).
  assert (tl m' ba = d) as Tba' by (unfold tl; congruence).
  pose proof (Htl bc L1 D1 A4) as Tbc'. pose proof (Htl ca L2 D2 A7) as Tca'.
  pose proof (Htl ad K1 A2' E1) as Tad'. pose proof (Htl db K2 A3' E2) as Tdb'.
  rewrite Tbc in Tbc'. rewrite Tca in Tca'. rewrite Tad in Tad'. rewrite Tdb in Tdb'.
  assert (faces m' !! f0 = Some (mkFC ad false)) as G0.
  { rewrite Hfc, Hx0. unfold l, flip_cmds. cmdcbn. hsteps. cbn. by rewrite Hr0. }
  assert (faces m' !! f1 = Some (mkFC bc false)) as G1.
  { rewrite Hfc, Hx1. unfold l, flip_cmds. cmdcbn. hsteps. cbn. by rewrite Hr1. }
  assert (∀ g, g ≠ f0 → g ≠ f1 → faces m' !! g = faces m !! g) as Gun.
  { intros g ??. rewrite Hfc. unfold l, flip_cmds. cmdcbn. hsteps. reflexivity. }
  assert (∀ v x, verts m !! v = Some x → ∃ x', verts m' !! v = Some x' ∧ vpos x' = vpos x ∧ vrem x' = vrem x ∧
     vhe x' = (if (v =? a) && eqbo (vhe x) ab then Some ad else if (v =? b) && eqbo (vhe x) ba then Some bc else vhe x)) as Vx.
  { intros v x Hv. rewrite Hvx, Hv. unfold l, flip_cmds. cmdcbn.
    destruct (N.eqb_spec v a) as [->|Hva]; [|destruct (N.eqb_spec v b) as [->|Hvb]].
    - hsteps. cbn [fmap option_fmap option_map]. destruct (eqbo (vhe x) ab); eexists; (split; [reflexivity|]); cbn; [done|].
      rewrite (proj2 (N.eqb_neq a b)) by done. done.
    - hsteps. cbn [fmap option_fmap option_map andb]. destruct (eqbo (vhe x) ba); eexists; (split; [reflexivity|]); done.
    - cbn [andb]. pose proof (wf_vi _ HW v x Hv) as HV.
      destruct (decide (v = c)) as [->|]; [|destruct (decide (v = d)) as [->|]]; hsteps; cbn [fmap option_fmap option_map].
      + eexists; split; [reflexivity|]. unfold anchor_if_none.
        destruct (vhe x) eqn:Ev; [done|]. by destruct (HV ca L2).
      + eexists; split; [reflexivity|]. unfold anchor_if_none.
        destruct (vhe x) eqn:Ev; [done|]. by destruct (HV db K2).
      + by exists x. }
  assert (VI m') as HVI'.
  { intros v x' Hv. assert (is_Some (verts m !! v)) as [x Hx].
    { apply (si_vb _ _ HS). rewrite <- Env. apply (fl_v _ Hfl). by eexists. }
    destruct (Vx v x Hx) as (x'' & Hv' & _ & _ & Ev). assert (x'' = x') as -> by congruence. rewrite Ev.
    pose proof (wf_vi _ HW v x Hx) as HV. destruct (vhe x) as [h|] eqn:Eh; cbn [eqbo].
    - destruct HV as [HLh Hth].
      destruct (N.eqb_spec v a) as [->|Hva]; cbn [andb].
      { destruct (N.eqb_spec h ab) as [->|]; [done|].
        rewrite (proj2 (N.eqb_neq a b)) by done. cbn [andb]. rewrite HLiff. split; [done|].
        rewrite Htl; [done..|]. congruence. }
      destruct (N.eqb_spec v b) as [->|Hvb]; cbn [andb].
      { destruct (N.eqb_spec h ba) as [->|]; [done|]. rewrite HLiff. split; [done|].
        rewrite Htl; [done..| |done]. congruence. }
      rewrite HLiff. split; [done|]. rewrite Htl; [done..| |]; congruence.
    - rewrite !andb_false_r. intros h HLh. apply HLiff in HLh.
      destruct (decide (h = ab)) as [->|]; [rewrite Tab'; intros <-; by apply (HV ca)|].
      destruct (decide (h = ba)) as [->|]; [rewrite Tba'; intros <-; by apply (HV db)|].
      rewrite Htl by done. by apply HV. }
  assert (WF m') as HW'.
  { eapply (surgery m m' X (λ g, g = f0 ∨ g = f1) (λ g, g = f0 ∨ g = f1)); try done.
    - rewrite Enh'. apply (si_hmax _ _ HS).
    - rewrite Enf'. apply (si_fmax _ _ HS).
    - by rewrite Enh'.
    - by rewrite Env.
    - rewrite Env. apply (si_vmax _ _ HS).
    - intros h HXh. split; [by apply Hun|by apply HLiff].
    - intros h HXh HLh. destruct HXh as [->|[->|[->|[->|[->| ->]]]]]; eexists; (split; [eassumption|by auto]).
    - intros h g HLh Hfh [-> | ->].
      + destruct (face_cycle m HS ab h f0 (wf_fh _ HW) HL HLh Hf Hfh) as [->|[->| ->]]; unfold X;
          rewrite ?Nab, ?Pab; by auto 9.
      + destruct (face_cycle m HS ba h f1 (wf_fh _ HW) HLt HLh Hft Hfh) as [->|[->| ->]]; unfold X;
          rewrite ?Nba, ?Pba; by auto 9.
    - intros g Hg _. apply Gun; intros ->; apply Hg; by auto.
    - intros g Hg. by left.
    - intros g [->| ->]; [exists ad|exists bc];
        (split; [done|split; [done|split; [unfold X; by auto 9|split; [done|]]]]);
        intros h HXh _ Hq; destruct HXh as [->|[->|[->|[->|[->| ->]]]]]; rwm m';
        first [by auto | exfalso; congruence].
    - intros h HXh HLh. rewrite HLiff, !Htw, Env. apply HLiff in HLh. destruct (si_tw _ _ HS h HLh) as (B1&B2&B3).
      split; [done|]. split; [done|].
      destruct HXh as [->|[->|HXh]].
      + rewrite Wab. rwm m'. done.
      + rewrite Htt. rwm m'. split; [congruence|done].
      + assert (h ≠ ab ∧ h ≠ ba) as [??] by (destruct HXh as [->|[->|[->| ->]]]; done).
        assert (tw m h ≠ ab ∧ tw m h ≠ ba) as [??] by (split; congruence).
        rewrite !Hhd by done. split; [done|]. by apply (si_hd _ _ HS).
    - intros h HXh HLh. fold (tl m' (nx m' h)).
      destruct HXh as [->|[->|[->|[->|[->| ->]]]]]; rwm m'; eexists;
        (split; [reflexivity|]); (split; [by auto|]); (split; [unfold X; by auto 9|]); (split; [unfold X; by auto 9|]);
        split_and!; congruence.
    - intros h HXh HLh HXt. destruct (si_tw _ _ HS h HLh) as (B1&B2&B3).
      rewrite HLiff, Htw. split; [done|]. split; [done|].
      apply Hhd; intros E; apply HXh; unfold X; [right; left|left]; congruence.
    - intros u v h. rewrite Hem. unfold l, flip_cmds. cmdcbn. fold (tl m' h).
      assert ((c, d) ≠ (d, c)) as Kne by congruence. split.
      + rewrite !lookup_insert_Some, !lookup_delete_Some.
        intros [[E <-]|[_ [[E <-]|[_ [K1' [K2' E]]]]]].
        * injection E as <- <-. split_and!; congruence.
        * injection E as <- <-. split_and!; congruence.
        * apply (si_em _ _ HS) in E as (B1&B2&B3). fold (tl m h) in B3. rewrite HLiff. split; [done|].
          rewrite Hhd, Htl; [done|done| | | |]; intros ->; congruence.
      + intros (HLh&Eh&Et). apply HLiff in HLh.
        destruct (decide (h = ab)) as [->|Hn1]; [|destruct (decide (h = ba)) as [->|Hn2]].
        * assert ((u, v) = (c, d)) as -> by congruence. rewrite lookup_insert_ne by congruence. apply lookup_insert.
        * assert ((u, v) = (d, c)) as -> by congruence. apply lookup_insert.
        * rewrite Hhd in Eh by done. rewrite Htl in Et by done.
          rewrite !lookup_insert_ne by (intros Eq; injection Eq as <- <-; first [exact (Hcd h HLh Et Eh)|exact (Hdc h HLh Et Eh)]).
          rewrite !lookup_delete_ne; [by apply (si_em _ _ HS)|..]; intros Eq; injection Eq as <- <-.
          -- apply Hn1. apply (em_inj m None); [done|done|done|congruence|congruence].
          -- apply Hn2. apply (em_inj m None); [done|done|done|congruence|congruence].
    - apply (fan_transfer m m' (λ h, h = ab ∨ h = ba)); try done.
      + intros h HLh [E|E]; [right|left]; (destruct (si_tw _ _ HS h HLh) as (_&B2&_); congruence).
      + intros h [->| ->]; congruence.
      + intros h HLh HnD. split; [apply Htw|].
        destruct (Xdec h) as [HXh|HXh]; [|by destruct (Hunf h HXh) as (_&_&_&_&->)].
        destruct HXh as [->|[->|[->|[->|[->| ->]]]]]; split; congruence.
      + intros t HIt HnD. destruct (Xdec t) as [HXh|HXh].
        * destruct HXh as [->|[->|[->|[->|[->| ->]]]]]; [tauto|tauto|..].
          -- exists ca, 1%nat, 0%nat. split; [split; congruence|]. split; [intros [?|?]; contradiction|]. split.
             ++ apply hop_S; rewrite M3, Htt; [congruence|]. rewrite <- Pab. apply hop_1.
             ++ replace ca with (pv m' ad). apply hop_1.
          -- exists bc, 0%nat, 1%nat. split; [split; congruence|]. split; [intros [?|?]; contradiction|]. split.
             ++ replace bc with (pv m ca). apply hop_1.
             ++ apply hop_S; rwm m'; [congruence|]. replace bc with (pv m' ab). apply hop_1.
          -- exists db, 1%nat, 0%nat. split; [split; congruence|]. split; [intros [?|?]; contradiction|]. split.
             ++ apply hop_S; rewrite N3, Wab; [congruence|]. rewrite <- Pba. apply hop_1.
             ++ replace db with (pv m' bc). apply hop_1.
          -- exists ad, 0%nat, 1%nat. split; [split; congruence|]. split; [intros [?|?]; contradiction|]. split.
             ++ replace ad with (pv m db). apply hop_1.
             ++ apply hop_S; rwm m'; [congruence|]. replace ad with (pv m' ba). apply hop_1.
        * exists (pv m t), 0%nat, 0%nat. split; [by apply (In_pv m HS)|]. split.
          { destruct HIt as [HLt' Hft']. destruct (fc m t) as [g|] eqn:Eg; [|done].
            destruct (face3 m HS _ _ HLt' Eg) as (_&_&_&_&_&Q&_).
            intros [E|E]; rewrite E in Q; apply HXh; unfold X; [rewrite Nab in Q|rewrite Nba in Q]; subst; by auto 9. }
          split; [apply hop_1|]. destruct (Hunf t HXh) as (_&_&<-&_&_). apply hop_1. }
  pose proof (wf_si _ HW') as HS'.
  split.
  - done.
  - apply oriented_face_L; [done|]. exists ad. rwm m'. by auto.
  - apply oriented_face_L; [done|]. exists bc. rwm m'. by auto.
  - apply runs_WF; done.
  - intros g a' b' c' Hg Hg'. apply same_oriented; [done|done|by apply Gun|].
    intros h HLh Hfh. assert (¬ X h) as HXh.
    { intros [->|[->|[->|[->|[->| ->]]]]]; congruence. }
    destruct (Hunf h HXh) as (?&?&?&?&?). rewrite HLiff. split_and!; try congruence.
    apply Htl; [done|..]; intros ->; apply HXh; unfold X; by auto.
  - done.
  - apply same_positions_intro; [done..|]. intros v x Hv. destruct (Vx v x Hv) as (x'&?&?&?&_). by exists x'.
Qed.

(** [flip_edge] may be applied: the half-edge [h] = a→b separates the faces
    [f0] = (a,b,c) and [f1] = (b,a,d), the edge c–d is not in the mesh and the
    two new triangles pass the area check. *)
Definition flippable (degen : P → P → P → P → bool) m h f0 f1 a b c d : Prop :=
  runs m h a b ∧ cycle_face m f0 a b c ∧ cycle_face m f1 b a d ∧ c ≠ d ∧
  ¬ registered m c d ∧ ¬ registered m d c ∧
  ∃ xa xb xc xd, verts m !! a = Some xa ∧ verts m !! b = Some xb ∧ verts m !! c = Some xc ∧
    verts m !! d = Some xd ∧ degen (vpos xa) (vpos xb) (vpos xc) (vpos xd) = false.

Lemma registered_em m u v : SI m None → registered m u v ↔ is_Some (emap m !! (u, v)).
Proof.
  intros HS. unfold registered. split.
  - intros [h Hr]. apply runs_WF in Hr as (?&?&?); [|done]. exists h. by apply (si_em _ _ HS).
  - intros [h Hh]. apply (si_em _ _ HS) in Hh as (?&?&?). exists h. by apply runs_WF.
Qed.

Lemma flip_edge_ok degen m h : WF m → ∃ m' r, flip_edge degen m h = Some (m', r) ∧
  if r then ∃ f0 f1 a b c d, flippable degen m h f0 f1 a b c d ∧ Flipped m h f0 f1 a b c d m'
  else m' = m ∧ ∀ f0 f1 a b c d, ¬ flippable degen m h f0 f1 a b c d.
Proof.
  intros HW. pose proof (wf_si _ HW) as HS.
  assert (∀ f0 f1 a b c d, flippable degen m h f0 f1 a b c d →
     L m h ∧ fc m h = Some f0 ∧ fc m (tw m h) = Some f1 ∧ a = tl m h ∧ b = hd m h ∧ c = hd m (nx m h) ∧
     d = hd m (nx m (tw m h))) as Hdet.
  { intros f0 f1 a b c d (Hr&Hc0&Hc1&_). apply runs_WF in Hr as (HLh&Ht&Hh); [|done].
    apply cycle_face_inv in Hc0 as (h0&HL0&Hf0&E1&E2&E3); [|done].
    apply cycle_face_inv in Hc1 as (h1&HL1&Hf1&E4&E5&E6); [|done].
    assert (h0 = h) as -> by (apply (em_inj m None); congruence).
    destruct (si_tw _ _ HS h HLh) as (B1&B2&B3).
    assert (h1 = tw m h) as ->.
    { apply (em_inj m None); [done|done|done|..]; unfold tl in *; rewrite ?B2; congruence. }
    split_and!; congruence. }
  unfold flip_edge.
  destruct (N.ltb_spec h (nhes m)) as [Hlt|Hge]; cbn [negb].
  2: { exists m, false. split; [done|]. split; [done|]. intros f0 f1 a b c d (HLh&_)%Hdet.
       apply (L_lt m HS) in HLh. lia. }
  destruct (proj2 (si_hb _ _ HS h) Hlt) as [xa Hxa]. assert (getH m h = Some xa) as -> by exact Hxa.
  cbn [mbind option_bind].
  destruct (hrem xa) eqn:Hra.
  { exists m, false. split; [done|]. split; [done|]. intros f0 f1 a b c d (HLh&_)%Hdet.
    apply L_spec in HLh as (?&?&?). congruence. }
  assert (L m h) as HL by (apply L_spec; eauto).
  assert (xa = he m h) as -> by (unfold he; by rewrite Hxa). fold (tw m h).
  destruct (si_tw _ _ HS h HL) as (HLt&Htt&_).
  pose proof (L_lt m HS _ HLt) as Hltt. pose proof (L_ne_umax m HS _ HLt) as Hne.
  rewrite (proj2 (N.eqb_neq _ _) Hne), (proj2 (N.ltb_lt _ _) Hltt). cbn [negb orb].
  rewrite (L_getH m _ HLt). cbn [mbind option_bind].
  pose proof (L_rem _ _ HLt) as Hrt. rewrite Hrt. fold (fc m h) (fc m (tw m h)).
  destruct (fc m h) as [f0|] eqn:Hf0.
  2: { exists m, false. split; [done|]. split; [done|]. intros f0 f1 a b c d (?&?&?)%Hdet. congruence. }
  destruct (fc m (tw m h)) as [f1|] eqn:Hf1.
  2: { exists m, false. split; [done|]. split; [done|]. intros f0' f1 a b c d (?&?&?&_)%Hdet. congruence. }
  destruct (face3 m HS _ _ HL Hf0) as (L1&L2&F1&F2&N1&N2&N3&N4&T1&T2&T3&D1&D2&D3).
  destruct (face3 m HS _ _ HLt Hf1) as (K1&K2&J1&J2&M1&M2&M3&M4&U1&U2&U3&E1&E2&E3).
  fold (nx m h). rewrite (L_getH m _ L1). cbn [mbind option_bind]. fold (nx m (nx m h)). rewrite N1.
  fold (nx m (tw m h)). rewrite (L_getH m _ K1). cbn [mbind option_bind]. fold (nx m (nx m (tw m h))). rewrite M1.
  assert (all_live m [nx m h; pv m h; nx m (tw m h); pv m (tw m h)] = true) as ->.
  { unfold all_live. cbn. rewrite !L_getH, !L_rem by done. done. }
  cbn [negb]. rewrite (L_getH m _ L2). cbn [mbind option_bind].
  fold (hd m h) (hd m (nx m h)) (hd m (pv m h)) (hd m (nx m (tw m h))) (hd m (tw m h)).
  assert (hd m (pv m h) = tl m h) as Ea by done. rewrite Ea.
  assert (hd m (tw m h) = tl m h) as -> by done. rewrite N.eqb_refl. cbn [assertb mbind option_bind].
  rewrite (L_getH m _ K2). cbn [mbind option_bind]. fold (hd m (pv m (tw m h))).
  assert (hd m (pv m (tw m h)) = hd m h) as ->.
  { rewrite <- U3. unfold tl. by rewrite Htt. }
  rewrite N.eqb_refl. cbn [assertb mbind option_bind].
  set (a := tl m h) in *. set (b := hd m h) in *. set (c := hd m (nx m h)) in *. set (d := hd m (nx m (tw m h))) in *.
  destruct (N.eqb_spec c d) as [Ecd|Dcd].
  { exists m, false. split; [done|]. split; [done|]. intros f0' f1' a' b' c' d' HF.
    destruct (Hdet _ _ _ _ _ _ HF) as (_&_&_&_&_&->&->). by destruct HF as (_&_&_&?&_). }
  assert (∀ u v, (u = c ∧ v = d ∨ u = d ∧ v = c) → dup_edge m u v h (tw m h) = true ↔ registered m u v) as Hdup.
  { intros u v Huv. rewrite registered_em by done. unfold dup_edge. destruct (emap m !! (u, v)) as [e|] eqn:Ee.
    2: split; [done|intros [? ?]; done].
    split; [by eexists|]. intros _. apply (si_em _ _ HS) in Ee as (HLe&He&Hte).
    pose proof (hd_tl_ne m HS _ L1) as Q1. pose proof (hd_tl_ne m HS _ L2) as Q2.
    rewrite T1 in Q1. rewrite T2, Ea in Q2. fold b c in Q1. fold c in Q2.
    fold (tl m e) in Hte. apply andb_true_intro. split; apply negb_true_iff, N.eqb_neq; intros ->.
    - fold b in He. fold a in Hte. destruct Huv as [[-> ->]|[-> ->]]; congruence.
    - assert (tl m (tw m h) = b) as Q3 by (unfold tl; by rewrite Htt). rewrite Q3 in Hte.
      assert (hd m (tw m h) = a) as Q4 by done. rewrite Q4 in He.
      destruct Huv as [[-> ->]|[-> ->]]; congruence. }
  destruct (dup_edge m c d h (tw m h)) eqn:Dup1.
  { exists m, false. split; [done|]. split; [done|]. intros f0' f1' a' b' c' d' HF.
    destruct (Hdet _ _ _ _ _ _ HF) as (_&_&_&_&_&->&->). destruct HF as (_&_&_&_&HF&_).
    apply HF, Hdup; auto. }
  destruct (dup_edge m d c h (tw m h)) eqn:Dup2.
  { exists m, false. split; [done|]. split; [done|]. intros f0' f1' a' b' c' d' HF.
    destruct (Hdet _ _ _ _ _ _ HF) as (_&_&_&_&_&->&->). destruct HF as (_&_&_&_&_&HF&_).
    apply HF, Hdup; auto. }
  assert (¬ registered m c d) as Nr1 by (rewrite <- Hdup; [congruence|auto]).
  assert (¬ registered m d c) as Nr2 by (rewrite <- Hdup; [congruence|auto]).
  destruct (proj2 (si_vb _ _ HS a)) as [ya Hya]; [rewrite <- Ea; by apply (si_hd _ _ HS)|].
  destruct (proj2 (si_vb _ _ HS b)) as [yb Hyb]; [by apply (si_hd _ _ HS h)|].
  destruct (proj2 (si_vb _ _ HS c)) as [yc Hyc]; [by apply (si_hd _ _ HS (nx m h))|].
  destruct (proj2 (si_vb _ _ HS d)) as [yd Hyd]; [by apply (si_hd _ _ HS (nx m (tw m h)))|].
  unfold getV. rewrite Hya, Hyb, Hyc, Hyd. cbn [mbind option_bind].
  destruct (degen (vpos ya) (vpos yb) (vpos yc) (vpos yd)) eqn:Edg.
  { exists m, false. split; [done|]. split; [done|]. intros f0' f1' a' b' c' d' HF.
    destruct (Hdet _ _ _ _ _ _ HF) as (_&_&_&->&->&->&->). destruct HF as (_&_&_&_&_&_&HF).
    destruct HF as (ya'&yb'&yc'&yd'&?&?&?&?&?). fold a in H. fold b in H0. fold c in H1. fold d in H2. congruence. }
  destruct (flip_cmds_ok m h f0 f1 HW HL Hf0 Hf1) as (m' & Er & HF); [done|..].
  { intros k HLk ??. apply Nr1. exists k. by apply runs_WF. }
  { intros k HLk ??. apply Nr2. exists k. by apply runs_WF. }
  exists m', true. split.
  - unfold flip_cmds in Er. fold a b c d in Er. rewrite Er. done.
  - exists f0, f1, a, b, c, d. split; [|exact HF].
    unfold flippable. split_and!; try done.
    + by apply runs_WF.
    + by apply (cycle_face_side m f0 h).
    + pose proof (cycle_face_side m f1 (tw m h) HW HLt Hf1) as Q. unfold tl in Q. rewrite Htt in Q. exact Q.
    + by exists ya, yb, yc, yd.
Qed.
End flip.
