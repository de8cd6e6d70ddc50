(** split_face: the part that subdivides one triangle. *)
From Verif Require Export MeshEdit.
Local Open Scope N_scope.

Section split_face.
Context {P : Type}.
Implicit Types (m : mesh P) (h k b c f g u v e t : N).

Definition split_cmds n F0 f ab bc ca a b c w : list (cmd (P:=P)) :=
  let g1 := F0 + 0 in let g2 := F0 + 1 in let g3 := F0 + 2 in
  let b1 := n + 0 in let b1' := n + 1 in
  let b2 := n + 2 in let b2' := n + 3 in
  let b3 := n + 4 in let b3' := n + 5 in
    [PushHe (with_face (Some g1) (he_new w)); PushHe (with_face (Some g1) (he_new c))]
    ++ TriLink b1 b1' ca ++
    [PushHe (with_face (Some g2) (he_new w)); PushHe (with_face (Some g2) (he_new b))]
    ++ TriLink b2 b2' bc ++
    [PushHe (with_face (Some g3) (he_new w)); PushHe (with_face (Some g3) (he_new a))]
    ++ TriLink b3 b3' ab ++
    [PushFc (mkFC b1 false); PushFc (mkFC b2 false); PushFc (mkFC b3 false);
     Frem f;
     Hface ca g1; Hface bc g2; Hface ab g3;
     Vhe w b2'; Vhe a ab; Vhe b bc; Vhe c ca;
     Hv b1 w; Hv b1' c; Hv b2 w; Hv b2' b; Hv b3 w; Hv b3' a;
     Fhe g1 b1; Fhe g2 b2; Fhe g3 b3]
    ++ Twins b3' b1 ++ Twins b1' b2 ++ Twins b2' b3 ++
    [MapInsert (a, w) b1; MapInsert (w, c) b1'; MapInsert (c, w) b2;
     MapInsert (w, b) b2'; MapInsert (b, w) b3; MapInsert (w, a) b3'].

(** outcome of subdividing face [f] = (a,b,c) around the fresh vertex [w] *)
Record SplitF m f a b c w m' : Prop := {
  sf_wf : WF m';
  sf_f : ¬ live_face m' f;
  sf_1 : oriented_face m' (nfaces m) a w c;
  sf_2 : oriented_face m' (nfaces m + 1) c w b;
  sf_3 : oriented_face m' (nfaces m + 2) b w a;
  sf_rest : ∀ g a' b' c', g ≠ f → g < nfaces m → (oriented_face m' g a' b' c' ↔ oriented_face m g a' b' c');
  sf_nf : nfaces m' = nfaces m + 3;
  sf_nh : nhes m' = nhes m + 6;
  sf_pos : same_positions m m'
}.

Lemma split_cmds_ok m f ab a b c w : WF m → faces m !! f = Some (mkFC ab false) →
  oriented_face m f a b c → w < nverts m → (∀ h, L m h → hd m h ≠ w) →
  nhes m + 6 ≤ umax → nfaces m + 3 ≤ umax →
  ∃ m', run m (split_cmds (nhes m) (nfaces m) f ab (nx m ab) (nx m (nx m ab)) a b c w) = Some m' ∧
    SplitF m f a b c w m'.
Proof.
  intros HW Hx Hor Hw Hfresh Hsz Hfz. pose proof (wf_si _ HW) as HS.
  destruct (oriented_distinct _ _ _ _ _ HS Hor) as (Dab&Dbc&Dca&Va&Vb&Vc).
  apply oriented_face_L in Hor as (ab'&Hx'&HL&Hf&Ha&Hb&Hc); [|done].
  rewrite Hx in Hx'. injection Hx' as <-.
  destruct (face3 m HS _ _ HL Hf) as (L1&L2&F1&F2&N1&N2&N3&N4&T1&T2&T3&D1&D2&D3).
  rewrite N1. set (bc := nx m ab) in *. set (ca := pv m ab) in *.
  assert (f < nfaces m) as Hflt by (apply (si_fb _ _ HS); eauto).
  pose proof (L_lt m HS _ HL) as Iab. pose proof (L_lt m HS _ L1) as Ibc. pose proof (L_lt m HS _ L2) as Ica.
  assert (∀ h, L m h → tl m h ≠ w) as Hfresht.
  { intros h HLh. apply Hfresh. by apply (si_tw _ _ HS). }
  assert (a ≠ w) as Daw by (rewrite <- Ha; by apply Hfresht).
  assert (b ≠ w) as Dbw by (rewrite <- Hb; by apply Hfresh).
  assert (c ≠ w) as Dcw by (rewrite <- Hc; by apply Hfresh).
  set (n := nhes m) in *. set (F0 := nfaces m) in *.
  set (l := split_cmds n F0 f ab bc ca a b c w).
  destruct (run_ok m l (SI_filled _ _ HS)) as (m' & Erun & Hfl & Enh & Enf & Env & Hhe & Hfc & Hvx & Hem).
  { unfold l, split_cmds. cmdcbn. fold n F0. split_and!; try done; lia. }
  exists m'. split; [done|].
  fold n in Enh, Hhe. fold F0 in Enf, Hfc.
  unfold l, split_cmds in Enh, Enf. cmdcbn. 
  assert (nhes m' = n + 6) as Enh' by exact Enh.
  assert (nfaces m' = F0 + 3) as Enf' by exact Enf.
  (* rows *)
  assert (he m ab = mkHE b (Some f) bc ca (tw m ab) false) as Oab.
  { rewrite (he_row m ab HL). f_equal; congruence. }
  assert (he m bc = mkHE c (Some f) ca ab (tw m bc) false) as Obc.
  { rewrite (he_row m bc L1). f_equal; congruence. }
  assert (he m ca = mkHE a (Some f) ab bc (tw m ca) false) as Oca.
  { rewrite (he_row m ca L2). f_equal; congruence. }
  assert (he m' ab = mkHE b (Some (F0 + 2)) (n + 4) (n + 5) (tw m ab) false) as Rab.
  { rewrite Hhe, Oab. unfold l, split_cmds. cmdcbn. hsteps. by hfields. }
  assert (he m' bc = mkHE c (Some (F0 + 1)) (n + 2) (n + 3) (tw m bc) false) as Rbc.
  { rewrite Hhe, Obc. unfold l, split_cmds. cmdcbn. hsteps. by hfields. }
  assert (he m' ca = mkHE a (Some (F0 + 0)) (n + 0) (n + 1) (tw m ca) false) as Rca.
  { rewrite Hhe, Oca. unfold l, split_cmds. cmdcbn. hsteps. by hfields. }
  assert (he m' (n + 0) = mkHE w (Some (F0 + 0)) (n + 1) ca (n + 5) false) as R0.
  { rewrite Hhe. unfold l, split_cmds. cmdcbn. hsteps. by hfields. }
  assert (he m' (n + 1) = mkHE c (Some (F0 + 0)) ca (n + 0) (n + 2) false) as R1.
  { rewrite Hhe. unfold l, split_cmds. cmdcbn. hsteps. by hfields. }
  assert (he m' (n + 2) = mkHE w (Some (F0 + 1)) (n + 3) bc (n + 1) false) as R2.
  { rewrite Hhe. unfold l, split_cmds. cmdcbn. hsteps. by hfields. }
  assert (he m' (n + 3) = mkHE b (Some (F0 + 1)) bc (n + 2) (n + 4) false) as R3.
  { rewrite Hhe. unfold l, split_cmds. cmdcbn. hsteps. by hfields. }
  assert (he m' (n + 4) = mkHE w (Some (F0 + 2)) (n + 5) ab (n + 3) false) as R4.
  { rewrite Hhe. unfold l, split_cmds. cmdcbn. hsteps. by hfields. }
  assert (he m' (n + 5) = mkHE a (Some (F0 + 2)) ab (n + 4) (n + 0) false) as R5.
  { rewrite Hhe. unfold l, split_cmds. cmdcbn. hsteps. by hfields. }
  row Rab; row Rbc; row Rca; row R0; row R1; row R2; row R3; row R4; row R5.
  rowL Rab Enh'; rowL Rbc Enh'; rowL Rca Enh'; rowL R0 Enh'; rowL R1 Enh'; rowL R2 Enh'; rowL R3 Enh';
  rowL R4 Enh'; rowL R5 Enh'.
  set (N6 h := h = n + 0 ∨ h = n + 1 ∨ h = n + 2 ∨ h = n + 3 ∨ h = n + 4 ∨ h = n + 5).
  set (X h := h = ab ∨ h = bc ∨ h = ca ∨ N6 h).
  assert (∀ h, h < n + 6 → h < n ∨ N6 h) as Hlt6.
  { intros h. unfold N6. clear. lia. }
  assert (∀ h, h < n → ¬ N6 h) as HN6.
  { intros h. unfold N6. clear. lia. }
  assert (∀ h, X h ∨ ¬ X h) as Xdec.
  { intros h. unfold X, N6. clear. lia. }
  assert (∀ h, ¬ X h → he m' h = he m h) as Hun.
  { intros h HXh. rewrite Hhe. apply hrun_not. unfold l, split_cmds. cmdcbn.
    assert (h ≠ ab ∧ h ≠ bc ∧ h ≠ ca ∧ h ≠ n + 0 ∧ h ≠ n + 1 ∧ h ≠ n + 2 ∧ h ≠ n + 3 ∧ h ≠ n + 4 ∧ h ≠ n + 5)
      as (?&?&?&?&?&?&?&?&?) by (clear -HXh; unfold X, N6 in HXh; tauto).
    split_and!; first [exact I | assumption]. }
  assert (∀ h, ¬ X h → hd m' h = hd m h ∧ nx m' h = nx m h ∧ pv m' h = pv m h ∧ tw m' h = tw m h ∧ fc m' h = fc m h) as Hunf.
  { intros h HXh. unfold hd, nx, pv, tw, fc. by rewrite Hun. }
  assert (∀ h, ¬ X h → L m' h ↔ L m h) as HunL.
  { intros h HXh. rewrite !filled_L by (done || by eapply SI_filled). rewrite Hun, Enh' by done.
    fold n. split; intros [? ?]; split; try done.
    - destruct (Hlt6 h); [done|done|]. exfalso. apply HXh. unfold X. tauto.
    - by apply lt_add_lt. }
  assert (∀ h, h < n → hd m' h = hd m h ∧ tw m' h = tw m h) as Hold.
  { intros h Hh. destruct (Xdec h) as [HXh|HXh]; [|by destruct (Hunf h HXh) as (?&?&?&?&?)].
    destruct HXh as [->|[->|[->|HXh]]]; rwm m'; [split; congruence..|]. by apply HN6 in HXh. }
  assert (∀ h, L m h → L m' h) as HoldL.
  { intros h HLh. destruct (Xdec h) as [HXh|HXh]; [|by apply HunL].
    destruct HXh as [->|[->|[->|HXh]]]; try done. exfalso. by eapply HN6, HXh; apply (L_lt m HS). }
  assert (∀ h, L m' h → L m h ∨ N6 h) as HL'.
  { intros h HLh. destruct (Xdec h) as [HXh|HXh]; [|left; by apply HunL].
    destruct HXh as [->|[->|[->|HXh]]]; auto. }
  assert (∀ h, L m h → tl m' h = tl m h) as Htl.
  { intros h HLh. unfold tl. destruct (Hold h) as [_ ->]; [by apply (L_lt m HS)|].
    apply Hold. apply (L_lt m HS). by apply (si_tw _ _ HS). }
  assert (∀ h, L m h → hd m' h = hd m h) as Hhd.
  { intros h HLh. apply Hold. by apply (L_lt m HS). }
  assert (∀ h, N6 h → L m' h ∧ L m' (tw m' h) ∧ tw m' (tw m' h) = h ∧ hd m' (tw m' h) ≠ hd m' h) as HN6tw.
  { intros h [->|[->|[->|[->|[->| ->]]]]]; rwm m'; (split; [assumption|split; [assumption|split; [reflexivity|]]]); by auto. }
  assert (faces m' !! (F0 + 0) = Some (mkFC (n + 0) false)) as G0.
  { rewrite Hfc. unfold l, split_cmds. cmdcbn. hsteps. reflexivity. }
  assert (faces m' !! (F0 + 1) = Some (mkFC (n + 2) false)) as G1.
  { rewrite Hfc. unfold l, split_cmds. cmdcbn. hsteps. reflexivity. }
  assert (faces m' !! (F0 + 2) = Some (mkFC (n + 4) false)) as G2.
  { rewrite Hfc. unfold l, split_cmds. cmdcbn. hsteps. reflexivity. }
  assert (faces m' !! f = Some (mkFC ab true)) as Gf.
  { rewrite Hfc, Hx. unfold l, split_cmds. cmdcbn. hsteps. reflexivity. }
  assert (∀ g, g ≠ f → g ≠ F0 + 0 → g ≠ F0 + 1 → g ≠ F0 + 2 → faces m' !! g = faces m !! g) as Gun.
  { intros g ????. rewrite Hfc. unfold l, split_cmds. cmdcbn. hsteps. reflexivity. }
  assert (∀ v, v ≠ w → v ≠ a → v ≠ b → v ≠ c → verts m' !! v = verts m !! v) as Vun.
  { intros v ????. rewrite Hvx. unfold l, split_cmds. cmdcbn. hsteps. reflexivity. }
  assert (∀ v h x, (v, h) = (w, n + 3) ∨ (v, h) = (a, ab) ∨ (v, h) = (b, bc) ∨ (v, h) = (c, ca) →
     verts m !! v = Some x → verts m' !! v = Some (mkVX (vpos x) (Some h) (vrem x))) as Vn.
  { intros v h x Hv Hx0. rewrite Hvx, Hx0. unfold l, split_cmds. cmdcbn.
    destruct Hv as [Hv|[Hv|[Hv|Hv]]]; injection Hv as -> ->; hsteps; reflexivity. }
  assert (VI m') as HVI'.
  { intros v x Hv. assert (is_Some (verts m !! v)) as [x0 Hx0].
    { apply (si_vb _ _ HS). rewrite <- Env. apply (fl_v _ Hfl). by eexists. }
    assert (tl m' (n + 3) = w ∧ tl m' ab = a ∧ tl m' bc = b ∧ tl m' ca = c) as (?&?&?&?).
    { rewrite (Htl ab HL), (Htl bc L1), (Htl ca L2). unfold tl in *. rwm m'. split_and!; congruence. }
    destruct (decide (v = w)) as [->|]; [|destruct (decide (v = a)) as [->|];
      [|destruct (decide (v = b)) as [->|]; [|destruct (decide (v = c)) as [->|]]]].
    1: rewrite (Vn w (n + 3) x0) in Hv by auto.
    2: rewrite (Vn a ab x0) in Hv by auto.
    3: rewrite (Vn b bc x0) in Hv by auto.
    4: rewrite (Vn c ca x0) in Hv by auto.
    1-4: injection Hv as <-; cbn; by auto.
    rewrite Vun in Hv by done. pose proof (wf_vi _ HW v x Hv) as HV. destruct (vhe x) as [h|].
    - destruct HV as [? <-]. split; [by apply HoldL|by apply Htl].
    - intros h HLh. destruct (HL' h HLh) as [HLo|HN]; [rewrite Htl by done; by apply HV|].
      destruct HN as [->|[->|[->|[->|[->| ->]]]]]; unfold tl; rwm m'; by apply not_eq_sym. }
  assert (WF m') as HW'.
  { eapply (surgery m m' X (λ g, g = f) (λ g, g = F0 + 0 ∨ g = F0 + 1 ∨ g = F0 + 2)); try done.
    - by rewrite Enh'.
    - by rewrite Enf'.
    - rewrite Enh'. fold n. clear. lia.
    - by rewrite Env.
    - rewrite Env. apply (si_vmax _ _ HS).
    - intros h HXh. split; [by apply Hun|by apply HunL].
    - intros h HXh HLh. exists f. split; [|done]. destruct HXh as [->|[->|[->|HXh]]]; try done.
      exfalso. by eapply HN6, HXh; apply (L_lt m HS).
    - intros h g HLh Hfh ->. destruct (face_cycle m HS ab h f (wf_fh _ HW) HL HLh Hf Hfh) as [->|[->| ->]];
        unfold X; fold bc ca; by auto.
    - intros g Hg Hg'. apply Gun; [done|..]; intros ->; apply Hg'; by auto.
    - intros g -> _. by eexists.
    - intros g Hg. right. fold F0. clear -Hg. lia.
    - intros g [->|[->| ->]]; [exists (n + 0)|exists (n + 2)|exists (n + 4)];
        (split; [done|split; [done|split; [unfold X, N6; by auto 9|split; [done|]]]]);
        intros h HXh _ Hq; destruct HXh as [->|[->|[->|[->|[->|[->|[->|[->| ->]]]]]]]];
        known_face Hq; rwm m'; first [ by auto | ne_faces Hq].
    - intros h HXh HLh. destruct HXh as [->|[->|[->|HXh]]].
      4: { destruct (HN6tw h HXh) as (?&?&?&?). split_and!; try done. rewrite Env.
           destruct HXh as [->|[->|[->|[->|[->| ->]]]]]; by rwm m'. }
      all: rwm m'; rewrite Env.
      1: destruct (si_tw _ _ HS ab HL) as (B1&B2&B3).
      2: destruct (si_tw _ _ HS bc L1) as (B1&B2&B3).
      3: destruct (si_tw _ _ HS ca L2) as (B1&B2&B3).
      all: destruct (Hold _ (L_lt m HS _ B1)) as [-> ->]; split_and!; [by apply HoldL|done|congruence|done].
    - intros h HXh HLh.
      assert (hd m' (tw m ab) = a ∧ hd m' (tw m bc) = b ∧ hd m' (tw m ca) = c) as (Q1&Q2&Q3).
      { pose proof (Htl ab HL) as Q1. pose proof (Htl bc L1) as Q2. pose proof (Htl ca L2) as Q3.
        unfold tl in *. split_and!; congruence. }
      destruct HXh as [->|[->|[->|[->|[->|[->|[->|[->| ->]]]]]]]]; rwm m'; eexists; 
        (split; [reflexivity|]); (split; [by auto|]); (split; [unfold X, N6; by auto 9|]); (split; [unfold X, N6; by auto 9|]);
        split_and!; first [done|reflexivity].
    - intros h HXh HLh HXt. destruct (si_tw _ _ HS h HLh) as (B1&B2&B3).
      destruct (Hold _ (L_lt m HS _ B1)) as [-> ->]. split; [by apply HoldL|done].
    - intros u v h. rewrite Hem. unfold l, split_cmds. cmdcbn. split.
      + rewrite !lookup_insert_Some.
        intros [[E <-]|[_ [[E <-]|[_ [[E <-]|[_ [[E <-]|[_ [[E <-]|[_ [[E <-]|[_ E]]]]]]]]]]]].
        1-6: injection E as <- <-; rwm m'; split_and!; [done|reflexivity|reflexivity].
        apply (si_em _ _ HS) in E as (B1&B2&B3). split; [by apply HoldL|].
        fold (tl m' h). rewrite Hhd, Htl by done. done.
      + intros (HLh&Eh&Et). destruct (HL' h HLh) as [HLo|HN].
        * rewrite Hhd in Eh by done. fold (tl m' h) in Et. rewrite Htl in Et by done.
          assert (v ≠ w) by (rewrite <- Eh; by apply Hfresh).
          assert (u ≠ w) by (rewrite <- Et; by apply Hfresht).
          rewrite !lookup_insert_ne by congruence. by apply (si_em _ _ HS).
        * destruct HN as [->|[->|[->|[->|[->| ->]]]]]; revert Eh Et; rwm m'; intros <- <-;
            rewrite ?lookup_insert_ne by congruence; apply lookup_insert.
    - apply (fan_transfer m m' (λ _, False)); try done.
      + intros h HLh _. destruct (Hold h (L_lt m HS _ HLh)) as [_ ->]. split; [done|].
        destruct (Xdec h) as [HXh|HXh]; [|by destruct (Hunf h HXh) as (_&_&_&_&->)].
        destruct HXh as [->|[->|[->|HXh]]].
        4: exfalso; by eapply HN6, HXh; apply (L_lt m HS).
        all: rwm m'; split; congruence.
      + intros t HIt _. exists (pv m t). destruct (Xdec t) as [HXh|HXh].
        * exists 0%nat, 1%nat. split; [by apply (In_pv m HS)|]. split; [tauto|]. split; [apply hop_1|].
          destruct HXh as [->|[->|[->|HXh]]].
          4: exfalso; eapply HN6, HXh; apply (L_lt m HS), HIt.
          1: replace (pv m ab) with (pv m' (n + 0)) by congruence.
          2: replace (pv m bc) with (pv m' (n + 4)) by congruence.
          3: replace (pv m ca) with (pv m' (n + 2)) by congruence.
          all: apply hop_S; [rwm m'; congruence|].
          all: match goal with |- hop _ _ ?t (pv _ ?s) => replace t with s by (rwm m'; reflexivity) end; apply hop_1.
        * exists 0%nat, 0%nat. split; [by apply (In_pv m HS)|]. split; [tauto|]. split; [apply hop_1|].
          destruct (Hunf t HXh) as (_&_&<-&_&_). apply hop_1. }
  pose proof (wf_si _ HW') as HS'.
  split.
  - done.
  - intros (x & E & Hr). rewrite Gf in E. by injection E as <-.
  - rewrite <- (N.add_0_r (nfaces m)). fold F0. apply oriented_face_L; [done|]. exists (n + 0). unfold tl. rwm m'. by auto.
  - apply oriented_face_L; [done|]. exists (n + 2). unfold tl. rwm m'. by auto.
  - apply oriented_face_L; [done|]. exists (n + 4). unfold tl. rwm m'. by auto.
  - intros g a' b' c' Hg Hlt. apply same_oriented; [done|done| |].
    + apply Gun; [done|neq..].
    + intros h HLh Hfh. assert (¬ X h) as HXh.
      { intros [->|[->|[->|HN]]]; [congruence..|]. eapply HN6, HN. by apply (L_lt m HS). }
      destruct (Hunf h HXh) as (?&?&?&?&?). split_and!; try congruence; [by apply HoldL|by apply Htl].
  - done.
  - done.
  - apply same_positions_intro; [done..|]. intros v x Hv.
    destruct (decide (v = w)) as [->|]; [|destruct (decide (v = a)) as [->|];
      [|destruct (decide (v = b)) as [->|]; [|destruct (decide (v = c)) as [->|]]]].
    5: exists x; by rewrite Vun.
    all: eexists; split; [eapply Vn; [eauto|done]|done].
Qed.

(** outcome of splitting the face [f] = (a,b,c) by a new vertex [w] at [p] *)
Record SplitFaceAt m f (p : P) a b c w m' : Prop := {
  sfa_wf : WF m';
  sfa_w : w = nverts m ∧ nverts m' = nverts m + 1;
  sfa_pos : vpos <$> verts m' !! w = Some p ∧ vrem <$> verts m' !! w = Some false;
  sfa_old : ∀ v, v ≠ w → vpos <$> verts m' !! v = vpos <$> verts m !! v ∧
                         vrem <$> verts m' !! v = vrem <$> verts m !! v;
  sfa_f : ¬ live_face m' f;
  sfa_1 : oriented_face m' (nfaces m) a w c;
  sfa_2 : oriented_face m' (nfaces m + 1) c w b;
  sfa_3 : oriented_face m' (nfaces m + 2) b w a;
  sfa_rest : ∀ g a' b' c', g ≠ f → g < nfaces m →
     (oriented_face m' g a' b' c' ↔ oriented_face m g a' b' c');
  sfa_size : nfaces m' = nfaces m + 3 ∧ nhes m' = nhes m + 6
}.

Lemma split_inside_ok m f p a b c : WF m → oriented_face m f a b c →
  nverts m < umax → nhes m + 6 ≤ umax → nfaces m + 3 ≤ umax →
  ∃ m', split_inside m f p =
      Some (m', SplitFace (nverts m) [nfaces m; nfaces m + 1; nfaces m + 2]) ∧
    SplitFaceAt m f p a b c (nverts m) m'.
Proof.
  intros HW Hor Hv Hh Hf. pose proof (wf_si _ HW) as HS.
  destruct (add_vertex_ok m p HW Hv) as (m1 & w & Ea & [HW1 [-> Hn1] [Hp1 Hr1] Ho1 Hs1 [Hh1 Hf1]]).
  pose proof (wf_si _ HW1) as HS1.
  assert (oriented_face m1 f a b c) as Hor1 by (by apply Hs1).
  pose proof (proj1 (oriented_face_L _ _ _ _ _ HS) Hor) as (ab&Hx&HL&Hfab&Ha&Hb&Hc).
  pose proof (proj1 (oriented_face_L _ _ _ _ _ HS1) Hor1) as (ab1&Hx1&HL1&Hfab1&Ha1&Hb1&Hc1).
  assert (hes m1 = hes m ∧ faces m1 = faces m) as [Ehes Efc].
  { unfold add_vertex, pushV in Ea. rewrite (proj2 (N.ltb_lt _ _) Hv) in Ea. cbn [mbind option_bind] in Ea.
    injection Ea as <-. done. }
  assert (ab1 = ab) as -> by (rewrite Efc in Hx1; congruence).
  assert (∀ h, he m1 h = he m h) as Ehe by (intros h; unfold he; by rewrite Ehes).
  destruct (split_cmds_ok m1 f ab a b c (nverts m)) as (m' & Er & Hsp); try done; try lia.
  { intros h HLh Hw. pose proof (si_hd _ _ HS h) as Hlt.
    assert (L m h) as HLm by (apply L_spec; apply L_spec in HLh; by rewrite <- Ehes).
    specialize (Hlt HLm). unfold hd in Hw, Hlt. rewrite Ehe in Hw. lia. }
  destruct (face3 m HS _ _ HL Hfab) as (L1&L2&F1&F2&N1&N2&N3&N4&T1&T2&T3&D1&D2&D3).
  assert (nx m1 ab = nx m ab) as Enx by (unfold nx; by rewrite Ehe).
  assert (nx m1 (nx m ab) = nx m (nx m ab)) as Enx' by (unfold nx; by rewrite !Ehe).
  assert (getH m1 (nx m (nx m ab)) = Some (he m (nx m (nx m ab)))) as Eca.
  { unfold getH. rewrite Ehes. apply L_getH. congruence. }
  assert (hv (he m (nx m (nx m ab))) = a) as Eva.
  { fold (hd m (nx m (nx m ab))). rewrite N1, <- T3. done. }
  exists m'. split.
  - unfold split_inside. unfold getF. rewrite Hx. cbn [mbind option_bind frem fhe negb assertb].
    rewrite (L_getH m ab HL). cbn [mbind option_bind]. fold (nx m ab).
    rewrite (L_getH m _ L1). cbn [mbind option_bind]. fold (nx m (nx m ab)).
    rewrite Ea. cbn [mbind option_bind]. rewrite Eca. cbn [mbind option_bind].
    rewrite Enx, Enx' in Er. unfold split_cmds in Er.
    fold (hd m ab) (hd m (nx m ab)). rewrite Eva, Hb, Hc, Er. cbn [mbind option_bind].
    by rewrite Hf1, N.add_0_r.
  - destruct Hsp. rewrite ?Hf1, ?Hh1, ?Hn1 in *. destruct sf_pos0 as [Hnv Hpos].
    split; try done.
    + split; [done|]. by rewrite Hnv.
    + destruct (Hpos (nverts m)) as [-> ->]. done.
    + intros v Hvw. destruct (Hpos v) as [-> ->]. by rewrite Ho1.
    + intros g a' b' c' ??. rewrite sf_rest0 by done. apply Hs1.
Qed.
End split_face.
