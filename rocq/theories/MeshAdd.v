(** add_triangle (mesh/triangle.rs 591-798) preserves the invariant. *)
From Verif Require Export MeshWeld.
Local Open Scope N_scope.

Section add.
Context {P : Type}.
Implicit Types (m : mesh P) (h k b c f u v e : N).

Lemma BI_ring m : SI m None → BI m → ring_ok m.
Proof.
  intros HS HB b HL Hb. destruct (HB b HL Hb) as (H1 & H2 & H3 & H4).
  destruct (fan_end m HS _ _ HL Hb H1) as (H5 & H6 & _).
  destruct (HB _ H5 H6) as (_ & G2 & G3 & G4).
  destruct (HB _ H3 H4) as (K1 & _).
  split; [done|]. split; [done|]. split.
  { by apply (fan_inj m HS (pv m (nx m b)) b (nx m b)). }
  split; [done|]. split; [done|]. by apply (fan_fun m (pv m b)).
Qed.

Lemma em_sym m s u v h : SI m s → emap m !! (u, v) = Some h → emap m !! (v, u) = Some (tw m h).
Proof.
  intros HS E. apply (si_em _ _ HS) in E as (HL & E1 & E2).
  destruct (si_tw _ _ HS h HL) as (HL' & Ett & _).
  apply (si_em _ _ HS). rewrite Ett. done.
Qed.

Lemma em_inj m s h h' : SI m s → L m h → L m h' → hd m h = hd m h' → tl m h = tl m h' → h = h'.
Proof.
  intros HS HL HL' E1 E2.
  assert (emap m !! (tl m h, hd m h) = Some h) as X by (by apply (si_em _ _ HS)).
  assert (emap m !! (tl m h, hd m h) = Some h') as Y by (by apply (si_em _ _ HS)).
  congruence.
Qed.

Lemma em_None m s u v : SI m s → emap m !! (u, v) = None → emap m !! (v, u) = None.
Proof.
  intros HS E. destruct (emap m !! (v, u)) as [h|] eqn:E'; [|done].
  apply (em_sym m s) in E'; [|done]. congruence.
Qed.

(** the directed edge u→v carries no face *)
Definition free m u v : Prop := ∀ h, emap m !! (u, v) = Some h → fc m h = None.

Lemma dir_is_free_ok m s u v : SI m s →
  ∃ r : bool, dir_is_free m u v = Some r ∧ (r = true ↔ free m u v).
Proof.
  intros HS. unfold dir_is_free, free. destruct (emap m !! (u, v)) as [h|] eqn:E.
  - apply (si_em _ _ HS) in E as (HL & _ & _). rewrite (L_getH _ _ HL). simpl.
    rewrite (L_rem _ _ HL). simpl. eexists. split; [done|]. fold (fc m h). split.
    + destruct (fc m h) eqn:Ef; [done|]. intros _ h' [= <-]. done.
    + intros H. rewrite (H h eq_refl). done.
  - exists true. split; [done|]. split; [|done]. intros _ h. done.
Qed.

Record ED m f u v m' e (nw : bool) (pn : option (N * N)) : Prop := {
  ed_si : SI m' (Some f);
  ed_ring : ring_ok m';
  ed_e : L m' e ∧ fc m' e = Some f ∧ hd m' e = v ∧ hd m' (tw m' e) = u;
  ed_faces : faces m' = faces m; ed_nfaces : nfaces m' = nfaces m;
  ed_verts : verts m' = verts m; ed_nverts : nverts m' = nverts m;
  ed_nhes : nhes m ≤ nhes m' ≤ nhes m + 2;
  ed_old : ∀ h, L m h → L m' h ∧ hd m' h = hd m h ∧ tw m' h = tw m h ∧ (h ≠ e → fc m' h = fc m h);
  ed_int : ∀ h, L m h → fc m h ≠ None → h ≠ e ∧ nx m' h = nx m h ∧ pv m' h = pv m h;
  ed_new : ∀ h, L m' h → L m h ∨ h = e ∨ (nw = true ∧ h = tw m' e ∧ fc m' h = None);
  ed_eold : L m e → fc m e = None ∧ nw = false;
  ed_border : ∀ b, L m' b → fc m' b = None →
     (L m b ∧ fc m b = None ∧ nx m' b = nx m b ∧ pv m' b = pv m b) ∨
     (nw = true ∧ b = tw m' e) ∨ b ∈ pn_list pn;
  ed_em : ∀ k : N * N, k ≠ (u, v) → k ≠ (v, u) → emap m' !! k = emap m !! k;
  ed_em_mono : ∀ (k : N * N) h, emap m !! k = Some h → emap m' !! k = Some h
}.

Lemma ensure_promote m f u v e :
  SI m (Some f) → ring_ok m → L m e → fc m e = None → hd m e = v → hd m (tw m e) = u →
  emap m !! (u, v) = Some e →
  ∃ m', ensure_dir m f u v = Some (m', e, false, Some (pv m e, nx m e)) ∧
    ED m f u v m' e false (Some (pv m e, nx m e)).
Proof.
  intros HS HR HL Hf Hv Hu Em.
  destruct (HR e HL Hf) as (HLn & Hfn & Hpn & HLp & Hfp & Hnp).
  destruct (si_tw _ _ HS e HL) as (HLt & Ett & Hne).
  pose proof (si_out _ _ HS e HL Hf) as Hft.
  assert (tw m e ≠ e) as Hte by (intros E; congruence).
  assert (tw m e ≠ umax) as Htu.
  { intros E. apply L_ok, (si_hb _ _ HS) in HLt. pose proof (si_hmax _ _ HS). lia. }
  unfold ensure_dir. rewrite Em. rewrite (L_getH _ _ HL). cbn [mbind option_bind].
  fold (fc m e). rewrite Hf. cbn [assertb is_none mbind option_bind].
  fold (pv m e). fold (nx m e).
  assert (∃ m1, unlink_border m e = Some m1 ∧
    (∀ h, he m1 h = mkHE (hv (he m h)) (hface (he m h))
       (if (h =? pv m e) && negb (pv m e =? e) && negb (nx m e =? e) then nx m e else nx m h)
       (if (h =? nx m e) && negb (pv m e =? e) && negb (nx m e =? e) then pv m e else pv m h)
       (htwin (he m h)) (hrem (he m h))) ∧
    (∀ h, is_live m1 h = is_live m h) ∧ (∀ h, is_Some (hes m1 !! h) ↔ is_Some (hes m !! h)) ∧
    verts m1 = verts m ∧ nverts m1 = nverts m ∧ nhes m1 = nhes m ∧ faces m1 = faces m ∧
    nfaces m1 = nfaces m ∧ emap m1 = emap m) as (m1 & E1 & Hhe1 & Hlv1 & Hok1 & Ev1 & Env1 & Enh1 & Ef1 & Enf1 & Eem1).
  { unfold unlink_border. rewrite (L_getH _ _ HL). cbn [mbind option_bind].
    fold (fc m e). rewrite Hf, (L_rem _ _ HL). cbn [assertb is_none mbind option_bind andb negb].
    fold (pv m e). fold (nx m e).
    destruct (N.eqb_spec (pv m e) e) as [Epe|Npe]; simpl.
    { exists m. split; [done|]. split; [|done]. intros h.
      rewrite !andb_false_r. simpl. unfold nx, pv. by destruct (he m h). }
    destruct (N.eqb_spec (nx m e) e) as [Ene|Nne]; simpl.
    { exists m. split; [done|]. split; [|done]. intros h.
      rewrite !andb_false_r. simpl. unfold nx, pv. by destruct (he m h). }
    rewrite updH_eq by (by apply L_ok). cbn [mbind option_bind].
    rewrite updH_eq by (rewrite putH_lookup; right; by apply L_ok).
    eexists. split; [done|]. split; [|split; [|split; [|done]]].
    - intros h. rewrite !he_putH. rewrite !andb_true_r.
      destruct (N.eqb_spec h (nx m e)) as [->|].
      + destruct (N.eqb_spec (nx m e) (pv m e)) as [EE|]; [by rewrite EE|done].
      + destruct (N.eqb_spec h (pv m e)) as [->|]; [done|]. unfold nx, pv. by destruct (he m h).
    - intros h. rewrite !live_putH. simpl. rewrite !he_putH.
      destruct (N.eqb_spec h (nx m e)) as [->|].
      + destruct (N.eqb_spec (nx m e) (pv m e)) as [EE|]; simpl;
          rewrite ?(L_rem _ _ HLn), ?(L_rem _ _ HLp); by rewrite HLn.
      + destruct (N.eqb_spec h (pv m e)) as [->|]; [|done]. by rewrite (L_rem _ _ HLp), HLp.
    - intros h. rewrite !putH_lookup. split; [|by auto].
      intros [->|[->|?]]; [by apply L_ok|by apply L_ok|done]. }
  rewrite E1. cbn [mbind option_bind].
  rewrite updH_eq by (apply Hok1; by apply L_ok). cbn [mbind option_bind].
  rewrite getH_ok by (rewrite putH_lookup; by left). cbn [mbind option_bind].
  rewrite he_putH, N.eqb_refl. cbn [htwin with_face].
  assert (htwin (he m1 e) = tw m e) as -> by (by rewrite Hhe1).
  destruct (N.eqb_spec (tw m e) umax); [done|].
  rewrite updH_eq by (rewrite putH_lookup; right; apply Hok1; by apply L_ok).
  cbn [mbind option_bind].
  set (m' := putH (putH _ _ _) _ _). exists m'. split; [done|].
  assert (∀ h, he m' h = mkHE (hv (he m h)) (if h =? e then Some f else hface (he m h))
       (if (h =? pv m e) && negb (pv m e =? e) && negb (nx m e =? e) then nx m e else nx m h)
       (if (h =? nx m e) && negb (pv m e =? e) && negb (nx m e =? e) then pv m e else pv m h)
       (if h =? tw m e then e else htwin (he m h)) (hrem (he m h))) as Hhe.
  { intros h. unfold m'. rewrite !he_putH. rewrite !Hhe1.
    destruct (N.eqb_spec (tw m e) e); [done|]. 
    destruct (N.eqb_spec h (tw m e)) as [->|].
    - destruct (N.eqb_spec (tw m e) e); [done|]. done.
    - destruct (N.eqb_spec h e) as [->|]; done. }
  assert (∀ h, is_live m' h = is_live m h) as Hlv.
  { intros h. unfold m'. rewrite !live_putH, !he_putH, !Hhe1, !Hlv1. simpl.
    destruct (N.eqb_spec (tw m e) e); [done|]. simpl.
    destruct (N.eqb_spec h (tw m e)) as [->|]; [by rewrite (L_rem _ _ HLt), HLt|].
    destruct (N.eqb_spec h e) as [->|]; [by rewrite (L_rem _ _ HL), HL|done]. }
  assert (∀ h, L m' h ↔ L m h) as HLL by (intros h; unfold L; by rewrite Hlv).
  assert (∀ h, hd m' h = hd m h) as Hhd by (intros h; unfold hd; by rewrite Hhe).
  assert (∀ h, tw m' h = tw m h) as Htw.
  { intros h; unfold tw; rewrite Hhe; simpl. fold (tw m e).
    destruct (N.eqb_spec h (tw m e)) as [->|]; [|done]. exact (eq_sym Ett). }
  assert (∀ h, fc m' h = if h =? e then Some f else fc m h) as Hfc
    by (intros h; unfold fc; by rewrite Hhe).
  assert (∀ h, fc m h ≠ None → nx m' h = nx m h) as Hnx.
  { intros h Hh. unfold nx. rewrite Hhe. simpl.
    destruct (N.eqb_spec h (pv m e)) as [->|]; [|done]. done. }
  assert (∀ h, fc m h ≠ None → pv m' h = pv m h) as Hpv.
  { intros h Hh. unfold pv. rewrite Hhe. simpl.
    destruct (N.eqb_spec h (nx m e)) as [->|]; [|done]. done. }
  assert (∀ h, is_Some (hes m' !! h) ↔ is_Some (hes m !! h)) as Hok.
  { intros h. unfold m'. rewrite !putH_lookup, Hok1. split; [|by auto].
    intros [->|[->|?]]; [by apply L_ok|by apply L_ok|done]. }
  assert (SI m' (Some f)) as HS'.
  { split.
    - intros h. rewrite Hok. unfold m'. simpl. rewrite Enh1. apply (si_hb _ _ HS).
    - unfold m'. simpl. rewrite Enh1. apply (si_hmax _ _ HS).
    - unfold m'. simpl. rewrite Ef1, Enf1. apply (si_fb _ _ HS).
    - unfold m'. simpl. rewrite Enf1. apply (si_fmax _ _ HS).
    - unfold m'. simpl. rewrite Ev1, Env1. apply (si_vb _ _ HS).
    - unfold m'. simpl. rewrite Env1. apply (si_vmax _ _ HS).
    - intros h. rewrite !HLL, !Htw, !Hhd. apply (si_tw _ _ HS).
    - intros u' v' h. rewrite !HLL, !Htw, !Hhd. unfold m'; simpl. rewrite Eem1. apply (si_em _ _ HS).
    - intros h f'. rewrite HLL, Hfc. intros HLh Hfh Hs.
      destruct (N.eqb_spec h e) as [->|Nhe]; [congruence|].
      destruct (si_in _ _ HS h f' HLh Hfh Hs) as (I1&I2&I3&I4&I5&I6&I7&I8&I9).
      rewrite (Hnx h), (Hpv h) by (by rewrite Hfh).
      rewrite (Hnx (nx m h)), (Hpv (nx m h)) by (by rewrite I2).
      rewrite (Hnx (pv m h)) by (by rewrite I5).
      rewrite !HLL, !Hfc, !Htw, !Hhd.
      destruct (N.eqb_spec (nx m h) e) as [EE|]; [congruence|].
      destruct (N.eqb_spec (pv m h) e) as [EE|]; [congruence|].
      unfold m'; simpl. rewrite Ef1. done.
    - intros b. rewrite HLL, !Hfc, Htw. destruct (N.eqb_spec b e); [done|].
      intros Hb Hfb. destruct (N.eqb_spec (tw m b) e); [done|]. by apply (si_out _ _ HS).
    - intros h. rewrite HLL, Hhd. unfold m'; simpl. rewrite Env1. apply (si_hd _ _ HS). }
  split; try done.
  - (* ring *)
    assert (∀ h, nx m' h = if (h =? pv m e) && negb (pv m e =? e) && negb (nx m e =? e) then nx m e else nx m h) as Hnx'
      by (intros h; unfold nx; by rewrite Hhe).
    assert (∀ h, pv m' h = if (h =? nx m e) && negb (pv m e =? e) && negb (nx m e =? e) then pv m e else pv m h) as Hpv'
      by (intros h; unfold pv; by rewrite Hhe).
    intros b. rewrite HLL, Hfc. destruct (N.eqb_spec b e) as [|Nbe]; [done|].
    intros HLb Hfb. destruct (HR b HLb Hfb) as (R1&R2&R3&R4&R5&R6).
    rewrite !HLL, !Hfc.
    split; [|split; [|split; [|split; [|split]]]].
    + rewrite Hnx'. by destruct (_ && _).
    + rewrite Hnx'. destruct (N.eqb_spec b (pv m e)) as [Eb|Eb]; simpl.
      * destruct (N.eqb_spec (pv m e) e); [congruence|]. simpl.
        destruct (N.eqb_spec (nx m e) e); [congruence|]. simpl.
        destruct (N.eqb_spec (nx m e) e); [done|done].
      * destruct (N.eqb_spec (nx m b) e) as [EE|]; [|done]. congruence.
    + rewrite (Hnx' b). destruct (N.eqb_spec b (pv m e)) as [Eb|Eb]; simpl.
      * destruct (N.eqb_spec (pv m e) e) as [|]; [congruence|]. simpl.
        destruct (N.eqb_spec (nx m e) e) as [|]; [congruence|]. simpl.
        rewrite Hpv', N.eqb_refl. simpl. 
        destruct (N.eqb_spec (pv m e) e) as [|]; [congruence|].
        destruct (N.eqb_spec (nx m e) e) as [|]; [congruence|]. done.
      * rewrite Hpv'. destruct (N.eqb_spec (nx m b) (nx m e)) as [EE|]; [|done].
        exfalso. congruence.
    + rewrite Hpv'. by destruct (_ && _).
    + rewrite Hpv'. destruct (N.eqb_spec b (nx m e)) as [Eb|Eb]; simpl.
      * destruct (N.eqb_spec (pv m e) e); [congruence|]. simpl.
        destruct (N.eqb_spec (nx m e) e); [congruence|]. simpl.
        destruct (N.eqb_spec (pv m e) e); [done|done].
      * destruct (N.eqb_spec (pv m b) e) as [EE|]; [|done]. congruence.
    + rewrite (Hpv' b). destruct (N.eqb_spec b (nx m e)) as [Eb|Eb]; simpl.
      * destruct (N.eqb_spec (pv m e) e) as [|]; [congruence|]. simpl.
        destruct (N.eqb_spec (nx m e) e) as [|]; [congruence|]. simpl.
        rewrite Hnx', N.eqb_refl. simpl. 
        destruct (N.eqb_spec (pv m e) e) as [|]; [congruence|].
        destruct (N.eqb_spec (nx m e) e) as [|]; [congruence|]. done.
      * rewrite Hnx'. destruct (N.eqb_spec (pv m b) (pv m e)) as [EE|]; [|done].
        exfalso. congruence.
  - rewrite HLL, Hfc, N.eqb_refl, Htw, !Hhd. done.
  - unfold m'; simpl. rewrite Enh1. lia.
  - intros h HLh. rewrite HLL, Hhd, Htw, Hfc. split; [done|]. split; [done|]. split; [done|].
    intros. destruct (N.eqb_spec h e); done.
  - intros h HLh Hfh. split; [congruence|]. auto.
  - intros h. rewrite HLL. by left.
  - intros b. rewrite HLL, Hfc. destruct (N.eqb_spec b e) as [|Nbe]; [done|].
    intros HLb Hfb.
    destruct (decide (b = pv m e)) as [->|]; [right; right; simpl; set_solver|].
    destruct (decide (b = nx m e)) as [->|]; [right; right; simpl; set_solver|].
    left. split; [done|]. split; [done|]. unfold nx, pv. rewrite !Hhe. simpl.
    fold (nx m e) (pv m e).
    destruct (N.eqb_spec b (pv m e)); [done|]. destruct (N.eqb_spec b (nx m e)); done.
  - intros k ? ?. unfold m'; simpl. by rewrite Eem1.
  - intros k h. unfold m'; simpl. by rewrite Eem1.
Qed.

Lemma pushH_eq m x : nhes m < umax → pushH m x =
  Some (mkMesh (verts m) (nverts m) (<[nhes m := x]> (hes m)) (nhes m + 1)
               (faces m) (nfaces m) (emap m)).
Proof. intros H. unfold pushH. apply N.ltb_lt in H. by rewrite H. Qed.

Lemma ensure_create m f u v :
  SI m (Some f) → ring_ok m → emap m !! (u, v) = None → u ≠ v →
  u < nverts m → v < nverts m → nhes m + 2 ≤ umax →
  ∃ m', ensure_dir m f u v = Some (m', nhes m, true, None) ∧
    ED m f u v m' (nhes m) true None.
Proof.
  intros HS HR Em Huv Hu Hv Hsz.
  pose proof (em_None _ _ _ _ HS Em) as Em'.
  assert (∀ h, L m h → h < nhes m) as Hlt.
  { intros h ?%L_ok. by apply (si_hb _ _ HS). }
  unfold ensure_dir. rewrite Em. rewrite pushH_eq by lia. cbn [mbind option_bind].
  cbn [em_insert emap set_emap]. rewrite lookup_insert_ne by congruence. rewrite Em'.
  rewrite pushH_eq by (cbn [nhes em_insert set_emap]; lia).
  cbn [mbind option_bind].
  set (e := nhes m). set (b := nhes m + 1).
  rewrite updH_eq.
  2: { simpl. apply lookup_insert_is_Some'. right. apply lookup_insert_is_Some'. by left. }
  cbn [mbind option_bind].
  set (m' := putH _ _ _). exists m'. split; [done|].
  assert (b ≠ e) as Hbe by (unfold b, e; lia).
  assert (∀ h, he m' h = if h =? e then mkHE v (Some f) umax umax b false
     else if h =? b then mkHE u None b b e false else he m h) as Hhe.
  { intros h. unfold m'. rewrite he_putH. destruct (N.eqb_spec h e) as [->|].
    - unfold he; simpl. rewrite lookup_insert_ne by done. by rewrite lookup_insert.
    - unfold he; simpl. destruct (N.eqb_spec h b) as [->|].
      + by rewrite lookup_insert.
      + by rewrite !lookup_insert_ne by done. }
  assert (∀ h, is_live m' h = if h =? e then true else if h =? b then true else is_live m h) as Hlv.
  { intros h. unfold m'. rewrite live_putH. destruct (N.eqb_spec h e) as [->|].
    - unfold he; simpl. rewrite lookup_insert_ne by done. by rewrite lookup_insert.
    - unfold is_live, getH; simpl. destruct (N.eqb_spec h b) as [->|].
      + by rewrite lookup_insert.
      + by rewrite !lookup_insert_ne by done. }
  assert (∀ h, L m' h ↔ h = e ∨ h = b ∨ L m h) as HLL.
  { intros h. unfold L. rewrite Hlv. destruct (N.eqb_spec h e); [naive_solver|].
    destruct (N.eqb_spec h b); naive_solver. }
  assert (∀ h, L m h → h ≠ e ∧ h ≠ b) as Hneb.
  { intros h HLh%Hlt. unfold e, b. lia. }
  assert (∀ h, L m h → he m' h = he m h) as Hold.
  { intros h HLh. destruct (Hneb h HLh). rewrite Hhe.
    destruct (N.eqb_spec h e); [done|]. by destruct (N.eqb_spec h b). }
  assert (∀ h, L m h → nx m' h = nx m h) as Onx by (intros; unfold nx; by rewrite Hold).
  assert (∀ h, L m h → pv m' h = pv m h) as Opv by (intros; unfold pv; by rewrite Hold).
  assert (∀ h, L m h → tw m' h = tw m h) as Otw by (intros; unfold tw; by rewrite Hold).
  assert (∀ h, L m h → hd m' h = hd m h) as Ohd by (intros; unfold hd; by rewrite Hold).
  assert (∀ h, L m h → fc m' h = fc m h) as Ofc by (intros; unfold fc; by rewrite Hold).
  assert (he m' e = mkHE v (Some f) umax umax b false) as Hee by (by rewrite Hhe, N.eqb_refl).
  assert (he m' b = mkHE u None b b e false) as Heb.
  { rewrite Hhe, N.eqb_refl. destruct (N.eqb_spec b e); done. }
  assert (nhes m' = nhes m + 2) as Hn by (unfold m'; simpl; lia).
  assert (emap m' = <[(v, u) := b]> (<[(u, v) := e]> (emap m))) as Hem by done.
  assert (∀ h, is_Some (hes m' !! h) ↔ h < nhes m + 2) as Hok.
  { intros h. unfold m'. rewrite putH_lookup. simpl.
    rewrite !lookup_insert_is_Some', (si_hb _ _ HS). unfold e, b. split; [lia|].
    intros. destruct (decide (h = nhes m)); [auto|]. destruct (decide (h = nhes m + 1)); [auto|].
    right; right; right. lia. }
  assert (SI m' (Some f)) as HS'.
  { split.
    - intros h. by rewrite Hok, Hn.
    - lia.
    - apply (si_fb _ _ HS).
    - apply (si_fmax _ _ HS).
    - apply (si_vb _ _ HS).
    - apply (si_vmax _ _ HS).
    - intros h. rewrite HLL. intros [->|[->|HLh]].
      + unfold tw, hd. rewrite Hee. simpl. rewrite Heb. simpl. rewrite HLL. auto.
      + unfold tw, hd. rewrite Heb. simpl. rewrite Hee. simpl. rewrite HLL. auto.
      + destruct (si_tw _ _ HS h HLh) as (T1&T2&T3).
        assert (tw m' h = tw m h) as Et by (unfold tw; by rewrite Hold).
        assert (tw m' (tw m h) = tw m (tw m h)) as Et' by (unfold tw at 1; by rewrite Hold).
        rewrite Et, Et', HLL. unfold hd. rewrite !Hold by done. auto.
    - intros u' v' h. rewrite Hem, HLL.
      destruct (decide ((u', v') = (v, u))) as [E|Ne1].
      { injection E as -> ->. rewrite lookup_insert. split.
        - intros [= <-]. unfold hd, tw. rewrite Heb. simpl. rewrite Hee. auto.
        - intros ([->|[->|HLh]] & E1 & E2); [|done|].
          + unfold hd in E1. rewrite Hee in E1. simpl in E1. congruence.
          + exfalso. unfold hd, tw in E1, E2. rewrite (Hold h) in E1, E2 by done.
            rewrite Hold in E2 by (by apply (si_tw _ _ HS)).
            assert (emap m !! (v, u) = Some h) by (by apply (si_em _ _ HS)). congruence. }
      rewrite lookup_insert_ne by done.
      destruct (decide ((u', v') = (u, v))) as [E|Ne2].
      { injection E as -> ->. rewrite lookup_insert. split.
        - intros [= <-]. unfold hd, tw. rewrite Hee. simpl. rewrite Heb. auto.
        - intros ([->|[->|HLh]] & E1 & E2); [done| |].
          + unfold hd in E1. rewrite Heb in E1. simpl in E1. congruence.
          + exfalso. unfold hd, tw in E1, E2. rewrite (Hold h) in E1, E2 by done.
            rewrite Hold in E2 by (by apply (si_tw _ _ HS)).
            assert (emap m !! (u, v) = Some h) by (by apply (si_em _ _ HS)). congruence. }
      rewrite lookup_insert_ne by done. rewrite (si_em _ _ HS). split.
      + intros (HLh & E1 & E2). unfold hd, tw. rewrite !(Hold h) by done.
        rewrite Hold by (by apply (si_tw _ _ HS)). auto.
      + intros ([->|[->|HLh]] & E1 & E2); unfold hd, tw in E1, E2.
        * rewrite Hee in E1, E2. simpl in *. rewrite Heb in E2. simpl in E2. congruence.
        * rewrite Heb in E1, E2. simpl in *. rewrite Hee in E2. simpl in E2. congruence.
        * rewrite !(Hold h) in E1, E2 by done. rewrite Hold in E2 by (by apply (si_tw _ _ HS)). auto.
    - intros h f'. rewrite HLL. intros [->|[->|HLh]].
      + unfold fc. rewrite Hee. simpl. congruence.
      + unfold fc. rewrite Heb. simpl. congruence.
      + intros Hfh Hs. unfold fc in Hfh. rewrite Hold in Hfh by done.
        destruct (si_in _ _ HS h f' HLh Hfh Hs) as (I1&I2&I3&I4&I5&I6&I7&I8&I9).
        rewrite (Onx h), (Opv h), !HLL by done.
        rewrite (Onx (nx m h)), (Onx (pv m h)), (Opv (nx m h)) by done.
        rewrite (Ofc (nx m h)), (Ofc (pv m h)), (Otw (nx m h)), (Ohd h) by done.
        rewrite Ohd by (by apply (si_tw _ _ HS)). auto 20.
    - intros h. rewrite HLL. intros [->|[->|HLh]].
      + unfold fc. rewrite Hee. done.
      + intros _. unfold fc, tw. rewrite Heb. simpl. rewrite Hee. done.
      + intros Hfh. unfold fc in Hfh. rewrite Hold in Hfh by done.
        pose proof (si_out _ _ HS h HLh Hfh). unfold fc, tw. rewrite (Hold h) by done.
        rewrite Hold; [done|]. by apply (si_tw _ _ HS).
    - intros h. rewrite HLL. intros [->|[->|HLh]]; unfold hd.
      + rewrite Hee. done.
      + rewrite Heb. done.
      + rewrite Hold by done. by apply (si_hd _ _ HS). }
  split; try done.
  - intros h. rewrite HLL. intros [->|[->|HLh]].
    + unfold fc. by rewrite Hee.
    + intros _. unfold nx, pv, fc. rewrite !Heb. simpl. rewrite !Heb. simpl. rewrite HLL. auto 20.
    + intros Hfh. unfold fc in Hfh. rewrite Hold in Hfh by done.
      destruct (HR h HLh Hfh) as (R1&R2&R3&R4&R5&R6).
      rewrite (Onx h), (Opv h), !HLL by done.
      rewrite (Onx (pv m h)), (Opv (nx m h)), (Ofc (nx m h)), (Ofc (pv m h)) by done. auto 20.
  - rewrite HLL. unfold fc, hd, tw. rewrite Hee. simpl. rewrite Heb. auto.
  - lia.
  - intros h HLh. rewrite HLL. unfold hd, tw, fc. rewrite Hold by done. auto.
  - intros h HLh Hfh. unfold nx, pv. rewrite Hold by done. destruct (Hneb h HLh). auto.
  - intros h. rewrite HLL. unfold tw, fc. rewrite Hee. simpl. intros [->|[->|?]]; auto.
    right; right. by rewrite Heb.
  - intros HLe. destruct (Hneb _ HLe). done.
  - intros h. rewrite HLL. intros [->|[->|HLh]].
    + unfold fc. by rewrite Hee.
    + intros _. right; left. unfold tw. by rewrite Hee.
    + intros Hfh. left. unfold fc in *. rewrite Hold in Hfh by done. unfold nx, pv. by rewrite Hold.
  - intros k N1 N2. rewrite Hem. by rewrite !lookup_insert_ne by done.
  - intros k h Hk. rewrite Hem. rewrite !lookup_insert_ne; [done| |]; intros <-; congruence.
Qed.

Lemma ensure_ok m f u v :
  SI m (Some f) → ring_ok m → free m u v → u ≠ v →
  u < nverts m → v < nverts m → nhes m + 2 ≤ umax →
  ∃ m' e nw pn, ensure_dir m f u v = Some (m', e, nw, pn) ∧ ED m f u v m' e nw pn.
Proof.
  intros HS HR Hfr Huv Hu Hv Hsz. destruct (emap m !! (u, v)) as [e|] eqn:Em.
  - destruct (proj1 (si_em _ _ HS _ _ _) Em) as (HL & Ev & Eu).
    destruct (ensure_promote m f u v e) as (m' & ? & ?); auto. eauto 10.
  - destruct (ensure_create m f u v) as (m' & ? & ?); auto. eauto 10.
Qed.
End add.
