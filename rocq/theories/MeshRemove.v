(** remove_triangle (mesh/triangle.rs 340-587) preserves the invariant. *)
From Verif Require Export MeshAdd2.
Local Open Scope N_scope.

Section remove.
Context {P : Type}.
Implicit Types (m : mesh P) (h k b c f g u v e t : N).

(** ** Facts about one face *)
Section face.
Context m (HS : SI m None).

Lemma hd_tl_ne h : L m h → tl m h ≠ hd m h.
Proof. intros HL. by apply (si_tw _ _ HS). Qed.

Lemma face3 h f : L m h → fc m h = Some f →
  L m (nx m h) ∧ L m (pv m h) ∧ fc m (nx m h) = Some f ∧ fc m (pv m h) = Some f ∧
  nx m (nx m h) = pv m h ∧ nx m (pv m h) = h ∧ pv m (nx m h) = h ∧ pv m (pv m h) = nx m h ∧
  tl m (nx m h) = hd m h ∧ tl m (pv m h) = hd m (nx m h) ∧ tl m h = hd m (pv m h) ∧
  nx m h ≠ h ∧ pv m h ≠ h ∧ nx m h ≠ pv m h.
Proof.
  intros HL Hf.
  destruct (si_in _ _ HS h f HL Hf) as (N1&N2&N3&N4&N5&N6&N7&N8&_); [done|].
  destruct (si_in _ _ HS _ f N1 N2) as (_&_&O3&_&_&_&O7&O8&_); [done|].
  destruct (si_in _ _ HS _ f N4 N5) as (_&_&_&_&_&_&_&Q8&_); [done|].
  rewrite N7 in *. rewrite N6 in *.
  fold (tl m (nx m h)) in N8. fold (tl m (pv m h)) in O8. fold (tl m h) in Q8.
  pose proof (hd_tl_ne h HL). pose proof (hd_tl_ne _ N1). pose proof (hd_tl_ne _ N4).
  split_and!; try done; intros E; try congruence.
Qed.

Lemma face_cycle h k f : FH m None → L m h → L m k → fc m h = Some f → fc m k = Some f →
  k = h ∨ k = nx m h ∨ k = pv m h.
Proof.
  intros HF HLh HLk Hfh Hfk.
  destruct (si_in _ _ HS h f HLh Hfh) as (_&_&_&_&_&_&_&_&x&Hx&Hr); [done|].
  destruct (HF f x Hx Hr) as (X1&X2&X3); [done|].
  destruct (face3 _ _ X1 X2) as (_&_&_&_&Y1&Y2&Y3&Y4&_).
  destruct (X3 h HLh Hfh) as [->|[->| ->]]; destruct (X3 k HLk Hfk) as [->|[->| ->]];
    rewrite ?Y1, ?Y2, ?Y3, ?Y4; auto.
Qed.

Lemma no_self_glue h f : FH m None → L m h → fc m h = Some f → fc m (tw m h) ≠ Some f.
Proof.
  intros HF HL Hf Ht. destruct (si_tw _ _ HS h HL) as (HLt & Ett & Hne).
  destruct (face3 h f HL Hf) as (L1&L2&_&_&_&_&_&_&T1&T2&T3&_).
  pose proof (hd_tl_ne _ L1) as D1. pose proof (hd_tl_ne _ L2) as D2. unfold tl in *.
  destruct (face_cycle h (tw m h) f HF HL HLt Hf Ht) as [E|[E|E]].
  - congruence.
  - rewrite <- E in *. rewrite Ett in *. congruence.
  - rewrite <- E in *. rewrite Ett in *. congruence.
Qed.
End face.

(** ** Phase 1 *)

(** progress of the removal of face [f] of [m0] *)
Record RS m0 f m (todo nbs : list N) : Prop := {
  rs_si : SI m (Some f);
  rs_ring : ring_ok m;
  rs_verts : verts m = verts m0; rs_nverts : nverts m = nverts m0;
  rs_nhes : nhes m = nhes m0; rs_nfaces : nfaces m = nfaces m0;
  rs_hd : ∀ h, hd m h = hd m0 h;
  rs_tw : ∀ h, tw m h = tw m0 h;
  rs_L : ∀ h, L m h → L m0 h;
  rs_fc : ∀ h, L m h → fc m h = fc m0 h ∨ (fc m0 h = Some f ∧ fc m h = None ∧ h ∈ nbs);
  rs_int : ∀ h g, L m0 h → fc m0 h = Some g → g ≠ f →
     L m h ∧ fc m h = Some g ∧ nx m h = nx m0 h ∧ pv m h = pv m0 h;
  rs_todo : ∀ h, h ∈ todo ↔ L m h ∧ fc m h = Some f;
  rs_dead : ∀ h, L m0 h → ¬ L m h → fc m0 h = Some f ∨ fc m0 (tw m0 h) = Some f;
  rs_bord : ∀ b, L m b → fc m b = None → fc m0 b = None →
     (L m (nx m0 b) → nx m b = nx m0 b) ∧ (L m (pv m0 b) → pv m b = pv m0 b)
}.

Lemma remove_map_ok m s h : SI m s → L m h →
  remove_map_entry_if_owner m h = Some (em_remove m (hd m (tw m h), hd m h)).
Proof.
  intros HS HL. destruct (si_tw _ _ HS h HL) as (HLt & _ & _).
  unfold remove_map_entry_if_owner, key_pair. rewrite (L_getH _ _ HL). cbn [mbind option_bind].
  fold (tw m h). rewrite (L_getH _ _ HLt). cbn [mbind option_bind].
  fold (hd m (tw m h)) (hd m h).
  rewrite (proj2 (si_em _ _ HS (hd m (tw m h)) (hd m h) h)) by done.
  by rewrite N.eqb_refl.
Qed.

Lemma spoke_A m0 f m todo nbs e g :
  RS m0 f m (e :: todo) nbs → NoDup (e :: todo) → fc m (tw m e) = Some g → g ≠ f →
  (∃ y, faces m !! g = Some y ∧ frem y = false) →
  ∃ m', remove_spoke m e = Some (m', [(e, tw m e)]) ∧ faces m' = faces m ∧
    RS m0 f m' todo (e :: nbs).
Proof.
  intros HR Hnd Hft Hgf (y & Hy & Hyr).
  pose proof (rs_si _ _ _ _ _ HR) as HS.
  destruct (proj1 (rs_todo _ _ _ _ _ HR e) ltac:(left)) as [HL Hf].
  apply NoDup_cons in Hnd as [Hni Hnd].
  destruct (si_tw _ _ HS e HL) as (HLt & Ett & Hne).
  unfold remove_spoke. rewrite HL. cbn [negb]. rewrite (L_getH _ _ HL). cbn [mbind option_bind].
  fold (tw m e). 
  assert (tw m e < nhes m) as Hlt by (apply (si_hb _ _ HS), L_ok, HLt).
  rewrite (proj2 (N.ltb_lt _ _) Hlt). cbn [assertb mbind option_bind].
  rewrite (L_getH _ _ HLt). cbn [mbind option_bind]. fold (fc m (tw m e)). rewrite Hft.
  unfold getF. rewrite Hy. cbn [mbind option_bind]. rewrite Hyr. cbn [negb].
  rewrite updH_eq by (by apply L_ok). cbn [mbind option_bind].
  set (m' := putH _ _ _). exists m'. split; [done|]. split; [done|].
  assert (∀ h, he m' h = if h =? e then mkHE (hd m e) None e e (tw m e) false else he m h) as Hhe.
  { intros h. unfold m'. by rewrite he_putH. }
  assert (∀ h, L m' h ↔ L m h) as HLL.
  { intros h. unfold L, m'. rewrite live_putH. destruct (N.eqb_spec h e) as [->|]; [|done].
    simpl. by rewrite HL. }
  assert (∀ h, hd m' h = hd m h) as Hhd.
  { intros h. unfold hd. rewrite Hhe. by destruct (N.eqb_spec h e) as [->|]. }
  assert (∀ h, tw m' h = tw m h) as Htw.
  { intros h. unfold tw. rewrite Hhe. by destruct (N.eqb_spec h e) as [->|]. }
  assert (∀ h, fc m' h = if h =? e then None else fc m h) as Hfc.
  { intros h. unfold fc. rewrite Hhe. by destruct (N.eqb_spec h e) as [->|]. }
  assert (∀ h, nx m' h = if h =? e then e else nx m h) as Hnx.
  { intros h. unfold nx. rewrite Hhe. by destruct (N.eqb_spec h e) as [->|]. }
  assert (∀ h, pv m' h = if h =? e then e else pv m h) as Hpv.
  { intros h. unfold pv. rewrite Hhe. by destruct (N.eqb_spec h e) as [->|]. }
  assert (tw m e ≠ e) as Hte by congruence.
  destruct HR as [_ RR V1 V2 V3 V4 Fhd Ftw FL Ffc Fint Ftodo Fdead Fb]. split; try done.
  - destruct HS as [J1 J2 J3 J4 J5 J6 J8 J9 J10 J11 J12]. split; try done.
    + intros h. unfold m'. rewrite putH_lookup, J1. split; [|by auto]. intros [->|?]; [|done].
      apply J1. by apply L_ok.
    + intros h. rewrite !HLL, !Htw, !Hhd. apply J8.
    + intros u v h. rewrite HLL, Htw, !Hhd. apply J9.
    + intros h f'. rewrite HLL, Hfc. destruct (N.eqb_spec h e) as [|Nhe]; [done|].
      intros HLh Hfh Hs. destruct (J10 h f' HLh Hfh Hs) as (I1&I2&I3&I4&I5&I6&I7&I8&I9).
      rewrite (Hnx h), (Hpv h). destruct (N.eqb_spec h e); [done|].
      rewrite (Hnx (nx m h)), (Hnx (pv m h)), (Hpv (nx m h)), !HLL, !Hfc, Htw, !Hhd.
      destruct (N.eqb_spec (nx m h) e); [congruence|].
      destruct (N.eqb_spec (pv m h) e); [congruence|]. done.
    + intros h. rewrite HLL, !Hfc, Htw. destruct (N.eqb_spec h e) as [->|].
      * intros _ _. destruct (N.eqb_spec (tw m e) e); [done|]. by rewrite Hft.
      * intros HLh Hfh. destruct (N.eqb_spec (tw m h) e) as [E|]; [|by apply J11].
        exfalso. destruct (J8 h HLh) as (_&E'&_). rewrite E in E'. congruence.
    + intros h. rewrite HLL, Hhd. apply J12.
  - intros b. rewrite HLL, Hfc. destruct (N.eqb_spec b e) as [->|Nb].
    + intros HLb _. assert (nx m' e = e) as E1 by (by rewrite Hnx, N.eqb_refl).
      assert (pv m' e = e) as E2 by (by rewrite Hpv, N.eqb_refl).
      rewrite E1, E2, ?E1, ?E2, HLL, Hfc, N.eqb_refl. done.
    + intros HLb Hfb. destruct (RR b HLb Hfb) as (G1&G2&G3&G4&G5&G6).
      rewrite (Hnx b), (Hpv b). destruct (N.eqb_spec b e); [done|].
      rewrite !HLL, !Hfc, Hnx, Hpv. destruct (N.eqb_spec (nx m b) e); [congruence|].
      destruct (N.eqb_spec (pv m b) e); [congruence|]. done.
  - intros h. by rewrite Hhd.
  - intros h. by rewrite Htw.
  - intros h. rewrite HLL. apply FL.
  - intros h. rewrite HLL, Hfc. intros HLh. destruct (Ffc h HLh) as [E|(E1&E2&E3)];
      destruct (N.eqb_spec h e) as [->|]; auto.
    + right. split; [congruence|]. split; [done|]. left.
    + congruence.
    + right. split; [done|]. split; [done|]. by right.
  - intros h g' HLh Hfh Hg. destruct (Fint h g' HLh Hfh Hg) as (G1&G2&G3&G4).
    rewrite HLL, Hfc, Hnx, Hpv. destruct (N.eqb_spec h e) as [->|]; [congruence|]. done.
  - intros h. rewrite HLL, Hfc. specialize (Ftodo h). rewrite elem_of_cons in Ftodo.
    destruct (N.eqb_spec h e) as [->|]; naive_solver.
  - intros h HLh. rewrite HLL. auto.
  - intros b. rewrite HLL, Hfc, !HLL, Hnx, Hpv. destruct (N.eqb_spec b e) as [->|]; [|auto].
    intros _ _ Hb. destruct (Ffc e HL) as [|(?&?&?)]; congruence.
Qed.

Lemma spoke_B m0 f m todo nbs e :
  RS m0 f m (e :: todo) nbs → NoDup (e :: todo) → fc m (tw m e) = None → 
  fc m0 (tw m0 e) = None → fc m0 e = Some f →
  ∃ m', remove_spoke m e = Some (m', []) ∧ faces m' = faces m ∧
    RS m0 f m' todo nbs.
Proof.
  intros HR Hnd Hft Hft0 Hfe0.
  pose proof (rs_si _ _ _ _ _ HR) as HS.
  destruct (proj1 (rs_todo _ _ _ _ _ HR e) ltac:(left)) as [HL Hf].
  apply NoDup_cons in Hnd as [Hni Hnd].
  destruct (si_tw _ _ HS e HL) as (HLt & Ett & Hne).
  set (t := tw m e) in *.
  destruct (rs_ring _ _ _ _ _ HR t HLt Hft) as (HLn & Hfn & Hpn & HLp & Hfp & Hnp).
  set (p := pv m t) in *. set (n := nx m t) in *.
  assert (t ≠ e) as Hte by congruence.
  unfold remove_spoke. rewrite HL. cbn [negb]. rewrite (L_getH _ _ HL). cbn [mbind option_bind].
  fold (tw m e). fold t.
  assert (t < nhes m) as Hlt by (apply (si_hb _ _ HS), L_ok, HLt).
  rewrite (proj2 (N.ltb_lt _ _) Hlt). cbn [assertb mbind option_bind].
  rewrite (L_getH _ _ HLt). cbn [mbind option_bind]. fold (fc m t). rewrite Hft.
  cbn [mbind option_bind]. rewrite HLt. cbn [andb is_none].
  (* splice *)
  unfold splice_out_border. rewrite (L_getH _ _ HLt). cbn [mbind option_bind].
  rewrite (L_rem _ _ HLt). cbn [negb assertb mbind option_bind].
  fold (fc m t). rewrite Hft. cbn [is_none assertb mbind option_bind].
  fold (pv m t) (nx m t). fold p n.
  rewrite updH_eq by (by apply L_ok). cbn [mbind option_bind].
  rewrite updH_eq by (rewrite putH_lookup; right; by apply L_ok). cbn [mbind option_bind].
  set (m1 := putH _ _ _).
  assert (∀ h, he m1 h = mkHE (hd m h) (fc m h) (if h =? p then n else nx m h)
     (if h =? n then p else pv m h) (tw m h) (hrem (he m h))) as Hhe1.
  { intros h. unfold m1. rewrite !he_putH. destruct (N.eqb_spec h n) as [->|].
    - destruct (N.eqb_spec n p) as [->|]; done.
    - destruct (N.eqb_spec h p) as [->|]; [done|]. unfold hd, fc, nx, pv, tw. by destruct (he m h). }
  assert (∀ h, is_live m1 h = is_live m h) as Hlv1.
  { intros h. unfold m1. rewrite !live_putH. cbn [with_prev hrem]. rewrite !he_putH.
    destruct (N.eqb_spec h n) as [->|].
    - destruct (N.eqb_spec n p) as [E|]; simpl; rewrite ?(L_rem _ _ HLp), ?(L_rem _ _ HLn), HLn; done.
    - destruct (N.eqb_spec h p) as [->|]; [|done]. simpl. by rewrite (L_rem _ _ HLp), HLp. }
  assert (∀ h, L m1 h ↔ L m h) as HLL1 by (intros h; unfold L; by rewrite Hlv1).
  assert (∀ h, hd m1 h = hd m h) as Hhd1 by (intros h; unfold hd at 1; by rewrite Hhe1).
  assert (∀ h, tw m1 h = tw m h) as Htw1 by (intros h; unfold tw at 1; by rewrite Hhe1).
  assert (emap m1 = emap m) as Hem1 by done.
  assert (∀ h, L m h → remove_map_entry_if_owner m1 h = Some (em_remove m1 (hd m (tw m h), hd m h))) as Hrm.
  { intros h HLh. unfold remove_map_entry_if_owner, key_pair.
    rewrite L_getH by (by apply HLL1). cbn [mbind option_bind].
    fold (tw m1 h). rewrite Htw1. rewrite L_getH by (apply HLL1; by apply (si_tw _ _ HS)).
    cbn [mbind option_bind]. fold (hd m1 (tw m h)) (hd m1 h). rewrite !Hhd1, Hem1.
    rewrite (proj2 (si_em _ _ HS (hd m (tw m h)) (hd m h) h)) by done. by rewrite N.eqb_refl. }
  rewrite Hrm by done. cbn [mbind option_bind]. fold t in Ett. rewrite Ett.
  assert (∀ h, is_Some (hes m1 !! h) ↔ is_Some (hes m !! h)) as Hok1.
  { intros h. unfold m1. rewrite !putH_lookup. split; [|by auto].
    intros [->|[->|?]]; [by apply L_ok|by apply L_ok|done]. }
  set (m2 := em_remove m1 (hd m e, hd m t)).
  rewrite updH_eq by (apply Hok1; by apply L_ok). cbn [mbind option_bind].
  set (m3 := putH m2 t _).
  assert (∀ h, he m3 h = mkHE (hd m h) (fc m h) (if h =? p then n else nx m h)
     (if h =? n then p else pv m h) (tw m h) (if h =? t then true else hrem (he m h))) as Hhe3.
  { intros h. unfold m3. rewrite !he_putH. destruct (N.eqb_spec h t) as [->|].
    - change (he m2 t) with (he m1 t). rewrite Hhe1. done.
    - change (he m2 h) with (he m1 h). rewrite Hhe1. done. }
  assert (∀ h, is_live m3 h = if h =? t then false else is_live m h) as Hlv3.
  { intros h. unfold m3. rewrite live_putH. change (is_live m2 h) with (is_live m1 h).
    rewrite Hlv1. destruct (N.eqb_spec h t); done. }
  (* drop he *)
  assert (L m3 e) as HL3.
  { unfold L. rewrite Hlv3. destruct (N.eqb_spec e t); [congruence|done]. }
  assert (is_Some (hes m3 !! t)) as Hok3t by (unfold m3; rewrite putH_lookup; by left).
  assert (remove_map_entry_if_owner m3 e = Some (em_remove m3 (hd m t, hd m e))) as ->.
  { unfold remove_map_entry_if_owner, key_pair.
    rewrite (L_getH _ _ HL3). cbn [mbind option_bind]. rewrite Hhe3. cbn [htwin hv].
    fold t. rewrite (getH_ok _ _ Hok3t). cbn [mbind option_bind]. rewrite Hhe3. cbn [hv].
    assert (emap m3 = delete (hd m e, hd m t) (emap m)) as -> by done.
    rewrite lookup_delete_ne by congruence.
    rewrite (proj2 (si_em _ _ HS (hd m t) (hd m e) e)) by done. by rewrite N.eqb_refl. }
  cbn [mbind option_bind].
  set (m4 := em_remove m3 _).
  rewrite updH_eq by (change (is_Some (hes m3 !! e)); by apply L_ok). cbn [mbind option_bind].
  set (m' := putH m4 e _). exists m'. split; [done|]. split; [done|].
  assert (∀ h, he m' h = mkHE (hd m h) (fc m h) (if h =? p then n else nx m h)
     (if h =? n then p else pv m h) (tw m h)
     (if h =? e then true else if h =? t then true else hrem (he m h))) as Hhe.
  { intros h. unfold m'. rewrite he_putH. destruct (N.eqb_spec h e) as [->|].
    - change (he m4 e) with (he m3 e). rewrite Hhe3. done.
    - change (he m4 h) with (he m3 h). rewrite Hhe3. done. }
  assert (∀ h, L m' h ↔ L m h ∧ h ≠ e ∧ h ≠ t) as HLL.
  { intros h. unfold L, m'. rewrite live_putH. change (is_live m4 h) with (is_live m3 h).
    rewrite Hlv3. destruct (N.eqb_spec h e); [naive_solver|].
    destruct (N.eqb_spec h t); naive_solver. }
  assert (∀ h, hd m' h = hd m h) as Hhd by (intros h; unfold hd at 1; by rewrite Hhe).
  assert (∀ h, tw m' h = tw m h) as Htw by (intros h; unfold tw at 1; by rewrite Hhe).
  assert (∀ h, fc m' h = fc m h) as Hfc by (intros h; unfold fc at 1; by rewrite Hhe).
  assert (∀ h, nx m' h = if h =? p then n else nx m h) as Hnx by (intros h; unfold nx at 1; by rewrite Hhe).
  assert (∀ h, pv m' h = if h =? n then p else pv m h) as Hpv by (intros h; unfold pv at 1; by rewrite Hhe).
  assert (∀ h, fc m h ≠ None → nx m' h = nx m h ∧ pv m' h = pv m h) as Hint.
  { intros h Hh. rewrite Hnx, Hpv. destruct (N.eqb_spec h p); [congruence|].
    destruct (N.eqb_spec h n); [congruence|]. done. }
  assert (emap m' = delete (hd m t, hd m e) (delete (hd m e, hd m t) (emap m))) as Hem by done.
  assert (∀ h, L m h → h ≠ e → h ≠ t → tw m h ≠ e ∧ tw m h ≠ t) as Htwne.
  { intros h HLh N1 N2. destruct (si_tw _ _ HS h HLh) as (_&E&_). split; intros E'.
    - rewrite E' in E. unfold t in *. congruence.
    - rewrite E' in E. congruence. }
  destruct HR as [_ RR V1 V2 V3 V4 Fhd Ftw FL Ffc Fint Ftodo Fdead Fb]. split; try done.
  - destruct HS as [J1 J2 J3 J4 J5 J6 J8 J9 J10 J11 J12]. split; try done.
    + intros h. unfold m'. rewrite putH_lookup. change (hes m4) with (hes m3).
      unfold m3. rewrite putH_lookup. change (hes m2) with (hes m1). rewrite Hok1, J1.
      split; [|by auto]. intros [->|[->|?]]; [|done|done]. apply J1. by apply L_ok.
    + intros h. rewrite !HLL, !Htw, !Hhd. intros (HLh&N1&N2).
      destruct (J8 h HLh) as (?&?&?). destruct (Htwne h HLh N1 N2). done.
    + intros u v h. rewrite Hem, HLL, Htw, !Hhd.
      destruct (decide ((hd m t, hd m e) = (u, v))) as [E|Ne1].
      { rewrite E, lookup_delete. split; [done|]. injection E as E1 E2.
        intros ((HLh&N1&N2)&E3&E4). exfalso. apply N1. 
        assert (emap m !! (u, v) = Some h) by (by apply J9).
        assert (emap m !! (u, v) = Some e) by (by apply J9). congruence. }
      rewrite lookup_delete_ne by done.
      destruct (decide ((hd m e, hd m t) = (u, v))) as [E|Ne2].
      { rewrite E, lookup_delete. split; [done|]. injection E as E1 E2.
        intros ((HLh&N1&N2)&E3&E4). exfalso. apply N2. 
        assert (emap m !! (u, v) = Some h) by (by apply J9).
        assert (emap m !! (u, v) = Some t) by (apply J9; split; [done|]; split; [done|]; by rewrite Ett).
        congruence. }
      rewrite lookup_delete_ne by done. rewrite J9. split; [|naive_solver].
      intros (HLh&E1&E2). split; [|done]. split; [done|]. split; intros ->; fold t in E2.
      * apply Ne1. congruence.
      * apply Ne2. rewrite Ett in E2. congruence.
    + intros h f'. rewrite HLL, Hfc. intros (HLh&N1&N2) Hfh Hs.
      destruct (J10 h f' HLh Hfh Hs) as (I1&I2&I3&I4&I5&I6&I7&I8&I9).
      destruct (Hint h ltac:(by rewrite Hfh)) as [-> ->].
      destruct (Hint (nx m h) ltac:(by rewrite I2)) as [-> ->].
      destruct (Hint (pv m h) ltac:(by rewrite I5)) as [-> _].
      rewrite !HLL, !Hfc, Htw, !Hhd. split_and!; try done; congruence.
    + intros h. rewrite HLL, !Hfc, Htw. intros (HLh&N1&N2). by apply J11.
    + intros h. rewrite HLL, Hhd. intros (?&_). by apply J12.
  - intros b. rewrite HLL, Hfc. intros (HLb&N1&N2) Hfb.
    destruct (RR b HLb Hfb) as (G1&G2&G3&G4&G5&G6).
    assert (fc m e ≠ None) as Hfe by (by rewrite Hf).
    assert (nx m' b ≠ t) as Hnt.
    { rewrite Hnx. destruct (N.eqb_spec b p) as [->|Nbp].
      - intros E. apply N2. rewrite <- Hpn, E. done.
      - intros E. apply Nbp. unfold p. by rewrite <- E, G3. }
    assert (pv m' b ≠ t) as Hpt.
    { rewrite Hpv. destruct (N.eqb_spec b n) as [->|Nbn].
      - intros E. apply N2. rewrite <- Hnp, E. done.
      - intros E. apply Nbn. unfold n. by rewrite <- E, G6. }
    rewrite !HLL, !Hfc.
    assert (L m (nx m' b) ∧ fc m (nx m' b) = None) as [Y1 Y2].
    { rewrite Hnx. by destruct (b =? p). }
    assert (L m (pv m' b) ∧ fc m (pv m' b) = None) as [Y3 Y4].
    { rewrite Hpv. by destruct (b =? n). }
    split_and!; try done; try congruence.
    + rewrite (Hnx b). destruct (N.eqb_spec b p) as [->|Nbp].
      * rewrite Hpv, N.eqb_refl. done.
      * rewrite Hpv. destruct (N.eqb_spec (nx m b) n) as [E|]; [|done].
        exfalso. apply N2. rewrite <- G3, E, Hpn. done.
    + rewrite (Hpv b). destruct (N.eqb_spec b n) as [->|Nbn].
      * rewrite Hnx, N.eqb_refl. done.
      * rewrite Hnx. destruct (N.eqb_spec (pv m b) p) as [E|]; [|done].
        exfalso. apply N2. rewrite <- G6, E, Hnp. done.
  - intros h. by rewrite Hhd.
  - intros h. by rewrite Htw.
  - intros h. rewrite HLL. intros (?&_). auto.
  - intros h. rewrite HLL, Hfc. intros (HLh&_). auto.
  - intros h g HLh Hfh Hg. destruct (Fint h g HLh Hfh Hg) as (G1&G2&G3&G4).
    destruct (Hint h ltac:(by rewrite G2)) as [-> ->].
    rewrite HLL, Hfc. split_and!; try done; try congruence.
  - intros h. rewrite HLL, Hfc. specialize (Ftodo h). rewrite elem_of_cons in Ftodo.
    destruct (decide (h = e)) as [->|Nhe].
    { split; [done|]. by intros ((_&X&_)&_). }
    destruct (decide (h = t)) as [->|Nht].
    { split; [|by intros ((_&_&X)&_)]. intros Hin.
      destruct (proj1 Ftodo (or_intror Hin)). congruence. }
    split.
    + intros Hin. destruct (proj1 Ftodo (or_intror Hin)). done.
    + intros ((X1&_&_)&X2). by destruct (proj2 Ftodo (conj X1 X2)).
  - intros h HLh. rewrite HLL. intros Hn'.
    destruct (decide (h = e)) as [->|Nhe]; [by left|].
    destruct (decide (h = t)) as [->|Nht].
    { right. rewrite <- Ftw. fold t. rewrite Ett. done. }
    apply Fdead; [done|]. intros HLm. by apply Hn'.
  - intros b. rewrite !HLL, Hfc. intros (HLb&N1&N2) Hfb Hf0.
    destruct (Fb b HLb Hfb Hf0) as [Z1 Z2]. split.
    + intros (HLx&M1&M2). specialize (Z1 HLx). rewrite Hnx.
      destruct (N.eqb_spec b p) as [->|]; [|done]. exfalso. apply M2. rewrite <- Z1. done.
    + intros (HLx&M1&M2). specialize (Z2 HLx). rewrite Hpv.
      destruct (N.eqb_spec b n) as [->|]; [|done]. exfalso. apply M2. rewrite <- Z2. done.
Qed.
End remove.
