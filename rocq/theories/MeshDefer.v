(** remove_triangles_deferred (mesh/triangle.rs 164-251), and the weld and the
    anchor repair that finish it. *)
From Verif Require Export MeshBatch2.
Local Open Scope N_scope.

Section defer.
Context {P : Type}.
Implicit Types (m : mesh P) (h k b c f g u v e t : N).

(** between two faces of the list: everything but the links of the seeds and the
    anchors of the affected vertices is in order *)
Record QInv m (S A : list N) : Prop := {
  q_si : SI m None;
  q_fh : FH m None;
  q_links : undamaged m S;
  q_A : ∀ v, v ∈ A → v < nverts m;
  q_anch : ∀ v x, verts m !! v = Some x → v ∉ A → anch m x v
}.

Lemma QInv_init m : WF m → QInv m [] [].
Proof.
  intros HW. pose proof (DInv_init m HW) as HD. pose proof (DInv_undamaged _ _ _ HD) as Hu.
  destruct HD as [? ? ? ? ? ?]. by split.
Qed.

(** progress of the removal of face [f] of [m0] *)
Record DS m0 f m (todo st : list N) : Prop := {
  ds_si : SI m (Some f);
  ds_verts : verts m = verts m0; ds_nverts : nverts m = nverts m0;
  ds_nhes : nhes m = nhes m0; ds_nfaces : nfaces m = nfaces m0;
  ds_hd : ∀ h, hd m h = hd m0 h;
  ds_tw : ∀ h, tw m h = tw m0 h;
  ds_L : ∀ h, L m h → L m0 h;
  ds_fc : ∀ h, L m h → fc m h = fc m0 h ∨ (fc m0 h = Some f ∧ fc m h = None ∧ h ∈ st);
  ds_links : ∀ h, L m h → h ∉ st → nx m h = nx m0 h ∧ pv m h = pv m0 h;
  ds_int : ∀ h g, L m0 h → fc m0 h = Some g → g ≠ f →
     L m h ∧ fc m h = Some g ∧ nx m h = nx m0 h ∧ pv m h = pv m0 h;
  ds_todo : ∀ h, h ∈ todo ↔ L m h ∧ fc m h = Some f;
  ds_dead : ∀ h, L m0 h → ¬ L m h → fc m0 h = Some f ∨ fc m0 (tw m0 h) = Some f
}.

(** case A: the face across the side is alive *)
Lemma defer_A m0 f m todo st e g :
  DS m0 f m (e :: todo) st → NoDup (e :: todo) → fc m (tw m e) = Some g → g ≠ f →
  (∃ y, faces m !! g = Some y ∧ frem y = false) →
  ∃ m', defer_spoke m e = Some (m', [e]) ∧ faces m' = faces m ∧
    DS m0 f m' todo (st ++ [e]).
Proof.
  intros HR Hnd Hft Hgf (y & Hy & Hyr).
  pose proof (ds_si _ _ _ _ _ HR) as HS.
  destruct (proj1 (ds_todo _ _ _ _ _ HR e) ltac:(left)) as [HL Hf].
  apply NoDup_cons in Hnd as [Hni Hnd].
  destruct (si_tw _ _ HS e HL) as (HLt & Ett & Hne).
  unfold defer_spoke. rewrite HL. cbn [negb]. rewrite (L_getH _ _ HL). cbn [mbind option_bind].
  fold (tw m e).
  rewrite (L_getH _ _ HLt). cbn [mbind option_bind]. fold (fc m (tw m e)). rewrite Hft.
  unfold getF. rewrite Hy. cbn [mbind option_bind]. rewrite Hyr. cbn [negb].
  rewrite updH_eq by (by apply L_ok). cbn [mbind option_bind].
  set (m' := putH _ _ _). exists m'. split; [done|]. split; [done|].
  assert (∀ h, he m' h = if h =? e then mkHE (hd m e) None e e (tw m e) false else he m h) as Hhe.
  { intros h. unfold m'. by rewrite he_putH. }
  assert (∀ h, L m' h ↔ L m h) as HLL.
  { intros h. unfold L, m'. rewrite live_putH. destruct (N.eqb_spec h e) as [->|]; [|done].
    simpl. by rewrite HL. }
  assert (∀ h, hd m' h = hd m h) as Hhd.
  { intros h. unfold hd. rewrite Hhe. by destruct (N.eqb_spec h e) as [->|]. }
  assert (∀ h, tw m' h = tw m h) as Htw.
  { intros h. unfold tw. rewrite Hhe. by destruct (N.eqb_spec h e) as [->|]. }
  assert (∀ h, fc m' h = if h =? e then None else fc m h) as Hfc.
  { intros h. unfold fc. rewrite Hhe. by destruct (N.eqb_spec h e) as [->|]. }
  assert (∀ h, nx m' h = if h =? e then e else nx m h) as Hnx.
  { intros h. unfold nx. rewrite Hhe. by destruct (N.eqb_spec h e) as [->|]. }
  assert (∀ h, pv m' h = if h =? e then e else pv m h) as Hpv.
  { intros h. unfold pv. rewrite Hhe. by destruct (N.eqb_spec h e) as [->|]. }
  assert (tw m e ≠ e) as Hte by congruence.
  destruct HR as [_ V1 V2 V3 V4 Fhd Ftw FL Ffc Flk Fint Ftodo Fdead]. split; try done.
  - destruct HS as [J1 J2 J3 J4 J5 J6 J8 J9 J10 J11 J12]. split; try done.
    + intros h. unfold m'. rewrite putH_lookup, J1. split; [|by auto]. intros [->|?]; [|done].
      apply J1. by apply L_ok.
    + intros h. rewrite !HLL, !Htw, !Hhd. apply J8.
    + intros u v h. rewrite HLL, Htw, !Hhd. apply J9.
    + intros h f'. rewrite HLL, Hfc. destruct (N.eqb_spec h e) as [|Nhe]; [done|].
      intros HLh Hfh Hs. destruct (J10 h f' HLh Hfh Hs) as (I1&I2&I3&I4&I5&I6&I7&I8&I9).
      rewrite (Hnx h), (Hpv h). destruct (N.eqb_spec h e); [done|].
      rewrite (Hnx (nx m h)), (Hnx (pv m h)), (Hpv (nx m h)), !HLL, !Hfc, Htw, !Hhd.
      destruct (N.eqb_spec (nx m h) e); [congruence|].
      destruct (N.eqb_spec (pv m h) e); [congruence|]. done.
    + intros h. rewrite HLL, !Hfc, Htw. destruct (N.eqb_spec h e) as [->|].
      * intros _ _. destruct (N.eqb_spec (tw m e) e); [done|]. by rewrite Hft.
      * intros HLh Hfh. destruct (N.eqb_spec (tw m h) e) as [E|]; [|by apply J11].
        exfalso. destruct (J8 h HLh) as (_&E'&_). rewrite E in E'. congruence.
    + intros h. rewrite HLL, Hhd. apply J12.
  - intros h. by rewrite Hhd.
  - intros h. by rewrite Htw.
  - intros h. rewrite HLL. apply FL.
  - intros h. rewrite HLL, Hfc. intros HLh. destruct (Ffc h HLh) as [E|(E1&E2&E3)];
      destruct (N.eqb_spec h e) as [->|]; auto.
    + right. split; [congruence|]. split; [done|]. apply elem_of_app. right. left.
    + congruence.
    + right. split; [done|]. split; [done|]. apply elem_of_app. by left.
  - intros h. rewrite HLL, not_elem_of_app, elem_of_list_singleton, Hnx, Hpv. intros HLh [Hst Hhe'].
    destruct (N.eqb_spec h e); [done|]. by apply Flk.
  - intros h g' HLh Hfh Hg. destruct (Fint h g' HLh Hfh Hg) as (G1&G2&G3&G4).
    rewrite HLL, Hfc, Hnx, Hpv. destruct (N.eqb_spec h e) as [->|]; [congruence|]. done.
  - intros h. rewrite HLL, Hfc. specialize (Ftodo h). rewrite elem_of_cons in Ftodo.
    destruct (N.eqb_spec h e) as [->|]; naive_solver.
  - intros h HLh. rewrite HLL. auto.
Qed.

Lemma rmio_ok m s h : SI m s → h < nhes m → emap m !! (hd m (tw m h), hd m h) = Some h →
  remove_map_if_owner m h = Some (em_remove m (hd m (tw m h), hd m h)).
Proof.
  intros HS Hh Hem. unfold remove_map_if_owner.
  assert (tw m h < nhes m) as Ht.
  { apply (si_hb _ _ HS), L_ok, (si_tw _ _ HS). by apply (si_em _ _ HS) in Hem as [? _]. }
  rewrite (proj2 (N.leb_gt _ _) Hh), getH_ok by (by apply (si_hb _ _ HS)). cbn [mbind option_bind].
  fold (tw m h). rewrite (proj2 (N.leb_gt _ _) Ht), getH_ok by (by apply (si_hb _ _ HS)). cbn [mbind option_bind].
  fold (hd m (tw m h)) (hd m h). rewrite Hem. by rewrite N.eqb_refl.
Qed.

(** case B: no face across the side *)
Lemma defer_B m0 f m todo st e :
  DS m0 f m (e :: todo) st → NoDup (e :: todo) → fc m (tw m e) = None → fc m0 e = Some f →
  ∃ m' l, defer_spoke m e = Some (m', l) ∧ faces m' = faces m ∧
    DS m0 f m' todo (st ++ l).
Proof.
  intros HR Hnd Hft Hfe0.
  pose proof (ds_si _ _ _ _ _ HR) as HS.
  destruct (proj1 (ds_todo _ _ _ _ _ HR e) ltac:(left)) as [HL Hf].
  apply NoDup_cons in Hnd as [Hni Hnd].
  destruct (si_tw _ _ HS e HL) as (HLt & Ett & Hne).
  set (t := tw m e) in *.
  assert (t ≠ e) as Hte by congruence.
  assert (t < nhes m) as Hlt by (apply (si_hb _ _ HS), L_ok, HLt).
  assert (e < nhes m) as Hle by (apply (si_hb _ _ HS), L_ok, HL).
  unfold defer_spoke. rewrite HL. cbn [negb]. rewrite (L_getH _ _ HL). cbn [mbind option_bind].
  fold (tw m e). fold t.
  rewrite (L_getH _ _ HLt). cbn [mbind option_bind]. fold (fc m t). rewrite Hft.
  cbn [mbind option_bind]. rewrite HLt.
  rewrite (rmio_ok m _ t HS Hlt).
  2:{ apply (si_em _ _ HS). done. }
  cbn [mbind option_bind]. rewrite Ett. set (m2 := em_remove m _).
  rewrite updH_eq by (by apply L_ok). cbn [mbind option_bind].
  set (m3 := putH m2 t _).
  assert (∀ h, he m3 h = mkHE (hd m h) (fc m h) (nx m h) (pv m h) (tw m h)
     (if h =? t then true else hrem (he m h))) as Hhe3.
  { intros h. unfold m3. rewrite he_putH. destruct (N.eqb_spec h t) as [->|]; [done|].
    change (he m2 h) with (he m h). unfold hd, fc, nx, pv, tw. by destruct (he m h). }
  assert (∀ h, is_live m3 h = if h =? t then false else is_live m h) as Hlv3.
  { intros h. unfold m3. rewrite live_putH. by destruct (N.eqb_spec h t). }
  assert (∀ h, is_Some (hes m3 !! h) ↔ is_Some (hes m !! h)) as Hok3.
  { intros h. unfold m3. rewrite putH_lookup. split; [|by auto]. intros [->|?]; [by apply L_ok|done]. }
  rewrite (getH_ok m3 t) by (apply Hok3; by apply L_ok). cbn [mbind option_bind].
  match goal with |- context [Some (_, ?l ++ ?l')] => set (lst := l ++ l') end.
  assert (remove_map_if_owner m3 e = Some (em_remove m3 (hd m t, hd m e))) as ->.
  { unfold remove_map_if_owner. change (nhes m3) with (nhes m).
    rewrite (proj2 (N.leb_gt _ _) Hle), getH_ok by (apply Hok3; by apply L_ok). cbn [mbind option_bind].
    rewrite Hhe3. cbn [htwin hv]. fold t.
    rewrite (proj2 (N.leb_gt _ _) Hlt), getH_ok by (apply Hok3; by apply L_ok). cbn [mbind option_bind].
    rewrite Hhe3. cbn [hv].
    assert (emap m3 = delete (hd m e, hd m t) (emap m)) as -> by done.
    rewrite lookup_delete_ne by congruence.
    rewrite (proj2 (si_em _ _ HS (hd m t) (hd m e) e)) by done. by rewrite N.eqb_refl. }
  cbn [mbind option_bind].
  set (m4 := em_remove m3 _).
  rewrite updH_eq by (change (is_Some (hes m3 !! e)); apply Hok3; by apply L_ok). cbn [mbind option_bind].
  set (m' := putH m4 e _). exists m', lst. split; [done|]. split; [done|].
  assert (∀ h, he m' h = mkHE (hd m h) (fc m h) (nx m h) (pv m h) (tw m h)
     (if h =? e then true else if h =? t then true else hrem (he m h))) as Hhe.
  { intros h. unfold m'. rewrite he_putH. destruct (N.eqb_spec h e) as [->|].
    - change (he m4 e) with (he m3 e). rewrite Hhe3. done.
    - change (he m4 h) with (he m3 h). rewrite Hhe3. done. }
  assert (∀ h, L m' h ↔ L m h ∧ h ≠ e ∧ h ≠ t) as HLL.
  { intros h. unfold L, m'. rewrite live_putH. change (is_live m4 h) with (is_live m3 h).
    rewrite Hlv3. destruct (N.eqb_spec h e); [naive_solver|].
    destruct (N.eqb_spec h t); naive_solver. }
  assert (∀ h, hd m' h = hd m h) as Hhd by (intros h; unfold hd at 1; by rewrite Hhe).
  assert (∀ h, tw m' h = tw m h) as Htw by (intros h; unfold tw at 1; by rewrite Hhe).
  assert (∀ h, fc m' h = fc m h) as Hfc by (intros h; unfold fc at 1; by rewrite Hhe).
  assert (∀ h, nx m' h = nx m h) as Hnx by (intros h; unfold nx at 1; by rewrite Hhe).
  assert (∀ h, pv m' h = pv m h) as Hpv by (intros h; unfold pv at 1; by rewrite Hhe).
  assert (emap m' = delete (hd m t, hd m e) (delete (hd m e, hd m t) (emap m))) as Hem by done.
  assert (∀ h, L m h → h ≠ e → h ≠ t → tw m h ≠ e ∧ tw m h ≠ t) as Htwne.
  { intros h HLh N1 N2. destruct (si_tw _ _ HS h HLh) as (_&E&_). split; intros E'.
    - rewrite E' in E. unfold t in *. congruence.
    - rewrite E' in E. congruence. }
  destruct HR as [_ V1 V2 V3 V4 Fhd Ftw FL Ffc Flk Fint Ftodo Fdead]. split; try done.
  - destruct HS as [J1 J2 J3 J4 J5 J6 J8 J9 J10 J11 J12]. split; try done.
    + intros h. unfold m'. rewrite putH_lookup. change (hes m4) with (hes m3).
      rewrite Hok3, J1. split; [|by auto]. by intros [->|?].
    + intros h. rewrite !HLL, !Htw, !Hhd. intros (HLh&N1&N2).
      destruct (J8 h HLh) as (?&?&?). destruct (Htwne h HLh N1 N2). done.
    + intros u v h. rewrite Hem, HLL, Htw, !Hhd.
      destruct (decide ((hd m t, hd m e) = (u, v))) as [E|Ne1].
      { rewrite E, lookup_delete. split; [done|]. injection E as E1 E2.
        intros ((HLh&N1&N2)&E3&E4). exfalso. apply N1.
        assert (emap m !! (u, v) = Some h) by (by apply J9).
        assert (emap m !! (u, v) = Some e) by (by apply J9). congruence. }
      rewrite lookup_delete_ne by done.
      destruct (decide ((hd m e, hd m t) = (u, v))) as [E|Ne2].
      { rewrite E, lookup_delete. split; [done|]. injection E as E1 E2.
        intros ((HLh&N1&N2)&E3&E4). exfalso. apply N2.
        assert (emap m !! (u, v) = Some h) by (by apply J9).
        assert (emap m !! (u, v) = Some t) by (apply J9; split; [done|]; split; [done|]; by rewrite Ett).
        congruence. }
      rewrite lookup_delete_ne by done. rewrite J9. split; [|naive_solver].
      intros (HLh&E1&E2). split; [|done]. split; [done|]. split; intros ->; fold t in E2.
      * apply Ne1. congruence.
      * apply Ne2. rewrite Ett in E2. congruence.
    + intros h f'. rewrite HLL, Hfc. intros (HLh&N1&N2) Hfh Hs.
      destruct (J10 h f' HLh Hfh Hs) as (I1&I2&I3&I4&I5&I6&I7&I8&I9).
      rewrite !Hnx, !Hpv, !HLL, !Hfc, Htw, !Hhd, ?Hnx. split_and!; try done; congruence.
    + intros h. rewrite HLL, !Hfc, Htw. intros (HLh&N1&N2). by apply J11.
    + intros h. rewrite HLL, Hhd. intros (?&_). by apply J12.
  - intros h. by rewrite Hhd.
  - intros h. by rewrite Htw.
  - intros h. rewrite HLL. intros (?&_). auto.
  - intros h. rewrite HLL, Hfc, elem_of_app. intros (HLh&_). destruct (Ffc h HLh) as [|(?&?&?)]; auto.
  - intros h. rewrite HLL, not_elem_of_app, Hnx, Hpv. intros (HLh&_) (?&_). by apply Flk.
  - intros h g HLh Hfh Hg. destruct (Fint h g HLh Hfh Hg) as (G1&G2&G3&G4).
    rewrite HLL, Hfc, Hnx, Hpv. split_and!; try done; congruence.
  - intros h. rewrite HLL, Hfc. specialize (Ftodo h). rewrite elem_of_cons in Ftodo.
    destruct (decide (h = e)) as [->|Nhe].
    { split; [done|]. by intros ((_&X&_)&_). }
    destruct (decide (h = t)) as [->|Nht].
    { split; [|by intros ((_&_&X)&_)]. intros Hin.
      destruct (proj1 Ftodo (or_intror Hin)). congruence. }
    split.
    + intros Hin. destruct (proj1 Ftodo (or_intror Hin)). done.
    + intros ((X1&_&_)&X2). by destruct (proj2 Ftodo (conj X1 X2)).
  - intros h HLh. rewrite HLL. intros Hn'.
    destruct (decide (h = e)) as [->|Nhe]; [by left|].
    destruct (decide (h = t)) as [->|Nht].
    { right. rewrite <- Ftw. rewrite Ett. done. }
    apply Fdead; [done|]. intros HLm. by apply Hn'.
Qed.

Lemma defer_spoke_ok m0 f m todo st e :
  SI m0 None → FH m0 None →
  (∀ g, g ≠ f → faces m !! g = faces m0 !! g) →
  DS m0 f m (e :: todo) st → NoDup (e :: todo) →
  ∃ m' l, defer_spoke m e = Some (m', l) ∧ faces m' = faces m ∧ DS m0 f m' todo (st ++ l).
Proof.
  intros HS0 HF0 Hfs HR Hnd.
  pose proof (ds_si _ _ _ _ _ HR) as HS.
  destruct (proj1 (ds_todo _ _ _ _ _ HR e) ltac:(left)) as [HL Hf].
  assert (fc m0 e = Some f) as Hf0.
  { destruct (ds_fc _ _ _ _ _ HR e HL) as [|(?&?&?)]; congruence. }
  pose proof (ds_L _ _ _ _ _ HR e HL) as HL0.
  pose proof (no_self_glue m0 HS0 e f HF0 HL0 Hf0) as Hns.
  rewrite <- (ds_tw _ _ _ _ _ HR) in Hns.
  destruct (si_tw _ _ HS e HL) as (HLt & Ett & Hne).
  destruct (fc m (tw m e)) as [g|] eqn:Eg.
  - assert (fc m0 (tw m e) = Some g) as Eg0.
    { destruct (ds_fc _ _ _ _ _ HR _ HLt) as [|(?&?&?)]; congruence. }
    assert (g ≠ f) as Ngf by congruence.
    destruct (defer_A m0 f m todo st e g) as (m' & E & ? & ?); try done; [|by eauto].
    destruct (si_in _ _ HS0 _ g (ds_L _ _ _ _ _ HR _ HLt) Eg0) as (_&_&_&_&_&_&_&_&Hy); [done|].
    by rewrite Hfs.
  - by apply defer_B.
Qed.

(** one face *)
Lemma defer_face_ok m S A f x : QInv m S A → faces m !! f = Some x → frem x = false →
  ∃ m' st av, defer_face m f = Some (m', st, av) ∧ QInv m' (S ++ st) (A ++ av) ∧
    nfaces m' = nfaces m ∧ nverts m' = nverts m ∧ verts m' = verts m ∧ nhes m' = nhes m ∧
    (∀ h, tw m' h = tw m h) ∧ (∃ y, faces m' !! f = Some y ∧ frem y = true) ∧
    (∀ g, g ≠ f → faces m' !! g = faces m !! g) ∧ same_faces_except m m' f.
Proof.
  intros [HS HF HU HA Hanch] Hx Hr.
  destruct (HF f x Hx Hr ltac:(done)) as (HL0&Hf0&Hcyc).
  set (h0 := fhe x) in *. 
  destruct (face3 m HS h0 f HL0 Hf0) as (HL1&HL2&Hf1&Hf2&E12&E20&Ep1&Ep2&_&_&_&D1&D2&D3).
  set (h1 := nx m h0) in *. set (h2 := pv m h0) in *.
  unfold defer_face. 
  assert (f < nfaces m) as Hlt by (apply (si_fb _ _ HS); by eexists).
  rewrite (proj2 (N.leb_gt _ _) Hlt). unfold getF at 1. rewrite Hx. cbn [mbind option_bind]. rewrite Hr.
  fold h0. rewrite (L_getH _ _ HL0). cbn [mbind option_bind]. fold (nx m h0). fold h1.
  rewrite (L_getH _ _ HL1). cbn [mbind option_bind]. fold (nx m h1). rewrite E12.
  rewrite (L_getH _ _ HL2). cbn [mbind option_bind].
  fold (tw m h0) (tw m h1) (tw m h2).
  rewrite !L_getH by (by apply (si_tw _ _ HS)). cbn [mbind option_bind].
  fold (hd m (tw m h0)) (hd m (tw m h1)) (hd m (tw m h2)). fold (tl m h0) (tl m h1) (tl m h2).
  rewrite (updF_eq m f x) by done. cbn [mbind option_bind]. fold h0.
  set (m1 := set_faces _ m).
  assert (∀ g, g ≠ f → faces m1 !! g = faces m !! g) as Fs1.
  { intros g Hg. unfold m1. cbn. by rewrite lookup_insert_ne. }
  assert (DS m f m1 [h0; h1; h2] []) as HR1.
  { split; try done.
    - destruct HS as [J1 J2 J3 J4 J5 J6 J8 J9 J10 J11 J12]. split; try done.
      + intros g. unfold m1. cbn. rewrite lookup_insert_is_Some', J3. split; [|by auto]. by intros [<-|?].
      + intros h g HLh Hfh Hs. destruct (J10 h g HLh Hfh ltac:(done)) as (?&?&?&?&?&?&?&?&Hy).
        split_and!; try done. rewrite Fs1 by congruence. done.
    - intros h HLh. by left.
    - intros h. split.
      + intros [->|[->|[->|[]%not_elem_of_nil]%elem_of_cons]%elem_of_cons]%elem_of_cons; done.
      + intros [HLh Hfh]. destruct (Hcyc h HLh Hfh) as [->|[->| ->]]; set_solver. }
  assert (NoDup [h0; h1; h2]) as ND.
  { apply NoDup_cons. split; [|apply NoDup_cons; split; [|apply NoDup_singleton]];
      rewrite ?not_elem_of_cons; split_and!; try done; try apply not_elem_of_nil; congruence. }
  destruct (defer_spoke_ok m f m1 [h1; h2] [] h0) as (m2 & l0 & E2 & EF2 & HR2); try done.
  rewrite E2. cbn [mbind option_bind].
  apply NoDup_cons in ND as [_ ND].
  destruct (defer_spoke_ok m f m2 [h2] _ h1 HS HF ltac:(by rewrite EF2) HR2 ND) as (m3 & l1 & E3 & EF3 & HR3).
  rewrite E3. cbn [mbind option_bind].
  apply NoDup_cons in ND as [_ ND].
  destruct (defer_spoke_ok m f m3 [] _ h2 HS HF ltac:(by rewrite EF3, EF2) HR3 ND) as (m4 & l2 & E4 & EF4 & HR4).
  rewrite E4. cbn [mbind option_bind]. cbn [app] in HR4. rewrite <- app_assoc in HR4.
  set (st := l0 ++ l1 ++ l2) in *.
  assert (faces m4 = faces m1) as EF by congruence.
  assert (faces m4 !! f = Some (mkFC h0 true)) as Ff4 by (rewrite EF; unfold m1; cbn; by rewrite lookup_insert).
  rewrite (updF_eq m4 f _ _ Ff4). cbn [frem]. rewrite insert_id by done.
  assert (set_faces (faces m4) m4 = m4) as -> by (by destruct m4).
  cbn [mbind option_bind].
  eexists m4, st, _. split; [done|].
  assert (∀ h, L m4 h → fc m4 h ≠ Some f) as Hnof.
  { intros h HLh Hfh. assert (h ∈ @nil N) as Hn by (by apply (ds_todo _ _ _ _ _ HR4)).
    by apply elem_of_nil in Hn. }
  assert (SI m4 None) as HS4.
  { destruct (ds_si _ _ _ _ _ HR4) as [J1 J2 J3 J4 J5 J6 J8 J9 J10 J11 J12]. split; try done.
    intros h g HLh Hfh _. apply (J10 h g HLh Hfh). intros [= ->]. by apply (Hnof h HLh). }
  assert (∀ h, L m4 h → fc m4 h ≠ None → fc m h = fc m4 h) as Hfc4.
  { intros h HLh Hfh. destruct (ds_fc _ _ _ _ _ HR4 h HLh) as [|(?&?&?)]; done. }
  assert (∀ h, L m4 h → fc m4 h ≠ None → nx m4 h = nx m h ∧ pv m4 h = pv m h) as Hnp4.
  { intros h HLh Hfh. pose proof (Hfc4 h HLh Hfh) as E. destruct (fc m4 h) as [g|] eqn:Eg; [|done].
    destruct (ds_int _ _ _ _ _ HR4 h g) as (_&_&?&?); try done.
    - by apply (ds_L _ _ _ _ _ HR4).
    - intros ->. by apply (Hnof h HLh). }
  assert (∀ h, tl m4 h = tl m h) as Htl.
  { intros h. unfold tl. by rewrite (ds_hd _ _ _ _ _ HR4), (ds_tw _ _ _ _ _ HR4). }
  assert (∀ h, L m h → tl m h < nverts m) as Htlv.
  { intros h HLh. apply (si_hd _ _ HS). by apply (si_tw _ _ HS). }
  destruct (face3 m HS h0 f HL0 Hf0) as (_&_&_&_&_&_&_&_&T1&T2&T3&_). fold h1 h2 in T1, T2, T3.
  split.
  { split; try done.
    - intros g y Hy Hyr _. destruct (decide (g = f)) as [->|Ng].
      { rewrite Ff4 in Hy. by injection Hy as <-. }
      rewrite EF, Fs1 in Hy by done. destruct (HF g y Hy Hyr ltac:(done)) as (Y1&Y2&Y3).
      destruct (ds_int _ _ _ _ _ HR4 _ _ Y1 Y2 Ng) as (Z1&Z2&Z3&Z4). rewrite Z3, Z4.
      split; [done|]. split; [done|].
      intros h HLh Hfh. apply Y3; [by apply (ds_L _ _ _ _ _ HR4)|]. rewrite (Hfc4 h HLh); [done|by rewrite Hfh].
    - intros b c HLb Hfb Hfan [HbS Hbst]%not_elem_of_app [HcS Hcst]%not_elem_of_app.
      destruct (fan_end m4 HS4 b c HLb Hfb Hfan) as (HLc & Hfc & _).
      pose proof (ds_L _ _ _ _ _ HR4 b HLb) as HLb0. pose proof (ds_L _ _ _ _ _ HR4 c HLc) as HLc0.
      assert (fc m b = None) as Hfb0.
      { destruct (ds_fc _ _ _ _ _ HR4 b HLb) as [|(?&?&?)]; [congruence|done]. }
      assert (fc m c = None) as Hfc0.
      { destruct (ds_fc _ _ _ _ _ HR4 c HLc) as [|(?&?&?)]; [congruence|done]. }
      assert (fan m b c) as Hfan0.
      { apply (fan_mono m4 m); auto.
        - intros h _. symmetry. apply (ds_tw _ _ _ _ _ HR4).
        - intros h HLh Hfh. rewrite (Hfc4 h HLh Hfh). split; [done|]. symmetry. by apply Hnp4. }
      destruct (ds_links _ _ _ _ _ HR4 b HLb Hbst) as [-> _].
      destruct (ds_links _ _ _ _ _ HR4 c HLc Hcst) as [_ ->].
      by apply HU.
    - intros v. rewrite (ds_nverts _ _ _ _ _ HR4). intros [?|Hin]%elem_of_app; [by apply HA|].
      apply elem_of_cons in Hin as [->|Hin]; [by apply Htlv|].
      apply elem_of_cons in Hin as [->|Hin]; [by apply Htlv|].
      apply elem_of_list_singleton in Hin as ->. by apply Htlv.
    - intros v y Hy [HvA Hvn]%not_elem_of_app. rewrite (ds_verts _ _ _ _ _ HR4) in Hy.
      specialize (Hanch v y Hy HvA).
      apply not_elem_of_cons in Hvn as [M0 [M1 [M2 _]%not_elem_of_cons]%not_elem_of_cons].
      unfold anch, out in *. destruct (vhe y) as [h|].
      + destruct Hanch as [HLh Ht]. split; [|by rewrite Htl].
        destruct (decide (L m4 h)); [done|exfalso].
        destruct (ds_dead _ _ _ _ _ HR4 h HLh) as [Hd|Hd]; [done| |].
        * destruct (Hcyc h HLh Hd) as [->|[->| ->]]; congruence.
        * assert (hd m (tw m h) = v) as Hhd by done.
          destruct (Hcyc (tw m h)) as [E|[E|E]]; [by apply (si_tw _ _ HS)|done|..];
            rewrite E in Hhd; congruence.
      + intros h [HLh Ht]. rewrite Htl in Ht. apply (Hanch h). split; [|done]. by apply (ds_L _ _ _ _ _ HR4). }
  split; [apply HR4|]. split; [apply HR4|]. split; [apply HR4|]. split; [apply HR4|].
  split; [apply HR4|]. split; [by eexists|]. split; [intros g Hg; rewrite EF; by apply Fs1|].
  intros g a b c Hg. apply same_oriented_q; try done; [rewrite EF; by apply Fs1|].
  intros h HLh Hfh. destruct (ds_int _ _ _ _ _ HR4 h g HLh Hfh Hg) as (?&?&?&?).
  rewrite Htl, (ds_hd _ _ _ _ _ HR4). done.
Qed.

Lemma not_live_oriented m f a b c : ¬ live_face m f → ¬ oriented_face m f a b c.
Proof. intros Hn (e0&e1&e2&x0&x1&x2&Hf&_). apply Hn. eexists. done. Qed.

Lemma defer_loop_ok fs : ∀ m S A, QInv m S A →
  ∃ m' st av, defer_loop m fs = Some (m', st, av) ∧ QInv m' (S ++ st) (A ++ av) ∧
    nfaces m' = nfaces m ∧ nverts m' = nverts m ∧ verts m' = verts m ∧ nhes m' = nhes m ∧
    (∀ h, tw m' h = tw m h) ∧
    (∀ g a b c, oriented_face m' g a b c ↔ oriented_face m g a b c ∧ g ∉ fs).
Proof.
  induction fs as [|f fs IH]; intros m S A HQ; cbn [defer_loop].
  { exists m, [], []. rewrite !app_nil_r. split_and!; try done.
    intros g a b c. split; [|by intros [? _]]. intros ?. split; [done|]. apply not_elem_of_nil. }
  assert (∃ m' st av, defer_face m f = Some (m', st, av) ∧ QInv m' (S ++ st) (A ++ av) ∧
    nfaces m' = nfaces m ∧ nverts m' = nverts m ∧ verts m' = verts m ∧ nhes m' = nhes m ∧
    (∀ h, tw m' h = tw m h) ∧
    (∀ g a b c, oriented_face m' g a b c ↔ oriented_face m g a b c ∧ g ≠ f)) as
    (m1 & st & av & -> & HQ1 & N1 & N2 & N3 & N4 & N5 & Ho).
  { assert (¬ live_face m f → ∀ g a b c, oriented_face m g a b c ↔ oriented_face m g a b c ∧ g ≠ f) as Hskip.
    { intros Hn g a b c. split; [|by intros [? _]]. intros Ho. split; [done|]. intros ->.
      by apply (not_live_oriented m f a b c). }
    destruct (faces m !! f) as [x|] eqn:Hx.
    - destruct (frem x) eqn:Hr.
      + exists m, [], []. rewrite !app_nil_r. unfold defer_face, getF. rewrite Hx. cbn [mbind option_bind].
        rewrite Hr. split; [by destruct (nfaces m <=? f)|]. split_and!; try done. apply Hskip.
        intros (y&?&?). congruence.
      + destruct (defer_face_ok m S A f x HQ Hx Hr) as (m' & st & av & E & HQ' & ? & ? & ? & ? & ? & (y&Hy&Hyr) & _ & Hs).
        exists m', st, av. split_and!; try done. intros g a b c.
        destruct (decide (g = f)) as [->|Hg].
        * split; [|by intros [_ ?]]. intros Ho. exfalso.
          apply (not_live_oriented m' f a b c); [|done]. intros (z&?&?). congruence.
        * rewrite (Hs g a b c Hg). tauto.
    - exists m, [], []. rewrite !app_nil_r. unfold defer_face.
      assert (nfaces m ≤ f) as Hge.
      { destruct (decide (f < nfaces m)) as [Hlt|]; [|lia]. apply (si_fb _ _ (q_si _ _ _ HQ)) in Hlt as [? ?]. congruence. }
      rewrite (proj2 (N.leb_le _ _) Hge). split_and!; try done. apply Hskip. intros (y&?&?). congruence. }
  cbn [mbind option_bind].
  destruct (IH m1 (S ++ st) (A ++ av) HQ1) as (m2 & sts & avs & -> & HQ2 & M1 & M2 & M3 & M4 & M5 & Ho2).
  cbn [mbind option_bind]. exists m2, (st ++ sts), (av ++ avs). rewrite !app_assoc.
  split_and!; try done; try congruence.
  intros g a b c. rewrite Ho2, Ho, not_elem_of_cons. tauto.
Qed.

Lemma defer_check_ok m l : SI m None → (∀ h, h < nhes m → tw m h < nhes m) → (∀ h, h ∈ l → h < nhes m) → defer_check m l = Some tt.
Proof.
  intros HS Htb. induction l as [|h l IH]; intros Hl; cbn [defer_check]; [done|].
  assert (h < nhes m) as Hh by (apply Hl; by left).
  assert (is_Some (hes m !! h)) as Hok by (by apply (si_hb _ _ HS)).
  assert (is_Some (hes m !! tw m h)) as Hokt by (by apply (si_hb _ _ HS), Htb).
  rewrite (getH_ok _ _ Hok). cbn [mbind option_bind].
  destruct (hrem (he m h)) eqn:Er.
  - unfold key_pair. rewrite (getH_ok _ _ Hok). cbn [mbind option_bind]. fold (tw m h).
    rewrite (getH_ok _ _ Hokt). cbn [mbind option_bind].
    destruct (emap m !! _) as [o|] eqn:Eo; cbn [mbind option_bind].
    + apply (si_em _ _ HS) in Eo as (HLo&_). destruct (N.eqb_spec o h) as [->|].
      * apply L_rem in HLo. congruence.
      * cbn. apply IH. intros; apply Hl; by right.
    + apply IH. intros; apply Hl; by right.
  - cbn. apply IH. intros; apply Hl; by right.
Qed.

Theorem remove_deferred_ok debug (order : list N → list N) m (fs : list N) :
  (∀ l v, v ∈ order l ↔ v ∈ l) → WF m →
  (debug = true → ∀ h, h < nhes m → tw m h < nhes m) →
  ∃ m1 m2 m3 st av, remove_triangles_deferred debug m fs = Some (m1, st, av) ∧
    weld_border_components_from m1 st = Some m2 ∧ fix_vertices_outgoing_for order m2 av = Some m3 ∧
    WF m3 ∧ (∀ g a b c, oriented_face m3 g a b c ↔ oriented_face m g a b c ∧ g ∉ fs) ∧
    same_positions m m3 ∧ nfaces m3 = nfaces m.
Proof.
  intros Hord HW Hdb. unfold remove_triangles_deferred.
  destruct (defer_loop_ok fs m [] [] (QInv_init m HW)) as (m1 & st & av & -> & HQ & N1 & N2 & N3 & N4 & N5 & Ho).
  cbn [mbind option_bind]. cbn [app] in HQ. destruct HQ as [HS HF HU HA Hanch].
  assert ((if debug then defer_check m1 (range (nhes m1)) else Some tt) = Some tt) as ->.
  { destruct debug; [|done]. apply defer_check_ok; [done| |intros h; apply range_spec].
    intros h. rewrite N4, N5. by apply Hdb. }
  cbn [mbind option_bind].
  destruct (repair_ok m1 st av (order av) HS HF HU) as (m2 & m3 & E2 & E3 & HW3 & Hsf & Hp & Hnf & _); auto.
  exists m1, m2, m3, st, av. split; [done|]. split; [done|]. split.
  { unfold fix_vertices_outgoing_for. done. }
  split; [done|]. split; [|split].
  - intros g a b c. rewrite (Hsf g a b c). apply Ho.
  - apply (same_positions_trans _ m1); [|done]. split; [congruence|]. intros v. by rewrite N3.
  - congruence.
Qed.
End defer.
