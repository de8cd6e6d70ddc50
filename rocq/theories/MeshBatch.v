(** add_triangles_deferred: many triangles, one repair of the borders. *)
From Verif Require Export MeshBatchModel MeshOps.
Local Open Scope N_scope.

Section batch.
Context {P : Type}.
Implicit Types (m : mesh P) (h k b c f g u v e t : N).

(** ** Facts that do not need the borders to be linked *)
Lemma cycle_face_side_q m f h : SI m None → FH m None → L m h → fc m h = Some f →
  cycle_face m f (tl m h) (hd m h) (hd m (nx m h)).
Proof.
  intros HS HF HL Hf. unfold cycle_face.
  destruct (si_in _ _ HS h f HL Hf ltac:(done)) as (_&_&_&_&_&_&_&_&x&Hx&Hr).
  destruct (HF f x Hx Hr ltac:(done)) as (HL0&Hf0&Hcyc).
  destruct (face3 m HS _ _ HL0 Hf0) as (L1&L2&F1&F2&N1&N2&N3&N4&T1&T2&T3&_).
  assert (oriented_face m f (tl m (fhe x)) (hd m (fhe x)) (hd m (nx m (fhe x)))) as Ho.
  { apply oriented_face_L; [done|]. exists (fhe x). destruct x as [e r]; simpl in *; subst. done. }
  destruct (Hcyc h HL Hf) as [->|[->| ->]].
  - by left.
  - right; right. rewrite T1, N1. rewrite <- T3. done.
  - right; left. rewrite T2, N2. rewrite <- T3. done.
Qed.

Lemma free_side_q m u v : SI m None → FH m None → free m u v ↔ ¬ side_used m u v.
Proof.
  intros HS HF. split.
  - intros Hfr (f & w & Hc). destruct (cycle_face_inv _ _ _ _ _ HS Hc) as (h&HL&Hf&Ht&Hh&_).
    rewrite (Hfr h) in Hf; [done|]. apply (si_em _ _ HS). done.
  - intros Hn h Hem. apply (si_em _ _ HS) in Hem as (HL&<-&<-). destruct (fc m h) as [f|] eqn:Hf; [|done].
    exfalso. apply Hn. exists f, (hd m (nx m h)). by apply cycle_face_side_q.
Qed.

Lemma same_oriented_q m m' g : SI m None → FH m None → SI m' None →
  faces m' !! g = faces m !! g →
  (∀ h, L m h → fc m h = Some g → L m' h ∧ fc m' h = Some g ∧ hd m' h = hd m h ∧ nx m' h = nx m h ∧
       tl m' h = tl m h) →
  ∀ a b c, oriented_face m' g a b c ↔ oriented_face m g a b c.
Proof.
  intros HS HF HS' Hf H1 a b c.
  rewrite !oriented_face_L, Hf by done. split.
  - intros (e&Hg&HL&Hfe&?&?&?). destruct (HF g _ Hg eq_refl ltac:(done)) as (HL0&Hf0&_).
    simpl in *. destruct (H1 e HL0 Hf0) as (?&?&?&En&?).
    destruct (face3 m HS _ _ HL0 Hf0) as (L1&L2&F1&F2&_).
    destruct (H1 _ L1 F1) as (?&?&?&?&?). rewrite En in *.
    exists e. split_and!; congruence.
  - intros (e&?&HL0&Hf0&?&?&?).
    destruct (H1 e HL0 Hf0) as (?&?&?&En&?).
    destruct (face3 m HS _ _ HL0 Hf0) as (L1&L2&F1&F2&_).
    destruct (H1 _ L1 F1) as (?&?&?&?&?).
    exists e. rewrite En. split_and!; congruence.
Qed.

Lemma pushF_SI_q m x : SI m None → ring_ok m → nfaces m < umax →
  ∃ m', pushF m x = Some m' ∧ SI m' (Some (nfaces m)) ∧ ring_ok m' ∧
    hes m' = hes m ∧ nhes m' = nhes m ∧ verts m' = verts m ∧ nverts m' = nverts m ∧
    emap m' = emap m ∧ nfaces m' = nfaces m + 1 ∧ faces m' = <[nfaces m := x]> (faces m).
Proof.
  intros HS HR Hlt. unfold pushF. rewrite (proj2 (N.ltb_lt _ _) Hlt).
  eexists. split; [done|].
  split; [|split; [|done]].
  - destruct HS as [I1 I2 I3 I4 I5 I6 I8 I9 I10 I11 I12]. split; try done; cbn [nfaces faces].
    + intros f. rewrite lookup_insert_is_Some', I3. split; [lia|].
      intros. destruct (decide (nfaces m = f)); [by left|]. right. lia.
    + lia.
    + intros h f HL Hf Hs. destruct (I10 h f HL Hf ltac:(done)) as (?&?&?&?&?&?&?&?&Hx).
      repeat (split; [done|]). rewrite lookup_insert_ne by congruence. done.
  - exact HR.
Qed.

(** ** ensure_dir_no_weld does what ensure_dir does *)
Lemma with_twin_id m t e : is_Some (hes m !! t) → tw m t = e → updH m t (with_twin e) = Some m.
Proof.
  intros [y Hy] Ht. unfold updH, getH. rewrite Hy. cbn [mbind option_bind].
  unfold tw, he in Ht. rewrite Hy in Ht. cbn in Ht.
  destruct y as [v f n p w r]. cbn in Ht. subst w. unfold with_twin. cbn.
  destruct m as [vs nv hs nh fs nf em]. unfold set_hes. cbn in *. by rewrite insert_id.
Qed.

Lemma tw_updH m h (r : HE → HE) m' k : updH m h r = Some m' → (∀ x, htwin (r x) = htwin x) →
  tw m' k = tw m k ∧ (is_Some (hes m' !! k) ↔ is_Some (hes m !! k)).
Proof.
  intros [Hs ->]%updH_inv Hg. split.
  - unfold tw. rewrite he_putH. destruct (N.eqb_spec k h) as [->|]; [|done]. apply Hg.
  - rewrite putH_lookup. split; [|by right]. by intros [->|?].
Qed.

Lemma no_weld_eq m f u v : SI m (Some f) → free m u v → u ≠ v →
  ∀ r, ensure_dir m f u v = Some r → ensure_dir_no_weld m f u v = Some r.
Proof.
  intros HS Hfr Huv r. unfold ensure_dir, ensure_dir_no_weld.
  destruct (emap m !! (u, v)) as [e|] eqn:E; [|done].
  destruct (proj1 (si_em _ _ HS _ _ _) E) as (HL&_&_). rewrite (L_getH _ _ HL). cbn [mbind option_bind].
  assert (hface (he m e) = None) as Hf by (apply (Hfr e E)). rewrite Hf. cbn [is_none assertb mbind option_bind].
  unfold unlink_border. rewrite (L_getH _ _ HL). cbn [mbind option_bind].
  rewrite Hf, (L_rem _ _ HL). cbn [is_none negb andb assertb mbind option_bind].
  fold (pv m e) (nx m e).
  destruct (si_tw _ _ HS e HL) as (HLt&Ett&_).
  set (X := if negb (pv m e =? e) && negb (nx m e =? e) then _ else _).
  destruct X as [m1|] eqn:EX; [|done]. cbn [mbind option_bind].
  assert (∀ k, tw m1 k = tw m k ∧ (is_Some (hes m1 !! k) ↔ is_Some (hes m !! k))) as H1.
  { intros k. unfold X in EX. destruct (negb (pv m e =? e) && negb (nx m e =? e)); [|by simplify_eq].
    destruct (updH m (pv m e) (with_next (nx m e))) as [m0|] eqn:E0; [|done]. cbn [mbind option_bind] in EX.
    destruct (tw_updH _ _ _ _ k E0 ltac:(by intros)) as [<- <-].
    by apply (tw_updH _ _ _ _ k EX ltac:(by intros)). }
  destruct (updH m1 e (with_face (Some f))) as [m2|] eqn:E2; [|done]. cbn [mbind option_bind].
  assert (∀ k, tw m2 k = tw m k ∧ (is_Some (hes m2 !! k) ↔ is_Some (hes m !! k))) as H2.
  { intros k. destruct (H1 k) as [<- <-]. by apply (tw_updH _ _ _ _ k E2 ltac:(by intros)). }
  rewrite (getH_ok m2 e) by (apply H2; by apply L_ok). cbn [mbind option_bind]. fold (tw m2 e).
  destruct (H2 e) as [-> _].
  destruct (N.eqb_spec (tw m e) umax) as [Eu|_]; [|].
  { exfalso. pose proof (si_hmax _ _ HS). apply L_ok, (si_hb _ _ HS) in HLt. lia. }
  rewrite with_twin_id; [done| |].
  - apply H2. by apply L_ok.
  - destruct (H2 (tw m e)) as [-> _]. done.
Qed.

(** ** One triangle without repairing the borders *)
Record Pasted m a b c m' f (starts : list N) : Prop := {
  pa_si : SI m' None;
  pa_fh : FH m' None;
  pa_ring : ring_ok m';
  pa_f : f = nfaces m;
  pa_nfaces : nfaces m' = nfaces m + 1;
  pa_nhes : nhes m ≤ nhes m' ≤ nhes m + 6;
  pa_nverts : nverts m' = nverts m;
  pa_verts : verts m' = verts m;
  pa_face : oriented_face m' f a b c;
  pa_rest : same_faces_except m m' f;
  pa_old : ∀ h, L m h → L m' h ∧ tl m' h = tl m h;
  pa_new : ∀ h, L m' h → L m h ∨ tl m' h ∈ [a; b; c];
  pa_tw : ∀ h, L m h → tw m' h = tw m h;
  pa_int : ∀ h, L m h → fc m h ≠ None → fc m' h ≠ None ∧ pv m' h = pv m h;
  pa_border : ∀ x, L m' x → fc m' x = None → x ∉ starts →
    L m x ∧ fc m x = None ∧ nx m' x = nx m x ∧ pv m' x = pv m x
}.

Lemma no_weld_oriented_ok m a b c :
  SI m None → FH m None → ring_ok m → a ≠ b → b ≠ c → c ≠ a → a < nverts m → b < nverts m → c < nverts m →
  free m a b → free m b c → free m c a → nhes m + 6 ≤ umax → nfaces m < umax →
  ∃ m' f st, no_weld_oriented m a b c = Some (m', f, st) ∧ Pasted m a b c m' f st.
Proof.
  intros HS HFH HR Nab Nbc Nca Ha Hb Hc Fab Fbc Fca Hsz Hfz.
  unfold no_weld_oriented. 
  set (f := nfaces m).
  destruct (pushF_SI_q m (mkFC 0 false) HS HR Hfz) as (m0 & E0 & HS0 & HR0 & Ehes & Enh & Evs & Env & Eem & Enf & Efs).
  rewrite E0. cbn [mbind option_bind]. fold f in HS0, Efs.
  assert (∀ h, he m0 h = he m h) as Hhe0 by (intros; unfold he; by rewrite Ehes).
  assert (∀ h, L m0 h ↔ L m h) as HL0 by (intros; unfold L, is_live, getH; by rewrite Ehes).
  assert (∀ u v, free m u v → free m0 u v) as Hfr0.
  { intros u v Hfr h. rewrite Eem. unfold fc. rewrite Hhe0. apply Hfr. }
  destruct (ensure_ok m0 f a b) as (m1 & e0 & n0 & pn0 & E1 & D1); auto; try lia.
  apply no_weld_eq in E1; [|by auto..].
  rewrite E1. cbn [mbind option_bind].
  assert (free m1 b c) as Fbc1.
  { eapply ED_free; [done|by apply Hfr0|congruence|congruence]. }
  destruct (ensure_ok m1 f b c) as (m2 & e1 & n1 & pn1 & E2 & D2); auto.
  { apply D1. } { apply D1. }
  { rewrite (ed_nverts _ _ _ _ _ _ _ _ D1). lia. } { rewrite (ed_nverts _ _ _ _ _ _ _ _ D1). lia. }
  { pose proof (ed_nhes _ _ _ _ _ _ _ _ D1). lia. }
  apply no_weld_eq in E2; [|by (auto || apply D1)..].
  rewrite E2. cbn [mbind option_bind].
  assert (free m2 c a) as Fca2.
  { eapply ED_free; [done| |congruence|congruence].
    eapply ED_free; [done|by apply Hfr0|congruence|congruence]. }
  destruct (ensure_ok m2 f c a) as (m3 & e2 & n2 & pn2 & E3 & D3); auto.
  { apply D2. } { apply D2. }
  { rewrite (ed_nverts _ _ _ _ _ _ _ _ D2), (ed_nverts _ _ _ _ _ _ _ _ D1). lia. }
  { rewrite (ed_nverts _ _ _ _ _ _ _ _ D2), (ed_nverts _ _ _ _ _ _ _ _ D1). lia. }
  { pose proof (ed_nhes _ _ _ _ _ _ _ _ D1). pose proof (ed_nhes _ _ _ _ _ _ _ _ D2). lia. }
  apply no_weld_eq in E3; [|by (auto || apply D2)..].
  rewrite E3. cbn [mbind option_bind].
  destruct D1 as [S1 R1 (A1&A2&A3&A4) B1 B2 B3 B4 B5 O1 I1 W1 X1 Q1 K1 K1'].
  destruct D2 as [S2 R2 (A5&A6&A7&A8) B6 B7 B8 B9 B10 O2 I2 W2 X2 Q2 K2 K2'].
  destruct D3 as [S3 R3 (A9&A10&A11&A12) B11 B12 B13 B14 B15 O3 I3 W3 X3 Q3 K3 K3'].
  (* e0, e1 in later meshes *)
  destruct (O2 e0 A1) as (P1&P2&P3&P4).
  destruct (I2 e0 A1 ltac:(by rewrite A2)) as (N01&_&_).
  rewrite A2 in P4. specialize (P4 N01).
  destruct (O3 e0 P1) as (P5&P6&P7&P8).
  destruct (I3 e0 P1 ltac:(by rewrite P4)) as (N02&_&_).
  rewrite P4 in P8. specialize (P8 N02).
  destruct (O3 e1 A5) as (P9&P10&P11&P12).
  destruct (I3 e1 A5 ltac:(by rewrite A6)) as (N12&_&_).
  rewrite A6 in P12. specialize (P12 N12).
  assert (L m1 (tw m1 e0)) as Lt1 by (by apply (si_tw _ _ S1)).
  destruct (O2 _ Lt1) as (Lt1'&Ht1'&_&_). destruct (O3 _ Lt1') as (Lt1''&Ht1''&_&_).
  assert (L m2 (tw m2 e1)) as Lt2 by (by apply (si_tw _ _ S2)).
  destruct (O3 _ Lt2) as (Lt2'&Ht2'&_&_).
  assert (hd m3 e0 = b) as Hd0 by congruence.
  assert (tl m3 e0 = a) as Tl0 by (unfold tl; congruence).
  assert (hd m3 e1 = c) as Hd1 by congruence.
  assert (tl m3 e1 = b) as Tl1 by (unfold tl; congruence).
  (* frame from m to m3 *)
  assert (∀ h, L m h → L m3 h ∧ hd m3 h = hd m h ∧ tw m3 h = tw m h ∧
    (h ≠ e0 → h ≠ e1 → h ≠ e2 → fc m3 h = fc m h)) as Cold.
  { intros h HLh. apply HL0 in HLh. destruct (O1 h HLh) as (U1&U2&U3&U4).
    destruct (O2 h U1) as (U5&U6&U7&U8). destruct (O3 h U5) as (U9&U10&U11&U12).
    split; [done|]. unfold hd, tw in *. rewrite Hhe0 in U2, U3. split; [congruence|].
    split; [congruence|]. intros. rewrite U12, U8, U4 by done. unfold fc. by rewrite Hhe0. }
  assert (∀ h, L m h → fc m h ≠ None →
    h ≠ e0 ∧ h ≠ e1 ∧ h ≠ e2 ∧ nx m3 h = nx m h ∧ pv m3 h = pv m h) as Cint.
  { intros h HLh Hfh. apply HL0 in HLh.
    assert (fc m0 h ≠ None) as Hfh0 by (unfold fc; by rewrite Hhe0).
    destruct (O1 h HLh) as (U1&U2&U3&U4). destruct (I1 h HLh Hfh0) as (M1&M2&M3).
    specialize (U4 M1).
    destruct (O2 h U1) as (U5&U6&U7&U8). destruct (I2 h U1 ltac:(by rewrite U4)) as (M4&M5&M6).
    specialize (U8 M4).
    destruct (I3 h U5 ltac:(by rewrite U8, U4)) as (M7&M8&M9).
    split; [done|]. split; [done|]. split; [done|]. rewrite M8, M9, M5, M6, M2, M3.
    unfold nx, pv. by rewrite Hhe0. }
  assert (∀ h, L m3 h → L m h ∨ h = e0 ∨ h = e1 ∨ h = e2 ∨
     ((h = tw m3 e0 ∨ h = tw m3 e1 ∨ h = tw m3 e2) ∧ (h = e0 ∨ h = e1 ∨ h = e2 ∨ fc m3 h = None))) as Cnew.
  { intros h HLh. destruct (W3 h HLh) as [HLh2|[?|(_&?&?)]]; [|by auto 10|by auto 20].
    destruct (W2 h HLh2) as [HLh1|[?|(_&?&Hf2)]]; [|by auto 10|].
    2: { right; right; right; right. split; [right; left; congruence|].
         destruct (decide (h = e2)); [by auto|]. destruct (O3 h HLh2) as (_&_&_&Hf3).
         rewrite Hf3 by done. auto. }
    destruct (W1 h HLh1) as [HLh0|[?|(_&?&Hf1)]]; [left; by apply HL0|by auto 10|].
    right; right; right; right. split; [left; congruence|].
    destruct (decide (h = e2)); [by auto|]. destruct (decide (h = e1)); [by auto|].
    destruct (O2 h HLh1) as (_&_&_&Hf2). destruct (O3 h HLh2) as (_&_&_&Hf3).
    rewrite Hf3, Hf2 by done. auto. }
  assert (∀ h, L m3 h → fc m3 h = Some f → h = e0 ∨ h = e1 ∨ h = e2) as Cf.
  { intros h HLh Hfh. destruct (Cnew h HLh) as [HLm|[?|[?|[?|(_&[?|[?|[?|Hn]]])]]]]; auto.
    - destruct (decide (h = e0)); [by auto|]. destruct (decide (h = e1)); [by auto|].
      destruct (decide (h = e2)); [by auto|]. exfalso.
      destruct (Cold h HLm) as (_&_&_&E). rewrite E in Hfh by done.
      apply (no_face_new m h f HS HLm) in Hfh. unfold f in Hfh. lia.
    - congruence. }
  destruct (link3_ok m3 e0 e1 e2) as (m4 & E4 & Vs4 & Nv4 & Nh4 & Fs4 & Nf4 & Em4 & Ok4 & L4 & Hd4 & Tw4 & Fc4 & Nx4 & Pv4); auto.
  rewrite E4. cbn [mbind option_bind].
  rewrite !twin_if_ok by (by apply L4). cbn [mbind option_bind].
  rewrite !Tw4.
  set (starts := (if n0 then [tw m3 e0] else []) ++ _).
  assert (nx m4 e0 = e1 ∧ nx m4 e1 = e2 ∧ nx m4 e2 = e0) as (NX0&NX1&NX2).
  { rewrite !Nx4, !N.eqb_refl. destruct (N.eqb_spec e1 e0); [done|].
    destruct (N.eqb_spec e2 e0); [done|]. destruct (N.eqb_spec e2 e1); done. }
  assert (pv m4 e0 = e2 ∧ pv m4 e1 = e0 ∧ pv m4 e2 = e1) as (PV0&PV1&PV2).
  { rewrite !Pv4, !N.eqb_refl. destruct (N.eqb_spec e1 e0); [done|].
    destruct (N.eqb_spec e2 e0); [done|]. destruct (N.eqb_spec e2 e1); done. }
  assert (∀ h, h ≠ e0 → h ≠ e1 → h ≠ e2 → nx m4 h = nx m3 h ∧ pv m4 h = pv m3 h) as NPo.
  { intros h ???. rewrite Nx4, Pv4. destruct (N.eqb_spec h e0); [done|].
    destruct (N.eqb_spec h e1); [done|]. destruct (N.eqb_spec h e2); done. }
  assert (faces m4 !! f = Some (mkFC 0 false)) as Ff4.
  { rewrite Fs4, B11, B6, B1, Efs. by rewrite lookup_insert. }
  assert (SI m4 None) as HS4.
  { destruct S3 as [J1 J2 J3 J4 J5 J6 J8 J9 J10 J11 J12]. split.
    - intros h. by rewrite Ok4, Nh4.
    - by rewrite Nh4.
    - by rewrite Fs4, Nf4.
    - by rewrite Nf4.
    - by rewrite Vs4, Nv4.
    - by rewrite Nv4.
    - intros h. rewrite !L4, !Tw4, !Hd4. auto.
    - intros u v h. rewrite Em4, L4, Tw4, !Hd4. auto.
    - intros h f'. rewrite L4, Fc4. intros HLh Hfh _.
      destruct (decide (f' = f)) as [->|Nf].
      + destruct (Cf h HLh Hfh) as [->|[->| ->]].
        * rewrite NX0, PV0, NX1, NX2, PV1, !L4, !Fc4, Tw4, !Hd4. fold (tl m3 e1).
          rewrite Tl1, Hd0. eauto 20.
        * rewrite NX1, PV1, NX2, NX0, PV2, !L4, !Fc4, Tw4, !Hd4.
          rewrite A12, Hd1. eauto 20.
        * rewrite NX2, PV2, NX0, NX1, PV0, !L4, !Fc4, Tw4, !Hd4. fold (tl m3 e0).
          rewrite Tl0, A11. eauto 20.
      + destruct (J10 h f' HLh Hfh ltac:(congruence)) as (I5&I6&I7&I8&I9&I10&I11&I12&I13).
        assert (∀ h', fc m3 h' = Some f' → nx m4 h' = nx m3 h' ∧ pv m4 h' = pv m3 h') as Hnp.
        { intros h' Hf'. apply NPo; congruence. }
        destruct (Hnp h Hfh) as [-> ->]. destruct (Hnp _ I6) as [-> ->].
        destruct (Hnp _ I9) as [-> _]. rewrite !L4, !Fc4, Tw4, !Hd4, Fs4. done.
    - intros h. rewrite L4, !Fc4, Tw4. auto.
    - intros h. rewrite L4, Hd4, Nv4. auto. }
  unfold updF, getF. rewrite Ff4. cbn [mbind option_bind frem].
  set (m5 := set_faces _ m4).
  exists m5, f, starts. split; [done|].
  assert (faces m5 = <[f := mkFC e0 false]> (faces m4)) as Fs5 by done.
  assert (SI m5 None) as HS5.
  { destruct HS4 as [J1 J2 J3 J4 J5 J6 J8 J9 J10 J11 J12]. split; try done.
    - intros g. rewrite Fs5. rewrite lookup_insert_is_Some', J3. split; [|by auto].
      intros [<-|?]; [apply J3; eauto|done].
    - intros h g HLh Hfh _. destruct (J10 h g HLh Hfh ltac:(done)) as (?&?&?&?&?&?&?&?&x&Hx&Hr).
      repeat (split; [done|]). rewrite Fs5. destruct (decide (f = g)) as [<-|].
      + rewrite lookup_insert. eauto.
      + rewrite lookup_insert_ne by done. eauto. }
  assert (∀ h, L m5 h ↔ L m3 h) as L9 by exact L4.
  assert (∀ h, hd m5 h = hd m3 h) as Hd9 by exact Hd4.
  assert (∀ h, tw m5 h = tw m3 h) as Tw9 by exact Tw4.
  assert (∀ h, fc m5 h = fc m3 h) as Fc9 by exact Fc4.
  assert (∀ h g, L m h → fc m h = Some g →
     fc m5 h = Some g ∧ nx m5 h = nx m h ∧ pv m5 h = pv m h) as Int9.
  { intros h g HLh Hfh. destruct (Cint h HLh ltac:(by rewrite Hfh)) as (Ne0&Ne1&Ne2&Cn&Cp).
    destruct (Cold h HLh) as (_&_&_&Cf'). specialize (Cf' Ne0 Ne1 Ne2).
    change (nx m5 h) with (nx m4 h). change (pv m5 h) with (pv m4 h).
    destruct (NPo h Ne0 Ne1 Ne2) as [-> ->]. rewrite Fc9, Cf'. done. }
  assert (∀ g, g ≠ f → faces m5 !! g = faces m !! g) as Fs9'.
  { intros g Hg. rewrite Fs5, lookup_insert_ne by done.
    rewrite Fs4, B11, B6, B1, Efs. by rewrite lookup_insert_ne by done. }
  assert (tl m5 e0 = a ∧ tl m5 e1 = b ∧ tl m5 e2 = c) as (Tl0'&Tl1'&Tl2').
  { unfold tl in *. rewrite !Tw9, !Hd9. done. }
  assert (∀ h, L m h → L m5 h ∧ tl m5 h = tl m h) as Old9.
  { intros h HLh. rewrite L9. destruct (Cold h HLh) as (?&_&Et&_). split; [done|].
    unfold tl. rewrite Tw9, Hd9, Et. by destruct (Cold (tw m h)) as (_&->&_); [apply (si_tw _ _ HS)|]. }
  split; try done.
  - intros g x Hx Hr _. destruct (decide (g = f)) as [->|Ng].
    + rewrite Fs5, lookup_insert in Hx. injection Hx as <-. cbn [fhe].
      change (nx m5 e0) with (nx m4 e0). change (pv m5 e0) with (pv m4 e0).
      rewrite L9, Fc9, NX0, PV0. split; [done|]. split; [done|].
      intros h. rewrite L9, Fc9. intros HLh Hfh. destruct (Cf h HLh Hfh) as [->|[->| ->]]; auto.
    + rewrite Fs9' in Hx by done. destruct (HFH g x Hx Hr ltac:(done)) as (Y1&Y2&Y3).
      destruct (Int9 _ _ Y1 Y2) as (Y4&Y5&Y6). rewrite Y4, Y5, Y6, L9.
      split; [by apply Cold|]. split; [done|].
      intros h. rewrite L9, Fc9. intros HLh Hfh.
      destruct (Cnew h HLh) as [HLm|[->|[->|[->|(_&[->|[->|[->|Hn]]])]]]]; try congruence.
      apply Y3; [done|].
      destruct (decide (h = e0)); [congruence|]. destruct (decide (h = e1)); [congruence|].
      destruct (decide (h = e2)); [congruence|]. destruct (Cold h HLm) as (_&_&_&Z).
      rewrite <- Z; done.
  - intros x HLx Hfx. change (nx m5 x) with (nx m4 x). change (pv m5 x) with (pv m4 x).
    rewrite L9 in HLx. rewrite Fc9 in Hfx.
    assert (x ≠ e0 ∧ x ≠ e1 ∧ x ≠ e2) as (?&?&?) by (split_and!; congruence).
    destruct (NPo x) as [-> ->]; try done.
    destruct (R3 x HLx Hfx) as (G1&G2&G3&G4&G5&G6).
    change (pv m5 (nx m3 x)) with (pv m4 (nx m3 x)). change (nx m5 (pv m3 x)) with (nx m4 (pv m3 x)).
    destruct (NPo (nx m3 x)) as [_ ->]; [congruence..|].
    destruct (NPo (pv m3 x)) as [-> _]; [congruence..|].
    rewrite !L9, !Fc9. done.
  - change (nfaces m4 = nfaces m + 1). rewrite Nf4, B12, B7, B2. done.
  - change (nhes m ≤ nhes m4 ≤ nhes m + 6). rewrite Nh4. lia.
  - change (nverts m4 = nverts m). congruence.
  - change (verts m4 = verts m). congruence.
  - apply oriented_face_L; [done|]. exists e0. change (nx m5 e0) with (nx m4 e0). rewrite NX0.
    rewrite L9, Fc9, !Hd9, Tl0'. split; [by rewrite Fs5, lookup_insert|]. done.
  - intros g a' b' c' Hg. revert a' b' c'. apply same_oriented_q; try done.
    + by apply Fs9'.
    + intros h HLh Hfh. destruct (Old9 h HLh) as [? ?]. destruct (Int9 h g HLh Hfh) as (?&?&?).
      split_and!; try done. rewrite Hd9. by apply Cold.
  - intros h. rewrite L9. intros HLh.
    assert (∀ e, L m3 e → tl m5 (tw m3 e) = hd m3 e) as Httw.
    { intros e He. unfold tl. rewrite Tw9, Hd9. f_equal. by apply (si_tw _ _ S3). }
    destruct (Cnew h HLh) as [HLm|[->|[->|[->|([->|[->| ->]]&_)]]]]; [by left|right..];
      rewrite ?Httw by done; rewrite ?Tl0', ?Tl1', ?Tl2', ?Hd0, ?Hd1, ?A11; clear; set_solver.
  - intros h HLh. rewrite Tw9. by apply Cold.
  - intros h HLh Hfh. destruct (fc m h) as [g|] eqn:Eg; [|done].
    destruct (Int9 h g HLh Eg) as (->&_&->). done.
  - intros x HLx Hfx Hxs. rewrite L9 in HLx. rewrite Fc9 in Hfx.
    assert (x ≠ e0 ∧ x ≠ e1 ∧ x ≠ e2) as (Nx0&Nx1&Nx2) by (split_and!; congruence).
    change (nx m5 x) with (nx m4 x). change (pv m5 x) with (pv m4 x).
    destruct (NPo x) as [-> ->]; try done.
    destruct (Q3 x HLx Hfx) as [(HL2&Hf2&En2&Ep2)|[[-> ->]|Hin]].
    2: { exfalso. apply Hxs. unfold starts. clear. set_solver. }
    2: { exfalso. apply Hxs. unfold starts. clear -Hin. set_solver. }
    destruct (Q2 x HL2 Hf2) as [(HL1&Hf1&En1&Ep1)|[[-> ->]|Hin]].
    2: { exfalso. apply Hxs. unfold starts. rewrite <- P11. clear. set_solver. }
    2: { exfalso. apply Hxs. unfold starts. clear -Hin. set_solver. }
    destruct (Q1 x HL1 Hf1) as [(HL0'&Hf0&En0&Ep0)|[[-> ->]|Hin]].
    2: { exfalso. apply Hxs. unfold starts. rewrite <- P3, <- P7. clear. set_solver. }
    2: { exfalso. apply Hxs. unfold starts. clear -Hin. set_solver. }
    unfold nx, pv, fc in *. rewrite Hhe0 in *. rewrite <- HL0. split; [done|].
    split; [done|]. split; congruence.
Qed.
End batch.
