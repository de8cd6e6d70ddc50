(** add_triangle, second part: linking, welding, anchors. *)
From Verif Require Export MeshAdd.
Local Open Scope N_scope.

Section add2.
Context {P : Type}.
Implicit Types (m : mesh P) (h k f u v e : N).

(** fans survive when interior half-edges are kept *)
Lemma spokes_mono m m' n k c : SI m None →
  (∀ h, L m h → tw m' h = tw m h) →
  (∀ h, L m h → fc m h ≠ None → fc m' h ≠ None ∧ pv m' h = pv m h) →
  fc m' c = None → In m k → spokes m n k c → spokes m' n k c.
Proof.
  intros HS Ht Hi Hc HI Hs. induction Hs as [k Hk|n k c Hk Hs IH].
  - rewrite <- (Ht k) by apply HI. constructor. rewrite Ht by apply HI. done.
  - assert (L m (tw m k)) as HLt by (apply (tw_L m HS), HI).
    destruct (Hi (tw m k) HLt Hk) as [H1 H2].
    constructor; rewrite (Ht k) by apply HI; [done|]. rewrite H2.
    apply IH; [done|]. by apply (rot_In m HS).
Qed.

Lemma fan_mono m m' b c : SI m None →
  (∀ h, L m h → tw m' h = tw m h) →
  (∀ h, L m h → fc m h ≠ None → fc m' h ≠ None ∧ pv m' h = pv m h) →
  L m b → fc m b = None → fc m' c = None → fan m b c → fan m' b c.
Proof.
  intros HS Ht Hi HL Hb Hc [n Hs]. exists n.
  destruct (spokes_start m HS b HL Hb) as (HI & _ & _).
  pose proof (border_tw_In m HS b HL Hb) as [H1 H2].
  destruct (Hi _ H1 H2) as [_ E]. rewrite (Ht b HL), E. by eapply spokes_mono.
Qed.

Lemma spokes_hes m m' n k c : hes m' = hes m → spokes m n k c → spokes m' n k c.
Proof.
  intros E. assert (∀ h, he m' h = he m h) as Hhe by (intros; unfold he; by rewrite E).
  induction 1 as [k Hk|n k c Hk Hs IH].
  - assert (tw m k = tw m' k) as -> by (unfold tw; by rewrite Hhe).
    constructor. unfold fc, tw in *. by rewrite !Hhe.
  - constructor; unfold fc, tw, pv in *; by rewrite !Hhe.
Qed.
Lemma fan_hes m m' b c : hes m' = hes m → fan m b c → fan m' b c.
Proof.
  intros E [n Hn]. exists n. apply (spokes_hes _ _ _ _ _ E) in Hn.
  unfold pv, tw, he in *. by rewrite E.
Qed.
Lemma BI_hes m m' : hes m' = hes m → BI m → BI m'.
Proof.
  intros E HB b. unfold L, is_live, getH, fc, nx, pv, he. rewrite E.
  intros HL Hf. destruct (HB b HL Hf) as (H1&H2&H3&H4).
  split; [|split; [|split]]; [by apply (fan_hes m)|by apply (fan_hes m)|done|done].
Qed.

(** link3 *)
Lemma link3_ok m e0 e1 e2 : L m e0 → L m e1 → L m e2 → e0 ≠ e1 → e1 ≠ e2 → e2 ≠ e0 →
  ∃ m', link3 m e0 e1 e2 = Some m' ∧
   verts m' = verts m ∧ nverts m' = nverts m ∧ nhes m' = nhes m ∧ faces m' = faces m ∧
   nfaces m' = nfaces m ∧ emap m' = emap m ∧
   (∀ h, is_Some (hes m' !! h) ↔ is_Some (hes m !! h)) ∧
   (∀ h, L m' h ↔ L m h) ∧ (∀ h, hd m' h = hd m h) ∧ (∀ h, tw m' h = tw m h) ∧
   (∀ h, fc m' h = fc m h) ∧
   (∀ h, nx m' h = if h =? e0 then e1 else if h =? e1 then e2 else if h =? e2 then e0 else nx m h) ∧
   (∀ h, pv m' h = if h =? e0 then e2 else if h =? e1 then e0 else if h =? e2 then e1 else pv m h).
Proof.
  intros HL0 HL1 HL2 N01 N12 N20. unfold link3.
  repeat (rewrite updH_eq by (rewrite ?putH_lookup; auto 10 using L_ok); cbn [mbind option_bind]).
  eexists. split; [done|].
  set (m' := putH _ _ _).
  assert (∀ h, he m' h = mkHE (hd m h) (fc m h)
     (if h =? e0 then e1 else if h =? e1 then e2 else if h =? e2 then e0 else nx m h)
     (if h =? e0 then e2 else if h =? e1 then e0 else if h =? e2 then e1 else pv m h)
     (tw m h) (hrem (he m h))) as Hhe.
  { intros h. unfold m'. rewrite !he_putH.
    destruct (N.eqb_spec h e0) as [->|].
    - destruct (N.eqb_spec e0 e1); [done|]. destruct (N.eqb_spec e0 e2); [done|].
      destruct (N.eqb_spec e1 e0); [done|]. destruct (N.eqb_spec e2 e0); [done|]. 
      rewrite ?N.eqb_refl. done.
    - destruct (N.eqb_spec h e1) as [->|].
      + destruct (N.eqb_spec e2 e1); [done|]. destruct (N.eqb_spec e1 e2); [done|].
        destruct (N.eqb_spec e1 e0); [done|]. rewrite ?N.eqb_refl. done.
      + destruct (N.eqb_spec h e2) as [->|].
        * destruct (N.eqb_spec e2 e0); [done|]. destruct (N.eqb_spec e2 e1); [done|].
          rewrite ?N.eqb_refl. done.
        * unfold hd, fc, nx, pv, tw. by destruct (he m h). }
  assert (∀ h, hrem (he m' h) = hrem (he m h)) as Hrem by (intros h; by rewrite Hhe).
  assert (∀ h, is_Some (hes m' !! h) ↔ is_Some (hes m !! h)) as Hok.
  { intros h. unfold m'. rewrite !putH_lookup. split; [|by auto 10].
    naive_solver auto using L_ok. }
  split; [done|]. split; [done|]. split; [done|]. split; [done|]. split; [done|].
  split; [done|]. split; [done|]. split.
  { intros h. rewrite !L_spec. split.
    - intros (x & Hx & Hr). destruct (proj1 (Hok h) (mk_is_Some _ _ Hx)) as [y Hy].
      exists y. split; [done|]. specialize (Hrem h). unfold he in Hrem. rewrite Hx, Hy in Hrem.
      simpl in Hrem. congruence.
    - intros (x & Hx & Hr). destruct (proj2 (Hok h) (mk_is_Some _ _ Hx)) as [y Hy].
      exists y. split; [done|]. specialize (Hrem h). unfold he in Hrem. rewrite Hx, Hy in Hrem.
      simpl in Hrem. congruence. }
  split; [intros h; unfold hd at 1; by rewrite Hhe|].
  split; [intros h; unfold tw at 1; by rewrite Hhe|].
  split; [intros h; unfold fc at 1; by rewrite Hhe|].
  split; [intros h; unfold nx at 1; by rewrite Hhe|].
  intros h; unfold pv at 1; by rewrite Hhe.
Qed.

(** what add_oriented guarantees *)
Record AddPost m a b c m' f : Prop := {
  ap_wf : WF m';
  ap_f : f = nfaces m;
  ap_nfaces : nfaces m' = nfaces m + 1;
  ap_nhes : nhes m ≤ nhes m' ≤ nhes m + 6;
  ap_nverts : nverts m' = nverts m;
  ap_verts : ∀ v x, verts m !! v = Some x →
     ∃ x', verts m' !! v = Some x' ∧ vpos x' = vpos x ∧ vrem x' = vrem x;
  ap_faces : ∀ g, g ≠ f → faces m' !! g = faces m !! g;
  ap_tri : ∃ e0 e1 e2, faces m' !! f = Some (mkFC e0 false) ∧
     L m' e0 ∧ L m' e1 ∧ L m' e2 ∧
     nx m' e0 = e1 ∧ nx m' e1 = e2 ∧ nx m' e2 = e0 ∧
     pv m' e0 = e2 ∧ pv m' e1 = e0 ∧ pv m' e2 = e1 ∧
     fc m' e0 = Some f ∧ fc m' e1 = Some f ∧ fc m' e2 = Some f ∧
     hd m' e0 = b ∧ hd m' e1 = c ∧ hd m' e2 = a ∧
     tl m' e0 = a ∧ tl m' e1 = b ∧ tl m' e2 = c ∧
     (∀ h, L m' h → L m h ∨ h = e0 ∨ h = e1 ∨ h = e2 ∨ h = tw m' e0 ∨ h = tw m' e1 ∨ h = tw m' e2) ∧
     (∀ h, L m h → h ≠ e0 → h ≠ e1 → h ≠ e2 → fc m' h = fc m h);
  ap_old : ∀ h, L m h → L m' h ∧ hd m' h = hd m h ∧ tw m' h = tw m h;
  ap_int : ∀ h g, L m h → fc m h = Some g →
     fc m' h = Some g ∧ nx m' h = nx m h ∧ pv m' h = pv m h
}.

Lemma pushF_SI m x : WF m → nfaces m < umax →
  ∃ m', pushF m x = Some m' ∧ SI m' (Some (nfaces m)) ∧ ring_ok m' ∧
    hes m' = hes m ∧ nhes m' = nhes m ∧ verts m' = verts m ∧ nverts m' = nverts m ∧
    emap m' = emap m ∧ nfaces m' = nfaces m + 1 ∧ faces m' = <[nfaces m := x]> (faces m).
Proof.
  intros HW Hlt. unfold pushF. rewrite (proj2 (N.ltb_lt _ _) Hlt).
  eexists. split; [done|]. pose proof (wf_si _ HW) as HS.
  split; [|split; [|done]].
  - destruct HS as [I1 I2 I3 I4 I5 I6 I8 I9 I10 I11 I12]. split; try done; cbn [nfaces faces].
    + intros f. rewrite lookup_insert_is_Some', I3. split; [lia|].
      intros. destruct (decide (nfaces m = f)); [by left|]. right. lia.
    + lia.
    + intros h f HL Hf Hs. destruct (I10 h f HL Hf ltac:(done)) as (?&?&?&?&?&?&?&?&Hx).
      repeat (split; [done|]). rewrite lookup_insert_ne by congruence. done.
  - exact (BI_ring m HS (wf_bi _ HW)).
Qed.

Lemma no_face_new m h f : SI m None → L m h → fc m h = Some f → f < nfaces m.
Proof.
  intros HS HL Hf. destruct (si_in _ _ HS h f HL Hf) as (_&_&_&_&_&_&_&_&x&Hx&_); [done|].
  apply (si_fb _ _ HS). eauto.
Qed.

(** chaining three ensure_dir *)
Lemma ED_free m f u v m' e nw pn u' v' :
  ED m f u v m' e nw pn → free m u' v' → (u', v') ≠ (u, v) → (u', v') ≠ (v, u) → free m' u' v'.
Proof.
  intros HE Hfr N1 N2 h Hh. rewrite (ed_em _ _ _ _ _ _ _ _ HE) in Hh by done.
  assert (h ≠ e).
  { intros ->. pose proof (ed_em_mono _ _ _ _ _ _ _ _ HE _ _ Hh) as Hh'.
    apply (si_em _ _ (ed_si _ _ _ _ _ _ _ _ HE)) in Hh' as (_&E1&E2).
    destruct (ed_e _ _ _ _ _ _ _ _ HE) as (_&_&E3&E4). congruence. }
  pose proof (ed_em_mono _ _ _ _ _ _ _ _ HE _ _ Hh) as Hh'.
  specialize (Hfr h Hh).
  destruct (decide (L m h)) as [HL|HnL].
  { destruct (ed_old _ _ _ _ _ _ _ _ HE h HL) as (_&_&_&Hf). rewrite Hf; done. }
  apply (si_em _ _ (ed_si _ _ _ _ _ _ _ _ HE)) in Hh' as (HL'&_&_).
  destruct (ed_new _ _ _ _ _ _ _ _ HE h HL') as [?|[?|(_&_&?)]]; done.
Qed.

Lemma anchor_pos e (x : VX P) : vpos (anchor_if_none e x) = vpos x ∧ vrem (anchor_if_none e x) = vrem x.
Proof. unfold anchor_if_none. by destruct (vhe x). Qed.

Lemma updV_eq m v g : v < nverts m → (∀ v, is_Some (verts m !! v) ↔ v < nverts m) →
  ∃ x, verts m !! v = Some x ∧ updV m v g = Some (set_verts (<[v := g x]> (verts m)) m).
Proof.
  intros Hv Hb. apply Hb in Hv as [x Hx]. exists x. split; [done|].
  unfold updV, getV. rewrite Hx. done.
Qed.

Lemma check_starts_ok m l : SI m None → BI m → check_starts m l = Some tt.
Proof.
  intros HS HB. induction l as [|b l IH]; [done|]. simpl.
  assert (no_self_loop m b = Some tt) as ->; [|done].
  unfold no_self_loop. destruct (N.eqb_spec b umax); [done|]. simpl.
  destruct (N.ltb_spec b (nhes m)) as [Hlt|]; [|done]. simpl.
  rewrite getH_ok by (by apply (si_hb _ _ HS)). simpl.
  destruct (negb (hrem (he m b)) && is_none (hface (he m b))) eqn:E; [|done].
  apply andb_true_iff in E as [E1%negb_true_iff E2].
  assert (L m b) as HL.
  { apply (L_intro m b (he m b)); [|done].
    destruct (proj2 (si_hb _ _ HS b) Hlt) as [x Hx]. unfold he. by rewrite Hx. }
  assert (fc m b = None) as Hf by (unfold fc; by destruct (hface (he m b))).
  destruct (HB b HL Hf) as (H1 & H2 & H3 & H4).
  fold (nx m b) (pv m b).
  destruct (N.eqb_spec (nx m b) b) as [E|].
  { by apply (fan_ne m HS b (nx m b)) in E. }
  destruct (N.eqb_spec (pv m b) b) as [E|]; [|done].
  exfalso. symmetry in E. revert E. by apply (fan_ne m HS (pv m b) b).
Qed.

Lemma weld_border_components_eq m starts :
  weld_border_components_from m starts = (r ← weld m starts ∅; Some r.1).
Proof. by destruct starts. Qed.

Lemma twin_if_ok (n : bool) m e : L m e → twin_if n m e = Some (if n then [tw m e] else []).
Proof. intros HL. unfold twin_if. destruct n; [|done]. by rewrite (L_getH _ _ HL). Qed.

Lemma add_oriented_ok m a b c :
  WF m → a ≠ b → b ≠ c → c ≠ a → a < nverts m → b < nverts m → c < nverts m →
  free m a b → free m b c → free m c a → nhes m + 6 ≤ umax → nfaces m < umax →
  ∃ m' f, add_oriented m a b c = Some (m', f) ∧ AddPost m a b c m' f.
Proof.
  intros HW Nab Nbc Nca Ha Hb Hc Fab Fbc Fca Hsz Hfz.
  pose proof (wf_si _ HW) as HS.
  assert (∀ u v, free m u v → assert_unbound m (u, v) = Some tt) as Hun.
  { intros u v Hfr. unfold assert_unbound. destruct (emap m !! (u, v)) as [h|] eqn:E; [|done].
    destruct (proj1 (si_em _ _ HS _ _ _) E) as (HL&_&_). rewrite (L_getH _ _ HL). simpl.
    fold (fc m h). by rewrite (Hfr h E). }
  unfold add_oriented. rewrite !Hun by done. cbn [mbind option_bind].
  set (f := nfaces m).
  destruct (pushF_SI m (mkFC 0 false) HW Hfz) as (m0 & E0 & HS0 & HR0 & Ehes & Enh & Evs & Env & Eem & Enf & Efs).
  rewrite E0. cbn [mbind option_bind]. fold f in HS0, Efs.
  assert (∀ h, he m0 h = he m h) as Hhe0 by (intros; unfold he; by rewrite Ehes).
  assert (∀ h, L m0 h ↔ L m h) as HL0 by (intros; unfold L, is_live, getH; by rewrite Ehes).
  assert (∀ u v, free m u v → free m0 u v) as Hfr0.
  { intros u v Hfr h. rewrite Eem. unfold fc. rewrite Hhe0. apply Hfr. }
  destruct (ensure_ok m0 f a b) as (m1 & e0 & n0 & pn0 & E1 & D1); auto; try lia.
  rewrite E1. cbn [mbind option_bind].
  destruct (ensure_ok m1 f b c) as (m2 & e1 & n1 & pn1 & E2 & D2); auto.
  { apply D1. } { apply D1. }
  { eapply ED_free; [done|by apply Hfr0|congruence|congruence]. }
  { rewrite (ed_nverts _ _ _ _ _ _ _ _ D1). lia. } { rewrite (ed_nverts _ _ _ _ _ _ _ _ D1). lia. }
  { pose proof (ed_nhes _ _ _ _ _ _ _ _ D1). lia. }
  rewrite E2. cbn [mbind option_bind].
  destruct (ensure_ok m2 f c a) as (m3 & e2 & n2 & pn2 & E3 & D3); auto.
  { apply D2. } { apply D2. }
  { eapply ED_free; [done| |congruence|congruence].
    eapply ED_free; [done|by apply Hfr0|congruence|congruence]. }
  { rewrite (ed_nverts _ _ _ _ _ _ _ _ D2), (ed_nverts _ _ _ _ _ _ _ _ D1). lia. }
  { rewrite (ed_nverts _ _ _ _ _ _ _ _ D2), (ed_nverts _ _ _ _ _ _ _ _ D1). lia. }
  { pose proof (ed_nhes _ _ _ _ _ _ _ _ D1). pose proof (ed_nhes _ _ _ _ _ _ _ _ D2). lia. }
  rewrite E3. cbn [mbind option_bind].
  destruct D1 as [S1 R1 (A1&A2&A3&A4) B1 B2 B3 B4 B5 O1 I1 W1 X1 Q1 K1 K1'].
  destruct D2 as [S2 R2 (A5&A6&A7&A8) B6 B7 B8 B9 B10 O2 I2 W2 X2 Q2 K2 K2'].
  destruct D3 as [S3 R3 (A9&A10&A11&A12) B11 B12 B13 B14 B15 O3 I3 W3 X3 Q3 K3 K3'].
  (* e0, e1 in later meshes *)
  destruct (O2 e0 A1) as (P1&P2&P3&P4).
  destruct (I2 e0 A1 ltac:(by rewrite A2)) as (N01&_&_).
  rewrite A2 in P4. specialize (P4 N01).
  destruct (O3 e0 P1) as (P5&P6&P7&P8).
  destruct (I3 e0 P1 ltac:(by rewrite P4)) as (N02&_&_).
  rewrite P4 in P8. specialize (P8 N02).
  destruct (O3 e1 A5) as (P9&P10&P11&P12).
  destruct (I3 e1 A5 ltac:(by rewrite A6)) as (N12&_&_).
  rewrite A6 in P12. specialize (P12 N12).
  assert (L m1 (tw m1 e0)) as Lt1 by (by apply (si_tw _ _ S1)).
  destruct (O2 _ Lt1) as (Lt1'&Ht1'&_&_). destruct (O3 _ Lt1') as (Lt1''&Ht1''&_&_).
  assert (L m2 (tw m2 e1)) as Lt2 by (by apply (si_tw _ _ S2)).
  destruct (O3 _ Lt2) as (Lt2'&Ht2'&_&_).
  assert (hd m3 e0 = b) as Hd0 by congruence.
  assert (tl m3 e0 = a) as Tl0 by (unfold tl; congruence).
  assert (hd m3 e1 = c) as Hd1 by congruence.
  assert (tl m3 e1 = b) as Tl1 by (unfold tl; congruence).
  (* frame from m to m3 *)
  assert (∀ h, L m h → L m3 h ∧ hd m3 h = hd m h ∧ tw m3 h = tw m h ∧
    (h ≠ e0 → h ≠ e1 → h ≠ e2 → fc m3 h = fc m h)) as Cold.
  { intros h HLh. apply HL0 in HLh. destruct (O1 h HLh) as (U1&U2&U3&U4).
    destruct (O2 h U1) as (U5&U6&U7&U8). destruct (O3 h U5) as (U9&U10&U11&U12).
    split; [done|]. unfold hd, tw in *. rewrite Hhe0 in U2, U3. split; [congruence|].
    split; [congruence|]. intros. rewrite U12, U8, U4 by done. unfold fc. by rewrite Hhe0. }
  assert (∀ h, L m h → fc m h ≠ None →
    h ≠ e0 ∧ h ≠ e1 ∧ h ≠ e2 ∧ nx m3 h = nx m h ∧ pv m3 h = pv m h) as Cint.
  { intros h HLh Hfh. apply HL0 in HLh.
    assert (fc m0 h ≠ None) as Hfh0 by (unfold fc; by rewrite Hhe0).
    destruct (O1 h HLh) as (U1&U2&U3&U4). destruct (I1 h HLh Hfh0) as (M1&M2&M3).
    specialize (U4 M1).
    destruct (O2 h U1) as (U5&U6&U7&U8). destruct (I2 h U1 ltac:(by rewrite U4)) as (M4&M5&M6).
    specialize (U8 M4).
    destruct (I3 h U5 ltac:(by rewrite U8, U4)) as (M7&M8&M9).
    split; [done|]. split; [done|]. split; [done|]. rewrite M8, M9, M5, M6, M2, M3.
    unfold nx, pv. by rewrite Hhe0. }
  assert (∀ h, L m3 h → L m h ∨ h = e0 ∨ h = e1 ∨ h = e2 ∨
     ((h = tw m3 e0 ∨ h = tw m3 e1 ∨ h = tw m3 e2) ∧ (h = e0 ∨ h = e1 ∨ h = e2 ∨ fc m3 h = None))) as Cnew.
  { intros h HLh. destruct (W3 h HLh) as [HLh2|[?|(_&?&?)]]; [|by auto 10|by auto 20].
    destruct (W2 h HLh2) as [HLh1|[?|(_&?&Hf2)]]; [|by auto 10|].
    2: { right; right; right; right. split; [right; left; congruence|].
         destruct (decide (h = e2)); [by auto|]. destruct (O3 h HLh2) as (_&_&_&Hf3).
         rewrite Hf3 by done. auto. }
    destruct (W1 h HLh1) as [HLh0|[?|(_&?&Hf1)]]; [left; by apply HL0|by auto 10|].
    right; right; right; right. split; [left; congruence|].
    destruct (decide (h = e2)); [by auto|]. destruct (decide (h = e1)); [by auto|].
    destruct (O2 h HLh1) as (_&_&_&Hf2). destruct (O3 h HLh2) as (_&_&_&Hf3).
    rewrite Hf3, Hf2 by done. auto. }
  assert (∀ h, L m3 h → fc m3 h = Some f → h = e0 ∨ h = e1 ∨ h = e2) as Cf.
  { intros h HLh Hfh. destruct (Cnew h HLh) as [HLm|[?|[?|[?|(_&[?|[?|[?|Hn]]])]]]]; auto.
    - destruct (decide (h = e0)); [by auto|]. destruct (decide (h = e1)); [by auto|].
      destruct (decide (h = e2)); [by auto|]. exfalso.
      destruct (Cold h HLm) as (_&_&_&E). rewrite E in Hfh by done.
      apply (no_face_new m h f HS HLm) in Hfh. unfold f in Hfh. lia.
    - congruence. }
  destruct (link3_ok m3 e0 e1 e2) as (m4 & E4 & Vs4 & Nv4 & Nh4 & Fs4 & Nf4 & Em4 & Ok4 & L4 & Hd4 & Tw4 & Fc4 & Nx4 & Pv4); auto.
  rewrite E4. cbn [mbind option_bind].
  rewrite !twin_if_ok by (by apply L4). cbn [mbind option_bind].
  rewrite !Tw4.
  set (starts := (if n0 then [tw m3 e0] else []) ++ _).
  assert (nx m4 e0 = e1 ∧ nx m4 e1 = e2 ∧ nx m4 e2 = e0) as (NX0&NX1&NX2).
  { rewrite !Nx4, !N.eqb_refl. destruct (N.eqb_spec e1 e0); [done|].
    destruct (N.eqb_spec e2 e0); [done|]. destruct (N.eqb_spec e2 e1); done. }
  assert (pv m4 e0 = e2 ∧ pv m4 e1 = e0 ∧ pv m4 e2 = e1) as (PV0&PV1&PV2).
  { rewrite !Pv4, !N.eqb_refl. destruct (N.eqb_spec e1 e0); [done|].
    destruct (N.eqb_spec e2 e0); [done|]. destruct (N.eqb_spec e2 e1); done. }
  assert (∀ h, h ≠ e0 → h ≠ e1 → h ≠ e2 → nx m4 h = nx m3 h ∧ pv m4 h = pv m3 h) as NPo.
  { intros h ???. rewrite Nx4, Pv4. destruct (N.eqb_spec h e0); [done|].
    destruct (N.eqb_spec h e1); [done|]. destruct (N.eqb_spec h e2); done. }
  assert (faces m4 !! f = Some (mkFC 0 false)) as Ff4.
  { rewrite Fs4, B11, B6, B1, Efs. by rewrite lookup_insert. }
  assert (SI m4 None) as HS4.
  { destruct S3 as [J1 J2 J3 J4 J5 J6 J8 J9 J10 J11 J12]. split.
    - intros h. by rewrite Ok4, Nh4.
    - by rewrite Nh4.
    - by rewrite Fs4, Nf4.
    - by rewrite Nf4.
    - by rewrite Vs4, Nv4.
    - by rewrite Nv4.
    - intros h. rewrite !L4, !Tw4, !Hd4. auto.
    - intros u v h. rewrite Em4, L4, Tw4, !Hd4. auto.
    - intros h f'. rewrite L4, Fc4. intros HLh Hfh _.
      destruct (decide (f' = f)) as [->|Nf].
      + destruct (Cf h HLh Hfh) as [->|[->| ->]].
        * rewrite NX0, PV0, NX1, NX2, PV1, !L4, !Fc4, Tw4, !Hd4. fold (tl m3 e1).
          rewrite Tl1, Hd0. eauto 20.
        * rewrite NX1, PV1, NX2, NX0, PV2, !L4, !Fc4, Tw4, !Hd4.
          rewrite A12, Hd1. eauto 20.
        * rewrite NX2, PV2, NX0, NX1, PV0, !L4, !Fc4, Tw4, !Hd4. fold (tl m3 e0).
          rewrite Tl0, A11. eauto 20.
      + destruct (J10 h f' HLh Hfh ltac:(congruence)) as (I5&I6&I7&I8&I9&I10&I11&I12&I13).
        assert (∀ h', fc m3 h' = Some f' → nx m4 h' = nx m3 h' ∧ pv m4 h' = pv m3 h') as Hnp.
        { intros h' Hf'. apply NPo; congruence. }
        destruct (Hnp h Hfh) as [-> ->]. destruct (Hnp _ I6) as [-> ->].
        destruct (Hnp _ I9) as [-> _]. rewrite !L4, !Fc4, Tw4, !Hd4, Fs4. done.
    - intros h. rewrite L4, !Fc4, Tw4. auto.
    - intros h. rewrite L4, Hd4, Nv4. auto. }
  rewrite weld_border_components_eq.
  destruct (weld_ok starts m4 ∅ HS4) as (m5 & V & E5 & HB5 & HC5 & _ & Hst & Hlk & Hfr).
  { intros x Hx. set_solver. }
  rewrite E5. cbn [mbind option_bind fst snd].
  pose proof (bsim_SI _ _ _ HB5 HS4) as HS5.
  (* old borders keep their links *)
  assert (∀ x, L m4 x → fc m4 x = None → x ∉ V → linked m4 m4 x) as Hkeep.
  { intros x HLx Hfx HVx.
    assert (x ∉ starts) as Hxs by (intros Hin; by apply HVx, Hst).
    rewrite L4 in HLx. rewrite Fc4 in Hfx.
    assert (L m x ∧ fc m x = None ∧ nx m3 x = nx m x ∧ pv m3 x = pv m x) as (HLm&Hfm&Enx&Epv).
    { destruct (Q3 x HLx Hfx) as [(HL2&Hf2&En2&Ep2)|[[-> ->]|Hin]].
      2: { exfalso. apply Hxs. unfold starts. clear. set_solver. }
      2: { exfalso. apply Hxs. unfold starts. clear -Hin. set_solver. }
      destruct (Q2 x HL2 Hf2) as [(HL1&Hf1&En1&Ep1)|[[-> ->]|Hin]].
      2: { exfalso. apply Hxs. unfold starts. rewrite <- P11. clear. set_solver. }
      2: { exfalso. apply Hxs. unfold starts. clear -Hin. set_solver. }
      destruct (Q1 x HL1 Hf1) as [(HL0'&Hf0&En0&Ep0)|[[-> ->]|Hin]].
      2: { exfalso. apply Hxs. unfold starts. rewrite <- P3, <- P7. clear. set_solver. }
      2: { exfalso. apply Hxs. unfold starts. clear -Hin. set_solver. }
      unfold nx, pv, fc in *. rewrite Hhe0 in *. rewrite <- HL0. split; [done|].
      split; [done|]. split; congruence. }
    assert (x ≠ e0 ∧ x ≠ e1 ∧ x ≠ e2) as (Nx0&Nx1&Nx2) by (split_and!; congruence).
    destruct (NPo x Nx0 Nx1 Nx2) as [En4 Ep4].
    destruct (R3 x HLx Hfx) as (G1&G2&G3&G4&G5&G6).
    destruct (wf_bi _ HW x HLm Hfm) as (T1&T2&T3&T4).
    assert (∀ h, L m h → tw m4 h = tw m h) as Htt.
    { intros h HLh. rewrite Tw4. by apply Cold. }
    assert (∀ h, L m h → fc m h ≠ None → fc m4 h ≠ None ∧ pv m4 h = pv m h) as Hpp.
    { intros h HLh Hfh. destruct (Cint h HLh Hfh) as (?&?&?&?&?).
      rewrite Fc4. destruct (Cold h HLh) as (_&_&_&->); try done. split; [done|].
      destruct (NPo h) as [_ ->]; done. }
    unfold linked. rewrite En4, Ep4, Enx, Epv. rewrite Enx in G1, G2. rewrite Epv in G4, G5.
    split; [|split; [|split]].
    - apply (fan_mono m m4); auto. by rewrite Fc4.
    - apply (fan_mono m m4); auto. by rewrite Fc4.
    - by rewrite L4.
    - by rewrite Fc4. }
  assert (BI m5) as HBI5.
  { intros x HLx Hfx. rewrite (bs_L _ _ HB5) in HLx. rewrite (bs_fc _ _ HB5) in Hfx.
    assert (linked m4 m5 x) as (G1&G2&G3&G4).
    { destruct (decide (x ∈ V)) as [HV|HV]; [apply Hlk; [done|apply not_elem_of_empty]|].
      destruct (Hfr x) as [G1 G2]; [by left|]. unfold linked. rewrite G1, G2.
      by apply Hkeep. }
    rewrite (bsim_fan m4 m5) by (done || by apply (si_out _ _ HS4)).
    rewrite (bsim_fan m4 m5) by (done || by apply (si_out _ _ HS4)).
    rewrite (bs_L _ _ HB5), (bs_fc _ _ HB5). done. }
  (* face handle and anchors *)
  assert (faces m5 !! f = Some (mkFC 0 false)) as Ff5 by (by rewrite (bs_faces _ _ HB5)).
  unfold updF, getF. rewrite Ff5. cbn [mbind option_bind frem].
  set (m6 := set_faces _ m5).
  assert (∀ v, is_Some (verts m5 !! v) ↔ v < nverts m5) as Vb5 by apply (si_vb _ _ HS5).
  assert (nverts m5 = nverts m) as Nv5.
  { rewrite (bs_nverts _ _ HB5). congruence. }
  assert (verts m5 = verts m) as Vs5.
  { rewrite (bs_verts _ _ HB5). congruence. }
  destruct (updV_eq m6 a (anchor_if_none e0)) as (xa & Exa & Ea); [simpl; lia|done|].
  rewrite Ea. cbn [mbind option_bind]. set (m7 := set_verts _ m6).
  assert (∀ v, is_Some (verts m6 !! v) ↔ v < nverts m6) as Vb6 by exact Vb5.
  assert (∀ v, is_Some (verts m7 !! v) ↔ v < nverts m7) as Vb7.
  { intros v. unfold m7. cbn [verts nverts set_verts]. rewrite lookup_insert_is_Some', Vb6. split; [|by auto].
    intros [<-|?]; [cbn; lia|done]. }
  destruct (updV_eq m7 b (anchor_if_none e1)) as (xb & Exb & Eb); [cbn; lia|done|].
  rewrite Eb. cbn [mbind option_bind]. set (m8 := set_verts _ m7).
  assert (∀ v, is_Some (verts m8 !! v) ↔ v < nverts m8) as Vb8.
  { intros v. unfold m8. cbn [verts nverts set_verts]. rewrite lookup_insert_is_Some', Vb7. split; [|by auto].
    intros [<-|?]; [cbn; lia|done]. }
  destruct (updV_eq m8 c (anchor_if_none e2)) as (xc & Exc & Ec); [simpl; lia|done|].
  rewrite Ec. cbn [mbind option_bind]. set (m9 := set_verts _ m8).
  assert (∀ v, is_Some (verts m9 !! v) ↔ v < nverts m9) as Vb9.
  { intros v. unfold m9. cbn [verts nverts set_verts]. rewrite lookup_insert_is_Some', Vb8. split; [|by auto].
    intros [<-|?]; [simpl; lia|done]. }
  assert (faces m9 = <[f := mkFC e0 false]> (faces m5)) as Fs9 by done.
  assert (SI m9 None) as HS9.
  { destruct HS5 as [J1 J2 J3 J4 J5 J6 J8 J9 J10 J11 J12]. split; try done.
    - intros g. rewrite Fs9. rewrite lookup_insert_is_Some', J3. split; [|by auto].
      intros [<-|?]; [apply J3; eauto|done].
    - intros h g HLh Hfh _. destruct (J10 h g HLh Hfh ltac:(done)) as (?&?&?&?&?&?&?&?&x&Hx&Hr).
      repeat (split; [done|]). rewrite Fs9. destruct (decide (f = g)) as [<-|].
      + rewrite lookup_insert. eauto.
      + rewrite lookup_insert_ne by done. eauto. }
  assert (BI m9) as HBI9 by (by apply (BI_hes m5)).
  rewrite (check_starts_ok m9 starts HS9 HBI9). cbn [mbind option_bind].
  exists m9, f. split; [done|].
  (* facts about m9 *)
  assert (∀ h, L m9 h ↔ L m3 h) as L9.
  { intros h. change (L m5 h ↔ L m3 h). by rewrite (bs_L _ _ HB5), L4. }
  assert (∀ h, hd m9 h = hd m3 h) as Hd9.
  { intros h. change (hd m5 h = hd m3 h). by rewrite (bs_hd _ _ HB5), Hd4. }
  assert (∀ h, tw m9 h = tw m3 h) as Tw9.
  { intros h. change (tw m5 h = tw m3 h). by rewrite (bs_tw _ _ HB5), Tw4. }
  assert (∀ h, fc m9 h = fc m3 h) as Fc9.
  { intros h. change (fc m5 h = fc m3 h). by rewrite (bs_fc _ _ HB5), Fc4. }
  assert (∀ h, fc m3 h ≠ None → nx m9 h = nx m4 h ∧ pv m9 h = pv m4 h) as NP9.
  { intros h Hh. change (nx m5 h = nx m4 h ∧ pv m5 h = pv m4 h).
    rewrite (bsim_nx_in m4 m5), (bsim_pv_in m4 m5) by (done || by rewrite Fc4). done. }
  destruct (NP9 e0 ltac:(by rewrite P8)) as [NX0' PV0'].
  destruct (NP9 e1 ltac:(by rewrite P12)) as [NX1' PV1'].
  destruct (NP9 e2 ltac:(by rewrite A10)) as [NX2' PV2'].
  rewrite NX0 in NX0'. rewrite NX1 in NX1'. rewrite NX2 in NX2'.
  rewrite PV0 in PV0'. rewrite PV1 in PV1'. rewrite PV2 in PV2'.
  assert (∀ h g, L m h → fc m h = Some g →
     fc m9 h = Some g ∧ nx m9 h = nx m h ∧ pv m9 h = pv m h) as Int9.
  { intros h g HLh Hfh. destruct (Cint h HLh ltac:(by rewrite Hfh)) as (Ne0&Ne1&Ne2&Cn&Cp).
    destruct (Cold h HLh) as (_&_&_&Cf'). specialize (Cf' Ne0 Ne1 Ne2).
    destruct (NP9 h ltac:(by rewrite Cf', Hfh)) as [-> ->].
    destruct (NPo h Ne0 Ne1 Ne2) as [-> ->]. rewrite Fc9, Cf'. done. }
  assert (∀ g, g ≠ f → faces m9 !! g = faces m !! g) as Fs9'.
  { intros g Hg. rewrite Fs9, lookup_insert_ne by done.
    rewrite (bs_faces _ _ HB5), Fs4, B11, B6, B1, Efs. by rewrite lookup_insert_ne by done. }
  assert (tl m9 e0 = a ∧ tl m9 e1 = b ∧ tl m9 e2 = c) as (Tl0'&Tl1'&Tl2').
  { unfold tl in *. rewrite !Tw9, !Hd9. done. }
  assert (WF m9) as HW9.
  { split; [done| |done|].
    - intros g x Hx Hr _. destruct (decide (g = f)) as [->|Ng].
      + rewrite Fs9, lookup_insert in Hx. injection Hx as <-. simpl.
        rewrite L9, Fc9, NX0', PV0'. split; [done|]. split; [done|].
        intros h. rewrite L9, Fc9. intros HLh Hfh. destruct (Cf h HLh Hfh) as [->|[->| ->]]; auto.
      + rewrite Fs9' in Hx by done. destruct (wf_fh _ HW g x Hx Hr ltac:(done)) as (Y1&Y2&Y3).
        destruct (Int9 _ _ Y1 Y2) as (Y4&Y5&Y6). rewrite Y4, Y5, Y6, L9.
        split; [by apply Cold|]. split; [done|].
        intros h. rewrite L9, Fc9. intros HLh Hfh.
        destruct (Cnew h HLh) as [HLm|[->|[->|[->|(_&[->|[->|[->|Hn]]])]]]]; try congruence.
        apply Y3; [done|].
        destruct (decide (h = e0)); [congruence|]. destruct (decide (h = e1)); [congruence|].
        destruct (decide (h = e2)); [congruence|]. destruct (Cold h HLm) as (_&_&_&Z).
        rewrite <- Z; done.
    - intros v x Hx.
      assert (∀ h y, verts m !! v = Some y → vhe y = Some h → L m9 h ∧ tl m9 h = v) as Hsome.
      { intros h y Hy Hh. pose proof (wf_vi _ HW v y Hy) as Hvi. rewrite Hh in Hvi.
        destruct Hvi as [Hvi1 Hvi2]. destruct (Cold h Hvi1) as (Z1&Z2&Z3&_).
        rewrite L9. split; [done|]. unfold tl. rewrite Tw9, Hd9, Z3.
        destruct (Cold (tw m h)) as (_&->&_); [by apply (si_tw _ _ HS)|]. done. }
      unfold m9, m8, m7, m6 in Hx. simpl in Hx.
      unfold m8, m7, m6 in Exc. simpl in Exc. unfold m7, m6 in Exb. simpl in Exb.
      unfold m6 in Exa. simpl in Exa. rewrite Vs5 in *.
      rewrite lookup_insert_ne in Exb by done. rewrite !lookup_insert_ne in Exc by done.
      assert (∀ e y, verts m !! v = Some y → L m9 e → tl m9 e = v →
        match vhe (anchor_if_none e y) with
        | Some h => L m9 h ∧ tl m9 h = v
        | None => ∀ h, L m9 h → tl m9 h ≠ v
        end) as Hanch.
      { intros e y Hy He1 He2. unfold anchor_if_none. destruct (vhe y) as [h|] eqn:Eh.
        - rewrite Eh. by apply (Hsome h y).
        - simpl. done. }
      destruct (decide (c = v)) as [<-|Nc].
      { rewrite lookup_insert in Hx. injection Hx as <-. apply Hanch; [done|by rewrite L9|done]. }
      rewrite lookup_insert_ne in Hx by done.
      destruct (decide (b = v)) as [<-|Nb].
      { rewrite lookup_insert in Hx. injection Hx as <-. apply Hanch; [done|by rewrite L9|done]. }
      rewrite lookup_insert_ne in Hx by done.
      destruct (decide (a = v)) as [<-|Na].
      { rewrite lookup_insert in Hx. injection Hx as <-. apply Hanch; [done|by rewrite L9|done]. }
      rewrite lookup_insert_ne in Hx by done.
      destruct (vhe x) as [h|] eqn:Eh; [by apply (Hsome h x)|].
      intros h HLh Htl. pose proof (wf_vi _ HW v x Hx) as Hvi. rewrite Eh in Hvi.
      rewrite L9 in HLh.
      assert (∀ e, L m3 e → tl m9 (tw m3 e) = hd m3 e) as Httw.
      { intros e He. unfold tl. rewrite Tw9, Hd9. f_equal. by apply (si_tw _ _ S3). }
      destruct (Cnew h HLh) as [HLm|[->|[->|[->|([->|[->| ->]]&_)]]]];
        rewrite ?Httw in Htl by done; try congruence.
      apply (Hvi h HLm). rewrite <- Htl. unfold tl. rewrite Tw9, Hd9.
      destruct (Cold h HLm) as (_&_&->&_).
      destruct (Cold (tw m h)) as (_&->&_); [by apply (si_tw _ _ HS)|]. done. }
  split; try done.
  - simpl. rewrite (bs_nfaces _ _ HB5), Nf4, B12, B7, B2. done.
  - simpl. rewrite (bs_nhes _ _ HB5), Nh4. lia.
  - intros v x Hx. unfold m9, m8, m7, m6; simpl. 
    unfold m8, m7, m6 in Exc. simpl in Exc. unfold m7, m6 in Exb. simpl in Exb.
    unfold m6 in Exa. simpl in Exa. rewrite Vs5 in *.
    rewrite lookup_insert_ne in Exb by done. rewrite !lookup_insert_ne in Exc by done.
    destruct (decide (c = v)) as [<-|Nc].
    { rewrite lookup_insert. eexists. split; [done|]. assert (x = xc) as -> by congruence.
      apply anchor_pos. }
    rewrite lookup_insert_ne by done.
    destruct (decide (b = v)) as [<-|Nb].
    { rewrite lookup_insert. eexists. split; [done|]. assert (x = xb) as -> by congruence.
      apply anchor_pos. }
    rewrite lookup_insert_ne by done.
    destruct (decide (a = v)) as [<-|Na].
    { rewrite lookup_insert. eexists. split; [done|]. assert (x = xa) as -> by congruence.
      apply anchor_pos. }
    rewrite lookup_insert_ne by done. eauto.
  - exists e0, e1, e2. rewrite !L9, !Fc9, !Hd9, !Tw9.
    split; [by rewrite Fs9, lookup_insert|]. repeat (split; [done|]). split.
    + intros h. rewrite L9. intros HLh.
      destruct (Cnew h HLh) as [HLm|[->|[->|[->|([->|[->| ->]]&_)]]]]; auto 10.
    + intros h HLh ???. rewrite Fc9. by apply Cold.
  - intros h HLh. rewrite L9, Hd9, Tw9. destruct (Cold h HLh) as (?&?&?&?). done.
Qed.

End add2.
