(** remove_triangle, second part: welding, vertex anchors, main lemma. *)
From Verif Require Export MeshRemove.
Local Open Scope N_scope.

Section remove2.
Context {P : Type}.
Implicit Types (m : mesh P) (h k b c f g u v e t : N).

(** ** Phase 3: vertex anchors *)
Section anchors.
Context m (HS : SI m None) (HB : BI m).

Lemma pv_tail h : L m h → L m (pv m h) ∧ hd m (pv m h) = tl m h.
Proof.
  intros HL. destruct (fc m h) as [f|] eqn:Hf.
  - destruct (face3 m HS h f HL Hf) as (_&?&_&_&_&_&_&_&_&_&?&_). done.
  - destruct (HB h HL Hf) as (_&H2&H3&H4).
    destruct (fan_end m HS _ _ H3 H4 H2) as (_&_&E). done.
Qed.

Definition out h v : Prop := L m h ∧ tl m h = v.

Lemma is_outgoing_ok h v : ∃ r : bool, is_outgoing_from m h v = Some r ∧ (r = true ↔ out h v).
Proof.
  unfold is_outgoing_from, out. destruct (is_live m h) eqn:E.
  - assert (L m h) as HL by done. destruct (pv_tail h HL) as [H1 H2].
    rewrite (L_getH _ _ HL). cbn [mbind option_bind]. fold (pv m h). rewrite (L_getH _ _ H1).
    cbn [mbind option_bind]. fold (hd m (pv m h)). rewrite H2. eexists. split; [done|].
    rewrite N.eqb_eq. naive_solver.
  - exists false. split; [done|]. split; [done|]. intros [HL _]. unfold L in HL. congruence.
Qed.

Lemma normalize_ok h v : ∃ r, normalize_to_outgoing m h v = Some r ∧
  ∀ h', r = Some h' → out h' v.
Proof.
  unfold normalize_to_outgoing. destruct (is_live m h) eqn:E; cbn [negb].
  2: { exists None. done. }
  assert (L m h) as HL by done.
  destruct (is_outgoing_ok h v) as (r & -> & Hr). cbn [mbind option_bind].
  destruct r. { exists (Some h). split; [done|]. intros h' [= <-]. by apply Hr. }
  rewrite (L_getH _ _ HL). cbn [mbind option_bind].
  destruct (hv (he m h) =? v); [|by exists None].
  fold (tw m h). destruct (_ && _); [|by exists None].
  destruct (is_outgoing_ok (tw m h) v) as (r & -> & Hr'). cbn [mbind option_bind].
  destruct r; [|by exists None]. exists (Some (tw m h)). split; [done|].
  intros h' [= <-]. by apply Hr'.
Qed.

Lemma quick_ok seeds v : ∃ r, quick_seeds m v seeds = Some r ∧ ∀ h', r = Some h' → out h' v.
Proof.
  induction seeds as [|s seeds IH]; simpl; [by exists None|].
  destruct (normalize_ok s v) as (r & -> & Hr). simpl. destruct r; [|done]. eauto.
Qed.

Lemma local_walk_ok fuel v : ∀ t, L m t → ∃ r, local_walk fuel m v t = Some r ∧ ∀ h', r = Some h' → out h' v.
Proof.
  induction fuel as [|fuel IH]; intros t HL; simpl; [by exists None|].
  rewrite (L_getH _ _ HL). simpl. fold (nx m t).
  destruct (is_live m (nx m t)) eqn:E; [|rewrite orb_true_r; by exists None].
  destruct (negb (nx m t <? nhes m)); simpl; [by exists None|].
  rewrite L_getH by done. simpl. fold (tw m (nx m t)).
  destruct (is_live m (tw m (nx m t))) eqn:E'; [|rewrite orb_true_r; by exists None].
  destruct (negb (tw m (nx m t) <? nhes m)); simpl; [by exists None|].
  destruct (normalize_ok (tw m (nx m t)) v) as (r & -> & Hr). simpl. destruct r; [by eauto|].
  by apply IH.
Qed.

Lemma walk_seeds_ok seeds v : ∃ r, walk_seeds m v seeds = Some r ∧ ∀ h', r = Some h' → out h' v.
Proof.
  induction seeds as [|s seeds IH]; cbn [walk_seeds]; [by exists None|].
  destruct (is_live m s) eqn:E; cbn [negb]; [|done].
  destruct (local_walk_ok 24 v s E) as (r & -> & Hr). cbn [mbind option_bind].
  destruct r; [by eauto|done].
Qed.

Lemma scan_ok v l : ∃ r, scan_outgoing m v l = Some r ∧ (∀ h', r = Some h' → out h' v) ∧
  (r = None → ∀ h, h ∈ l → ¬ out h v).
Proof.
  induction l as [|s l IH]; simpl.
  { exists None. split; [done|]. split; [done|]. intros _ h Hh. by apply elem_of_nil in Hh. }
  destruct (is_outgoing_ok s v) as (r & -> & Hr). simpl. destruct r.
  - exists (Some s). split; [done|]. split; [|done]. intros h' [= <-]. by apply Hr.
  - destruct IH as (r & -> & H1 & H2). exists r. split; [done|]. split; [done|].
    intros -> h [->|Hh]%elem_of_cons; [|by apply H2]. intros Ho. by apply Hr in Ho.
Qed.

Lemma find_any_ok v seeds : ∃ r, find_any_outgoing m v seeds = Some r ∧
  match r with Some h => out h v | None => ∀ h, ¬ out h v end.
Proof.
  unfold find_any_outgoing.
  destruct (quick_ok seeds v) as (r & -> & Hr). cbn [mbind option_bind].
  destruct r as [h|]; [exists (Some h); by auto|].
  destruct (walk_seeds_ok seeds v) as (r & -> & Hr'). cbn [mbind option_bind].
  destruct r as [h|]; [exists (Some h); by auto|].
  destruct (scan_ok v (range (nhes m))) as (r & -> & H1 & H2). exists r. split; [done|].
  destruct r as [h|]; [by auto|]. intros h Ho. apply (H2 eq_refl h); [|done].
  apply range_spec, (L_lt m HS). apply Ho.
Qed.

Definition anch (x : VX P) v : Prop :=
  match vhe x with Some h => out h v | None => ∀ h, ¬ out h v end.

Lemma fix_vertex_ok seeds v : v < nverts m →
  ∃ x x', verts m !! v = Some x ∧
    fix_vertex m seeds v = Some (set_verts (<[v := x']> (verts m)) m) ∧
    anch x' v ∧ vpos x' = vpos x ∧ vrem x' = vrem x.
Proof.
  intros Hv. destruct (proj2 (si_vb _ _ HS v) Hv) as [x Hx]. exists x.
  unfold fix_vertex, getV. rewrite Hx. cbn [mbind option_bind].
  assert (∃ r : bool, match vhe x with
          | Some h => o ← is_outgoing_from m h v; Some (negb o)
          | None => Some true
          end = Some r ∧ (r = false → anch x v)) as (r & -> & Hr).
  { unfold anch. destruct (vhe x) as [h|]; [|by exists true].
    destruct (is_outgoing_ok h v) as (r & -> & Hr). cbn [mbind option_bind].
    exists (negb r). split; [done|]. intros ?%negb_false_iff. by apply Hr. }
  cbn [mbind option_bind]. destruct r.
  - destruct (find_any_ok v seeds) as (r & -> & Hr'). cbn [mbind option_bind].
    eexists. split; [done|]. unfold updV, getV. rewrite Hx. cbn [mbind option_bind].
    split; [done|]. simpl. split; [|done]. done.
  - exists x. split; [done|]. rewrite insert_id by done. split; [by destruct m|]. auto.
Qed.
End anchors.

Lemma out_hes m m' h v : hes m' = hes m → out m' h v ↔ out m h v.
Proof. intros E. unfold out, L, is_live, getH, tl, hd, tw, he. by rewrite E. Qed.

Lemma anch_hes m m' x v : hes m' = hes m → anch m' x v ↔ anch m x v.
Proof.
  intros E. unfold anch. destruct (vhe x); [by apply out_hes|].
  by setoid_rewrite (out_hes m m' _ _ E).
Qed.

Lemma set_verts_SI m s vs : SI m s → (∀ v, is_Some (vs !! v) ↔ v < nverts m) →
  SI (set_verts vs m) s.
Proof. intros [J1 J2 J3 J4 J5 J6 J8 J9 J10 J11 J12] H. split; try done. Qed.

Lemma VI_anch m : VI m ↔ ∀ v x, verts m !! v = Some x → anch m x v.
Proof.
  unfold VI, anch, out. split; intros H v x Hx; specialize (H v x Hx);
  destruct (vhe x); [done| |done|]; naive_solver.
Qed.

Lemma fix3_ok m seeds v0 v1 v2 : SI m None → BI m →
  v0 < nverts m → v1 < nverts m → v2 < nverts m →
  (∀ v x, verts m !! v = Some x → v ≠ v0 → v ≠ v1 → v ≠ v2 → anch m x v) →
  ∃ vs, (m1 ← fix_vertex m seeds v0; m2 ← fix_vertex m1 seeds v1; fix_vertex m2 seeds v2)
     = Some (set_verts vs m) ∧ (∀ v, is_Some (vs !! v) ↔ v < nverts m) ∧
    (∀ v x, vs !! v = Some x → anch m x v) ∧
    (∀ v x, verts m !! v = Some x → ∃ x', vs !! v = Some x' ∧ vpos x' = vpos x ∧ vrem x' = vrem x).
Proof.
  intros HS HB H0 H1 H2 Hother.
  destruct (fix_vertex_ok m HS HB seeds v0 H0) as (x0 & x0' & E0 & -> & A0 & P0 & R0).
  cbn [mbind option_bind]. set (m1 := set_verts _ m).
  assert (∀ v, is_Some (verts m1 !! v) ↔ v < nverts m) as Vb1.
  { intros v. unfold m1. cbn [verts set_verts]. rewrite lookup_insert_is_Some', (si_vb _ _ HS).
    split; [|by auto]. by intros [<-|?]. }
  assert (SI m1 None) as HS1 by (by apply set_verts_SI).
  assert (BI m1) as HB1 by (by apply (BI_hes m)).
  destruct (fix_vertex_ok m1 HS1 HB1 seeds v1 H1) as (x1 & x1' & E1 & -> & A1 & P1 & R1).
  cbn [mbind option_bind]. set (m2 := set_verts _ m1).
  assert (∀ v, is_Some (verts m2 !! v) ↔ v < nverts m) as Vb2.
  { intros v. unfold m2. cbn [verts set_verts]. rewrite lookup_insert_is_Some', Vb1.
    split; [|by auto]. by intros [<-|?]. }
  assert (SI m2 None) as HS2 by (by apply set_verts_SI).
  assert (BI m2) as HB2 by (by apply (BI_hes m)).
  destruct (fix_vertex_ok m2 HS2 HB2 seeds v2 H2) as (x2 & x2' & E2 & -> & A2 & P2 & R2).
  exists (<[v2 := x2']> (verts m2)). split; [done|].
  apply (anch_hes m m1) in A1; [|done]. apply (anch_hes m m2) in A2; [|done].
  split; [|split].
  - intros v. rewrite lookup_insert_is_Some', Vb2. split; [|by auto]. by intros [<-|?].
  - intros v x Hx. destruct (decide (v2 = v)) as [<-|N2].
    { rewrite lookup_insert in Hx. by injection Hx as <-. }
    rewrite lookup_insert_ne in Hx by done. unfold m2 in Hx. cbn [verts set_verts] in Hx.
    destruct (decide (v1 = v)) as [<-|N1].
    { rewrite lookup_insert in Hx. by injection Hx as <-. }
    rewrite lookup_insert_ne in Hx by done. unfold m1 in Hx. cbn [verts set_verts] in Hx.
    destruct (decide (v0 = v)) as [<-|N0].
    { rewrite lookup_insert in Hx. by injection Hx as <-. }
    rewrite lookup_insert_ne in Hx by done. by apply Hother.
  - intros v x Hx.
    assert (∃ y, verts m1 !! v = Some y ∧ vpos y = vpos x ∧ vrem y = vrem x) as (y1 & Hy1 & ? & ?).
    { unfold m1. cbn [verts set_verts]. destruct (decide (v0 = v)) as [<-|N0].
      - rewrite lookup_insert. exists x0'. assert (x = x0) as -> by congruence. done.
      - rewrite lookup_insert_ne by done. eauto. }
    assert (∃ y, verts m2 !! v = Some y ∧ vpos y = vpos x ∧ vrem y = vrem x) as (y2 & Hy2 & ? & ?).
    { unfold m2. cbn [verts set_verts]. destruct (decide (v1 = v)) as [<-|N0].
      - rewrite lookup_insert. exists x1'. split; [done|]. split; congruence.
      - rewrite lookup_insert_ne by done. eauto. }
    destruct (decide (v2 = v)) as [<-|N0].
    + rewrite lookup_insert. exists x2'. split; [done|]. split; congruence.
    + rewrite lookup_insert_ne by done. eauto.
Qed.

(** ** Main lemma *)
Record RemPost m f m' : Prop := {
  rp_wf : WF m';
  rp_nfaces : nfaces m' = nfaces m;
  rp_nhes : nhes m' = nhes m;
  rp_nverts : nverts m' = nverts m;
  rp_verts : ∀ v x, verts m !! v = Some x →
     ∃ x', verts m' !! v = Some x' ∧ vpos x' = vpos x ∧ vrem x' = vrem x;
  rp_faces : ∀ g, g ≠ f → faces m' !! g = faces m !! g;
  rp_f : ∃ x, faces m' !! f = Some x ∧ frem x = true;
  rp_L : ∀ h, L m' h → L m h ∧ hd m' h = hd m h ∧ tw m' h = tw m h;
  rp_int : ∀ h g, L m h → fc m h = Some g → g ≠ f →
     L m' h ∧ fc m' h = Some g ∧ nx m' h = nx m h ∧ pv m' h = pv m h;
  rp_fc : ∀ h g, L m' h → fc m' h = Some g → fc m h = Some g ∧ g ≠ f
}.

Lemma RS_init m f x : WF m → faces m !! f = Some x → frem x = false →
  let m1 := set_faces (<[f := mkFC (fhe x) true]> (faces m)) m in
  RS m f m1 [fhe x; nx m (fhe x); nx m (nx m (fhe x))] [].
Proof.
  intros HW Hx Hr m1. pose proof (wf_si _ HW) as HS.
  destruct (wf_fh _ HW f x Hx Hr ltac:(done)) as (HL&Hf&Hcyc).
  destruct (face3 m HS _ _ HL Hf) as (L1&L2&F1&F2&N1&N2&N3&N4&_).
  split; try done.
  - destruct HS as [J1 J2 J3 J4 J5 J6 J8 J9 J10 J11 J12]. split; try done.
    + intros g. cbn. rewrite lookup_insert_is_Some', J3. split; [|by auto].
      intros [<-|?]; [apply J3; eauto|done].
    + intros h g HLh Hfh Hs. destruct (J10 h g HLh Hfh ltac:(done)) as (?&?&?&?&?&?&?&?&?).
      repeat (split; [done|]). cbn. rewrite lookup_insert_ne by congruence. done.
  - exact (BI_ring m HS (wf_bi _ HW)).
  - intros h HLh. by left.
  - intros h. rewrite !elem_of_cons, elem_of_nil. split.
    + intros [->|[->|[->|[]]]]; [done|done|]. rewrite N1. done.
    + intros [HLh Hfh]. rewrite N1. destruct (Hcyc h HLh Hfh) as [->|[->| ->]]; auto.
Qed.

Lemma spoke_ok m0 f m todo nbs e :
  WF m0 → (∃ x0, faces m0 !! f = Some x0 ∧ frem x0 = false) →
  (∀ g, g ≠ f → faces m !! g = faces m0 !! g) →
  RS m0 f m (e :: todo) nbs → NoDup (e :: todo) →
  ∃ m' l, remove_spoke m e = Some (m', l) ∧ faces m' = faces m ∧
    RS m0 f m' todo ((fst <$> l) ++ nbs).
Proof.
  intros HW0 Hx0 Hfs HR Hnd. pose proof (rs_si _ _ _ _ _ HR) as HS.
  pose proof (wf_si _ HW0) as HS0.
  destruct (proj1 (rs_todo _ _ _ _ _ HR e) ltac:(left)) as [HL Hf].
  destruct (si_tw _ _ HS e HL) as (HLt & Ett & Hne).
  assert (fc m0 e = Some f) as Hf0.
  { destruct (rs_fc _ _ _ _ _ HR e HL) as [E|(?&?&?)]; congruence. }
  assert (fc m0 (tw m0 e) ≠ Some f) as Hng.
  { apply (no_self_glue m0 HS0); [apply HW0|by apply (rs_L _ _ _ _ _ HR)|done]. }
  assert (fc m (tw m e) = fc m0 (tw m0 e)) as Eft.
  { rewrite <- (rs_tw _ _ _ _ _ HR) in Hng |- *.
    destruct (rs_fc _ _ _ _ _ HR _ HLt) as [E|(?&?&?)]; congruence. }
  destruct (fc m0 (tw m0 e)) as [g|] eqn:Eg.
  - destruct (spoke_A m0 f m todo nbs e g) as (m' & E & EF & HR'); auto.
    { congruence. }
    { rewrite Hfs by congruence.
      assert (L m0 (tw m0 e)) as HLt0.
      { rewrite <- (rs_tw _ _ _ _ _ HR). by apply (rs_L _ _ _ _ _ HR). }
      destruct (si_in _ _ HS0 _ g HLt0 Eg) as (_&_&_&_&_&_&_&_&?); done. }
    exists m', [(e, tw m e)]. done.
  - destruct (spoke_B m0 f m todo nbs e) as (m' & E & EF & HR'); auto.
    exists m', []. done.
Qed.

Lemma border_pred m b : SI m None → L m b → fc m b = None →
  ∃ a, L m a ∧ fc m a = None ∧ fan m a b.
Proof.
  intros HS HL Hb. destruct (period_exists m HS b HL Hb) as (p & Hp & Hpp & _).
  exists (beta m b (p - 1)). destruct (beta_ok m HS b HL Hb (p - 1)) as [H1 H2].
  split; [done|]. split; [done|].
  pose proof (beta_S m HS b HL Hb (p - 1)) as HbS.
  replace (S (p - 1)) with p in HbS by lia. by rewrite Hpp in HbS.
Qed.

Lemma updF_eq m f x (g : FC → FC) : faces m !! f = Some x →
  updF m f g = Some (set_faces (<[f := g x]> (faces m)) m).
Proof. intros E. unfold updF, getF. by rewrite E. Qed.

Lemma remove_triangle_ok m f x : WF m → faces m !! f = Some x → frem x = false →
  ∃ m', remove_triangle m f = Some m' ∧ RemPost m f m'.
Proof.
  intros HW Hx Hr. pose proof (wf_si _ HW) as HS.
  destruct (wf_fh _ HW f x Hx Hr ltac:(done)) as (HL&Hf&Hcyc).
  destruct (face3 m HS _ _ HL Hf) as (L1&L2&F1&F2&N1&N2&N3&N4&T1&T2&T3&D1&D2&D3).
  pose proof (RS_init m f x HW Hx Hr) as HR0.
  set (h0 := fhe x) in *. set (h1 := nx m h0) in *.
  unfold remove_triangle, getF. rewrite Hx. cbn [mbind option_bind]. rewrite Hr. fold h0.
  rewrite (L_getH _ _ HL). cbn [mbind option_bind]. fold (nx m h0). fold h1.
  rewrite (L_getH _ _ L1). cbn [mbind option_bind]. fold (nx m h1). rewrite N1 in *.
  set (h2 := pv m h0) in *.
  rewrite (L_getH _ _ L2). cbn [mbind option_bind].
  fold (tw m h0) (tw m h1) (tw m h2).
  rewrite (L_getH m (tw m h0)), (L_getH m (tw m h1)), (L_getH m (tw m h2))
    by (by apply (si_tw _ _ HS)). cbn [mbind option_bind].
  fold (hd m (tw m h0)) (hd m (tw m h1)) (hd m (tw m h2)).
  fold (tl m h0) (tl m h1) (tl m h2).
  rewrite (updF_eq m f x _ Hx). cbn [mbind option_bind]. cbn zeta in HR0. fold h0 in HR0.
  fold h0. set (m1 := set_faces _ m) in *.
  assert (∀ g, g ≠ f → faces m1 !! g = faces m !! g) as Fs1.
  { intros g Hg. cbn. by rewrite lookup_insert_ne. }
  assert (faces m1 !! f = Some (mkFC h0 true)) as Ff1 by (cbn; by rewrite lookup_insert).
  assert (NoDup [h0; h1; h2]) as ND.
  { repeat (apply NoDup_cons; split); [| | |constructor]; rewrite ?elem_of_cons, ?elem_of_nil; naive_solver. }
  destruct (spoke_ok m f m1 [h1; h2] [] h0) as (m2 & l0 & E2 & EF2 & HR2); eauto.
  rewrite E2. cbn [mbind option_bind].
  apply NoDup_cons in ND as [_ ND].
  destruct (spoke_ok m f m2 [h2] _ h1 HW ltac:(eauto) ltac:(by rewrite EF2) HR2 ND) as (m3 & l1 & E3 & EF3 & HR3).
  rewrite E3. cbn [mbind option_bind].
  apply NoDup_cons in ND as [_ ND].
  destruct (spoke_ok m f m3 [] _ h2 HW ltac:(eauto) ltac:(by rewrite EF3, EF2) HR3 ND) as (m4 & l2 & E4 & EF4 & HR4).
  rewrite E4. cbn [mbind option_bind].
  set (nbs := l0 ++ l1 ++ l2).
  assert (faces m4 = faces m1) as EF by congruence.
  assert (∀ h, L m4 h → fc m4 h ≠ Some f) as Hnof.
  { intros h HLh Hfh. assert (h ∈ @nil N) as Hn by (by apply (rs_todo _ _ _ _ _ HR4)).
    by apply elem_of_nil in Hn. }
  assert (SI m4 None) as HS4.
  { destruct (rs_si _ _ _ _ _ HR4) as [J1 J2 J3 J4 J5 J6 J8 J9 J10 J11 J12]. split; try done.
    intros h g HLh Hfh _. apply (J10 h g HLh Hfh). intros [= ->]. by apply (Hnof h HLh). }
  assert (∀ h, L m4 h → fc m4 h ≠ None → fc m h = fc m4 h) as Hfc4.
  { intros h HLh Hfh. destruct (rs_fc _ _ _ _ _ HR4 h HLh) as [|(?&?&?)]; done. }
  assert (∀ h, L m4 h → fc m4 h ≠ None → nx m4 h = nx m h ∧ pv m4 h = pv m h) as Hnp4.
  { intros h HLh Hfh. pose proof (Hfc4 h HLh Hfh) as E. destruct (fc m4 h) as [g|] eqn:Eg; [|done].
    destruct (rs_int _ _ _ _ _ HR4 h g) as (_&_&?&?); try done.
    - by apply (rs_L _ _ _ _ _ HR4).
    - intros ->. by apply (Hnof h HLh). }
  (* weld *)
  destruct (weld_ok (fst <$> nbs) m4 ∅ HS4) as (m5 & V & E5 & HB5 & HC5 & _ & Hst & Hlk & Hfr).
  { intros y Hy. set_solver. }
  rewrite E5. cbn [mbind option_bind fst snd].
  pose proof (bsim_SI _ _ _ HB5 HS4) as HS5.
  assert (∀ b, L m4 b → fc m4 b = None → b ∉ V → fc m b = None) as Hold.
  { intros b HLb Hfb HVb. destruct (rs_fc _ _ _ _ _ HR4 b HLb) as [|(_&_&Hin)]; [congruence|].
    exfalso. apply HVb, Hst; [|done|done]. unfold nbs. rewrite !fmap_app. set_solver. }
  assert (∀ a b, L m4 a → fc m4 a = None → a ∉ V → L m4 b → fc m4 b = None → b ∉ V →
    fan m4 a b → nx m4 a = b ∧ pv m4 b = a) as Hfan.
  { intros a b HLa Hfa HVa HLb Hfb HVb Hfan.
    pose proof (Hold a HLa Hfa HVa) as Hfa0. pose proof (Hold b HLb Hfb HVb) as Hfb0.
    pose proof (rs_L _ _ _ _ _ HR4 a HLa) as HLa0. pose proof (rs_L _ _ _ _ _ HR4 b HLb) as HLb0.
    assert (fan m a b) as Hfan0.
    { apply (fan_mono m4 m); auto.
      - intros h _. symmetry. apply (rs_tw _ _ _ _ _ HR4).
      - intros h HLh Hfh. rewrite (Hfc4 h HLh Hfh). split; [done|].
        symmetry. by apply Hnp4. }
    destruct (wf_bi _ HW a HLa0 Hfa0) as (A1&_). destruct (wf_bi _ HW b HLb0 Hfb0) as (_&A2&A3&A4).
    pose proof (fan_fun m _ _ _ Hfan0 A1) as Ea.
    pose proof (fan_inj m HS _ _ _ HLa0 Hfa0 A3 A4 Hfan0 A2) as Eb.
    destruct (rs_bord _ _ _ _ _ HR4 a HLa Hfa Hfa0) as [Z1 _].
    destruct (rs_bord _ _ _ _ _ HR4 b HLb Hfb Hfb0) as [_ Z2].
    rewrite <- Ea in Z1. rewrite <- Eb in Z2. auto. }
  assert (BI m5) as HBI5.
  { intros b HLb Hfb. rewrite (bs_L _ _ HB5) in HLb. rewrite (bs_fc _ _ HB5) in Hfb.
    assert (linked m4 m5 b) as (G1&G2&G3&G4).
    { destruct (decide (b ∈ V)) as [HV|HV]; [apply Hlk; set_solver|].
      destruct (Hfr b) as [-> ->] || idtac.
      unfold linked. destruct (Hfr b) as [G1 G2]; [by left|]. rewrite G1, G2.
      destruct (fan_total m4 HS4 b HLb Hfb) as (c & Hc).
      destruct (fan_end m4 HS4 b c HLb Hfb Hc) as (HLc & Hfc & _).
      destruct (border_pred m4 b HS4 HLb Hfb) as (a & HLa & Hfa & Ha).
      assert (c ∉ V) as HVc.
      { intros Hin. destruct (HC5 c Hin) as (_&_&_&Hcl). by apply HV, Hcl. }
      assert (a ∉ V) as HVa.
      { intros Hin. destruct (HC5 a Hin) as (_&_&Hcl&_). by apply HV, Hcl. }
      destruct (Hfan b c HLb Hfb HV HLc Hfc HVc Hc) as [-> _].
      destruct (Hfan a b HLa Hfa HVa HLb Hfb HV Ha) as [_ ->]. done. }
    rewrite (bsim_fan m4 m5) by (done || by apply (si_out _ _ HS4)).
    rewrite (bsim_fan m4 m5) by (done || by apply (si_out _ _ HS4)).
    rewrite (bs_L _ _ HB5), (bs_fc _ _ HB5). done. }
  assert (nhes m5 = nhes m) as Nh5 by (rewrite (bs_nhes _ _ HB5); apply (rs_nhes _ _ _ _ _ HR4)).
  assert (nverts m5 = nverts m) as Nv5 by (rewrite (bs_nverts _ _ HB5); apply (rs_nverts _ _ _ _ _ HR4)).
  assert (verts m5 = verts m) as Vs5 by (rewrite (bs_verts _ _ HB5); apply (rs_verts _ _ _ _ _ HR4)).
  assert (faces m5 = faces m1) as Fs5 by (rewrite (bs_faces _ _ HB5); done).
  assert (∀ h, L m h → getH m5 h = Some (he m5 h)) as Hg5.
  { intros h HLh. apply getH_ok. apply (si_hb _ _ HS5). rewrite Nh5. by apply (L_lt m HS). }
  rewrite !Hg5 by done. cbn [mbind option_bind].
  match goal with |- context [fix_vertex m5 ?s _] => set (seeds := s) end.
  assert (∀ h, L m5 h → L m h ∧ hd m5 h = hd m h ∧ tw m5 h = tw m h) as HL5.
  { intros h HLh. rewrite (bs_L _ _ HB5) in HLh. rewrite (bs_hd _ _ HB5), (bs_tw _ _ HB5).
    rewrite (rs_hd _ _ _ _ _ HR4), (rs_tw _ _ _ _ _ HR4).
    split; [|done]. by apply (rs_L _ _ _ _ _ HR4). }
  assert (∀ h, L m h → tl m5 h = tl m h) as Htl5.
  { intros h _. unfold tl. rewrite (bs_hd _ _ HB5), (bs_tw _ _ HB5).
    by rewrite (rs_hd _ _ _ _ _ HR4), (rs_tw _ _ _ _ _ HR4). }
  assert (∀ h, L m h → tl m h < nverts m) as Htlv.
  { intros h HLh. apply (si_hd _ _ HS). by apply (si_tw _ _ HS). }
  destruct (fix3_ok m5 seeds (tl m h0) (tl m h1) (tl m h2) HS5 HBI5) as (vs & Efix & Vb & Van & Vpos).
  { rewrite Nv5. by apply Htlv. } { rewrite Nv5. by apply Htlv. } { rewrite Nv5. by apply Htlv. }
  { intros v y Hy M0 M1 M2. rewrite Vs5 in Hy.
    pose proof (proj1 (VI_anch m) (wf_vi _ HW) v y Hy) as Han.
    unfold anch in *. destruct (vhe y) as [h|].
    - destruct Han as [HLh Htl]. split; [|by rewrite Htl5].
      rewrite (bs_L _ _ HB5). destruct (decide (L m4 h)); [done|exfalso].
      destruct (rs_dead _ _ _ _ _ HR4 h HLh) as [Hd|Hd]; [done| |].
      + destruct (Hcyc h HLh Hd) as [->|[->| ->]]; congruence.
      + assert (hd m (tw m h) = v) as Hhd by done.
        destruct (Hcyc (tw m h)) as [E|[E|E]]; [by apply (si_tw _ _ HS)|done|..];
          rewrite E in Hhd; congruence.
    - intros h [HLh Htl]. apply HL5 in HLh as [HLh _]. rewrite Htl5 in Htl by done.
      by apply (Han h). }
  revert Efix.
  destruct (fix_vertex m5 seeds (tl m h0)) as [m6|]; [|done]. cbn [mbind option_bind].
  destruct (fix_vertex m6 seeds (tl m h1)) as [m7|]; [|done]. cbn [mbind option_bind].
  intros ->. cbn [mbind option_bind].
  set (m8 := set_verts vs m5).
  assert (faces m8 !! f = Some (mkFC h0 true)) as Ff8.
  { change (faces m8) with (faces m5). by rewrite Fs5. }
  rewrite (updF_eq m8 f _ _ Ff8). cbn [frem].
  rewrite insert_id by done.
  assert (set_faces (faces m8) m8 = m8) as -> by done.
  exists m8. split; [done|].
  assert (∀ h, L m8 h ↔ L m4 h) as L8 by (intros h; apply (bs_L _ _ HB5)).
  assert (∀ h, fc m8 h = fc m4 h) as Fc8 by (intros h; apply (bs_fc _ _ HB5)).
  assert (∀ h, fc m4 h ≠ None → nx m8 h = nx m4 h ∧ pv m8 h = pv m4 h) as NP8.
  { intros h Hh. split; [by apply (bsim_nx_in m4 m5)|by apply (bsim_pv_in m4 m5)]. }
  assert (∀ h g, L m h → fc m h = Some g → g ≠ f →
     L m8 h ∧ fc m8 h = Some g ∧ nx m8 h = nx m h ∧ pv m8 h = pv m h) as Hint.
  { intros h g HLh Hfh Hg. destruct (rs_int _ _ _ _ _ HR4 h g HLh Hfh Hg) as (Z1&Z2&Z3&Z4).
    destruct (NP8 h ltac:(by rewrite Z2)) as [-> ->]. rewrite L8, Fc8. done. }
  assert (∀ h g, L m8 h → fc m8 h = Some g → fc m h = Some g ∧ g ≠ f) as Hfcm.
  { intros h g. rewrite L8, Fc8. intros HLh Hfh. rewrite (Hfc4 h HLh) by (by rewrite Hfh).
    split; [done|]. intros ->. by apply (Hnof h HLh). }
  split; try done.
  - split.
    + by apply set_verts_SI.
    + intros g y Hy Hyr _. change (faces m8) with (faces m5) in Hy. rewrite Fs5 in Hy.
      destruct (decide (g = f)) as [->|Ng]; [rewrite Ff1 in Hy; by injection Hy as <-|].
      rewrite Fs1 in Hy by done. destruct (wf_fh _ HW g y Hy Hyr ltac:(done)) as (Y1&Y2&Y3).
      destruct (Hint _ _ Y1 Y2 Ng) as (Z1&Z2&Z3&Z4). rewrite Z3, Z4. split; [done|]. split; [done|].
      intros h HLh Hfh. apply Y3; [by apply HL5|]. by apply (Hfcm h g).
    + by apply (BI_hes m5).
    + apply VI_anch. intros v y Hy. apply (anch_hes m5 m8); [done|]. by apply Van.
  - cbn. rewrite (bs_nfaces _ _ HB5). apply (rs_nfaces _ _ _ _ _ HR4).
  - intros v y Hy. rewrite <- Vs5 in Hy. by apply Vpos.
  - intros g Hg. change (faces m8) with (faces m5). rewrite Fs5. by apply Fs1.
  - eexists. split; [done|]. done.
Qed.
End remove2.
