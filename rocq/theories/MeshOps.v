(** add_vertex / add_triangle / remove_triangle against the specification. *)
From Verif Require Export MeshWF.
Local Open Scope N_scope.

Section ops.
Context {P : Type}.
Implicit Types (m : mesh P) (h k b c f g u v e t : N).

(** ** Faces of a well-formed mesh *)
Lemma cycle_face_side m f h : WF m → L m h → fc m h = Some f →
  cycle_face m f (tl m h) (hd m h) (hd m (nx m h)).
Proof.
  intros HW HL Hf. pose proof (wf_si _ HW) as HS. unfold cycle_face.
  destruct (si_in _ _ HS h f HL Hf ltac:(done)) as (_&_&_&_&_&_&_&_&x&Hx&Hr).
  destruct (wf_fh _ HW f x Hx Hr ltac:(done)) as (HL0&Hf0&Hcyc).
  destruct (face3 m HS _ _ HL0 Hf0) as (L1&L2&F1&F2&N1&N2&N3&N4&T1&T2&T3&_).
  assert (oriented_face m f (tl m (fhe x)) (hd m (fhe x)) (hd m (nx m (fhe x)))) as Ho.
  { apply oriented_face_L; [done|]. exists (fhe x). destruct x as [e r]; simpl in *; subst. done. }
  destruct (Hcyc h HL Hf) as [->|[->| ->]].
  - by left.
  - right; right. rewrite T1, N1. rewrite <- T3. done.
  - right; left. rewrite T2, N2. rewrite <- T3. done.
Qed.

Lemma cycle_face_inv m f a b c : SI m None → cycle_face m f a b c →
  ∃ h, L m h ∧ fc m h = Some f ∧ tl m h = a ∧ hd m h = b ∧ hd m (nx m h) = c.
Proof.
  intros HS [H|[H|H]]; apply oriented_face_L in H as (e0&Hf&HL&Hfc&E1&E2&E3); try done;
  destruct (face3 m HS _ _ HL Hfc) as (L1&L2&F1&F2&N1&N2&N3&N4&T1&T2&T3&_).
  - eauto 10.
  - exists (pv m e0). rewrite N2. split_and!; congruence.
  - exists (nx m e0). rewrite N1. split_and!; congruence.
Qed.

Lemma oriented_live m f a b c : oriented_face m f a b c → live_face m f.
Proof. intros (e0&?&?&?&?&?&H&_). by exists (mkFC e0 false). Qed.

Lemma oriented_fun m f a b c a' b' c' : SI m None →
  oriented_face m f a b c → oriented_face m f a' b' c' → a = a' ∧ b = b' ∧ c = c'.
Proof.
  intros HS H1 H2. apply oriented_face_L in H1 as (e&?&?&?&?&?&?); [|done].
  apply oriented_face_L in H2 as (e'&?&?&?&?&?&?); [|done].
  assert (e = e') as -> by congruence. split_and!; congruence.
Qed.

Lemma oriented_distinct m f a b c : SI m None → oriented_face m f a b c →
  a ≠ b ∧ b ≠ c ∧ c ≠ a ∧ a < nverts m ∧ b < nverts m ∧ c < nverts m.
Proof.
  intros HS H. apply oriented_face_L in H as (e&?&HL&Hf&<-&<-&<-); [|done].
  destruct (face3 m HS _ _ HL Hf) as (L1&L2&F1&F2&N1&N2&N3&N4&T1&T2&T3&_).
  pose proof (hd_tl_ne m HS _ HL). pose proof (hd_tl_ne m HS _ L1). pose proof (hd_tl_ne m HS _ L2).
  pose proof (si_hd _ _ HS _ HL). pose proof (si_hd _ _ HS _ L1). pose proof (si_hd _ _ HS _ L2).
  rewrite T3 in *. split_and!; try done; congruence.
Qed.

Lemma live_oriented m f : WF m → live_face m f → ∃ a b c, oriented_face m f a b c.
Proof. intros HW. apply (wfs_face _ (WF_WellFormed _ HW)). Qed.

Lemma free_side m u v : WF m → free m u v ↔ ¬ side_used m u v.
Proof.
  intros HW. pose proof (wf_si _ HW) as HS. split.
  - intros Hfr (f & w & Hc). destruct (cycle_face_inv _ _ _ _ _ HS Hc) as (h&HL&Hf&Ht&Hh&_).
    rewrite (Hfr h) in Hf; [done|]. apply (si_em _ _ HS). done.
  - intros Hn h Hem. apply (si_em _ _ HS) in Hem as (HL&<-&<-). destruct (fc m h) as [f|] eqn:Hf; [|done].
    exfalso. apply Hn. exists f, (hd m (nx m h)). by apply cycle_face_side.
Qed.

Lemma registered_sides m u v : WF m →
  registered m u v ↔ side_used m u v ∨ side_used m v u.
Proof.
  intros HW. pose proof (wf_si _ HW) as HS. split.
  - intros [h Hr]. apply runs_WF in Hr as (HL&<-&<-); [|done].
    destruct (fc m h) as [f|] eqn:Hf.
    + left. exists f, (hd m (nx m h)). by apply cycle_face_side.
    + right. destruct (si_tw _ _ HS h HL) as (HLt&Ett&_).
      destruct (fc m (tw m h)) as [f|] eqn:Hft; [|by apply (si_out _ _ HS h HL) in Hft].
      exists f, (hd m (nx m (tw m h))).
      pose proof (cycle_face_side m f (tw m h) HW HLt Hft) as Hc. unfold tl in Hc at 1. by rewrite Ett in Hc.
  - intros [(f&w&Hc)|(f&w&Hc)]; destruct (cycle_face_inv _ _ _ _ _ HS Hc) as (h&HL&Hf&<-&<-&_).
    + exists h. by apply runs_WF.
    + destruct (si_tw _ _ HS h HL) as (HLt&Ett&_).
      exists (tw m h). apply runs_WF; [done|]. unfold tl. by rewrite Ett.
Qed.

Lemma side_unique m f f' u v w w' : WF m → cycle_face m f u v w → cycle_face m f' u v w' → f = f' ∧ w = w'.
Proof.
  intros HW H1 H2. pose proof (wf_si _ HW) as HS.
  destruct (cycle_face_inv _ _ _ _ _ HS H1) as (h&?&?&?&?&?).
  destruct (cycle_face_inv _ _ _ _ _ HS H2) as (h'&?&?&?&?&?).
  assert (h = h') as -> by (apply (em_inj m None); congruence).
  split; congruence.
Qed.

Lemma same_faces_cycle m m' : same_faces m m' → ∀ f a b c, cycle_face m' f a b c ↔ cycle_face m f a b c.
Proof. intros H f a b c. unfold cycle_face. by rewrite !(H f). Qed.
Lemma same_faces_side m m' : same_faces m m' → ∀ u v, side_used m' u v ↔ side_used m u v.
Proof. intros H u v. unfold side_used. by setoid_rewrite (same_faces_cycle m m' H). Qed.
Lemma same_faces_registered m m' : WF m → WF m' → same_faces m m' →
  ∀ u v, registered m' u v ↔ registered m u v.
Proof. intros HW HW' H u v. rewrite !registered_sides by done. by rewrite !(same_faces_side m m' H). Qed.

(** ** Transfer lemmas *)
(** interior half-edges of a face kept, with tails and heads *)
Lemma same_oriented m m' g : WF m → SI m' None →
  faces m' !! g = faces m !! g →
  (∀ h, L m h → fc m h = Some g → L m' h ∧ fc m' h = Some g ∧ hd m' h = hd m h ∧ nx m' h = nx m h ∧
       tl m' h = tl m h) →
  ∀ a b c, oriented_face m' g a b c ↔ oriented_face m g a b c.
Proof.
  intros HW HS' Hf H1 a b c. pose proof (wf_si _ HW) as HS.
  rewrite !oriented_face_L, Hf by done. split.
  - intros (e&Hg&HL&Hfe&?&?&?). destruct (wf_fh _ HW g _ Hg eq_refl ltac:(done)) as (HL0&Hf0&_).
    simpl in *. destruct (H1 e HL0 Hf0) as (?&?&?&En&?).
    destruct (face3 m HS _ _ HL0 Hf0) as (L1&L2&F1&F2&_).
    destruct (H1 _ L1 F1) as (?&?&?&?&?). rewrite En in *.
    exists e. split_and!; congruence.
  - intros (e&?&HL0&Hf0&?&?&?).
    destruct (H1 e HL0 Hf0) as (?&?&?&En&?).
    destruct (face3 m HS _ _ HL0 Hf0) as (L1&L2&F1&F2&_).
    destruct (H1 _ L1 F1) as (?&?&?&?&?).
    exists e. rewrite En. split_and!; congruence.
Qed.

Lemma same_positions_intro m m' : SI m None → SI m' None → nverts m' = nverts m →
  (∀ v x, verts m !! v = Some x → ∃ x', verts m' !! v = Some x' ∧ vpos x' = vpos x ∧ vrem x' = vrem x) →
  same_positions m m'.
Proof.
  intros HS HS' Hn H. split; [done|]. intros v. destruct (verts m !! v) as [x|] eqn:E.
  - destruct (H v x E) as (x' & -> & ? & ?). simpl. split; congruence.
  - destruct (verts m' !! v) as [x'|] eqn:E'; [|done].
    assert (v < nverts m') as Hlt by (apply (si_vb _ _ HS'); eauto). rewrite Hn in Hlt.
    apply (si_vb _ _ HS) in Hlt as [? ?]. congruence.
Qed.

(** ** add_triangle *)
Lemma free3_ok m a b c d e f : SI m None → ∃ r : bool, free3 m (a, b) (c, d) (e, f) = Some r ∧
  (r = true ↔ free m a b ∧ free m c d ∧ free m e f).
Proof.
  intros HS. unfold free3. cbn [fst snd].
  destruct (dir_is_free_ok m None a b HS) as (r1 & -> & H1). cbn [mbind option_bind].
  destruct r1; [|exists false; naive_solver].
  destruct (dir_is_free_ok m None c d HS) as (r2 & -> & H2). cbn [mbind option_bind].
  destruct r2; [|exists false; naive_solver].
  destruct (dir_is_free_ok m None e f HS) as (r3 & -> & H3). exists r3. naive_solver.
Qed.

Lemma free_dec m u v : SI m None → free m u v ∨ ¬ free m u v.
Proof.
  intros HS. destruct (dir_is_free_ok m None u v HS) as (r & _ & H). destruct r; [left|right]; naive_solver.
Qed.

(** the outcome of adding the oriented triangle a→b→c as face [f] *)
Record Added m a b c m' f : Prop := {
  add_wf : WF m';
  add_new : f = nfaces m ∧ nfaces m' = nfaces m + 1;
  add_face : oriented_face m' f a b c;
  add_rest : same_faces_except m m' f;
  add_pos : same_positions m m';
  add_size : nhes m ≤ nhes m' ≤ nhes m + 6
}.

Lemma AddPost_Added m a b c m' f : WF m → AddPost m a b c m' f → Added m a b c m' f.
Proof.
  intros HW HA. pose proof (wf_si _ HW) as HS. pose proof (wf_si _ (ap_wf _ _ _ _ _ _ HA)) as HS'.
  destruct (ap_tri _ _ _ _ _ _ HA) as (e0&e1&e2&Hf&L0&L1&L2&N0&N1&N2&P0&P1&P2&F0&F1&F2&H0&H1&H2&T0&T1&T2&Hold&Hfc).
  split.
  - apply HA. - split; apply HA.
  - apply oriented_face_L; [done|]. exists e0. rewrite N0. done.
  - intros g a' b' c' Hg. revert a' b' c'. apply same_oriented; try done.
    + by apply (ap_faces _ _ _ _ _ _ HA).
    + intros h HL Hfh. destruct (ap_old _ _ _ _ _ _ HA h HL) as (?&?&Et).
      destruct (ap_int _ _ _ _ _ _ HA h g HL Hfh) as (?&?&?). split_and!; try done.
      unfold tl. rewrite Et. destruct (ap_old _ _ _ _ _ _ HA (tw m h)) as (?&?&?); [|done].
      by apply (si_tw _ _ HS).
  - apply same_positions_intro; try done; apply HA.
  - apply HA.
Qed.

(** sides of the triangle a b c in both directions *)
Lemma add_triangle_ok m v0 v1 v2 :
  WF m → v0 ≠ v1 → v1 ≠ v2 → v2 ≠ v0 → v0 < nverts m → v1 < nverts m → v2 < nverts m →
  nhes m + 6 ≤ umax → nfaces m < umax →
  let ccw := ¬ side_used m v0 v1 ∧ ¬ side_used m v1 v2 ∧ ¬ side_used m v2 v0 in
  let cw := ¬ side_used m v0 v2 ∧ ¬ side_used m v2 v1 ∧ ¬ side_used m v1 v0 in
  ∃ m' f, add_triangle m v0 v1 v2 = Some (m', f) ∧
    ((ccw ∧ AddPost m v0 v1 v2 m' f) ∨
     (¬ ccw ∧ cw ∧ AddPost m v0 v2 v1 m' f) ∨
     (¬ ccw ∧ ¬ cw ∧ m' = m ∧ f = umax)).
Proof.
  intros HW N01 N12 N20 V0 V1 V2 Hh Hf ccw cw. pose proof (wf_si _ HW) as HS.
  unfold add_triangle.
  destruct (free3_ok m v0 v1 v1 v2 v2 v0 HS) as (r & -> & Hr). cbn [mbind option_bind].
  destruct (free3_ok m v0 v2 v2 v1 v1 v0 HS) as (r' & -> & Hr'). cbn [mbind option_bind].
  rewrite !(free_side m) in Hr, Hr' by done. fold ccw in Hr. fold cw in Hr'.
  destruct r.
  - assert ccw as Hc by (by apply Hr). pose proof Hc as (?&?&?).
    destruct (add_oriented_ok m v0 v1 v2) as (m' & f & E & HA); auto; try (by apply free_side).
    exists m', f. split; [done|]. left. done.
  - assert (¬ ccw) as Hc by (by intros ?%Hr). destruct r'.
    + assert cw as Hc' by (by apply Hr'). pose proof Hc' as (?&?&?).
      destruct (add_oriented_ok m v0 v2 v1) as (m' & f & E & HA); auto; try (by apply free_side).
      exists m', f. split; [done|]. right; left. done.
    + assert (¬ cw) as Hc' by (by intros ?%Hr'). exists m, umax. split; [done|]. right; right. done.
Qed.

(** ** remove_triangle *)
Record Removed m f m' : Prop := {
  rem_wf : WF m';
  rem_face : ¬ live_face m' f;
  rem_rest : same_faces_except m m' f;
  rem_pos : same_positions m m';
  rem_size : nhes m' = nhes m ∧ nfaces m' = nfaces m
}.

Lemma RemPost_Removed m f m' : WF m → RemPost m f m' → Removed m f m'.
Proof.
  intros HW HR. pose proof (wf_si _ HW) as HS. pose proof (wf_si _ (rp_wf _ _ _ HR)) as HS'.
  split.
  - apply HR.
  - intros (x & Hx & Hr). destruct (rp_f _ _ _ HR) as (y & ? & ?). congruence.
  - intros g a b c Hg. revert a b c. apply same_oriented; try done.
    + by apply (rp_faces _ _ _ HR).
    + intros h HL Hf. destruct (rp_int _ _ _ HR h g HL Hf Hg) as (HL'&?&?&?).
      destruct (rp_L _ _ _ HR h HL') as (_&?&Et). split_and!; try done.
      unfold tl. rewrite Et. destruct (si_tw _ _ HS' h HL') as (HLt&_). rewrite Et in HLt.
      by destruct (rp_L _ _ _ HR _ HLt) as (_&?&_).
  - apply same_positions_intro; try done; apply HR.
  - split; apply HR.
Qed.

Lemma remove_triangle_spec m f : WF m → f < nfaces m →
  ∃ m', remove_triangle m f = Some m' ∧
    ((live_face m f ∧ RemPost m f m') ∨ (¬ live_face m f ∧ m' = m)).
Proof.
  intros HW Hf. pose proof (wf_si _ HW) as HS.
  destruct (proj2 (si_fb _ _ HS f) Hf) as [x Hx].
  destruct (frem x) eqn:Hr.
  - exists m. split.
    + unfold remove_triangle, getF. rewrite Hx. simpl. by rewrite Hr.
    + right. split; [|done]. intros (y & ? & ?). congruence.
  - destruct (remove_triangle_ok m f x HW Hx Hr) as (m' & E & HR). exists m'. split; [done|].
    left. split; [by exists x|done].
Qed.

(** ** new, add_vertex *)
Lemma mesh_new_WF : WF (mesh_new (P:=P)).
Proof.
  assert (∀ h, ¬ L (mesh_new (P:=P)) h) as HnL.
  { intros h HL. apply L_spec in HL as (x & Hx & _). done. }
  split; [split| | |]; try (intros ? HL; by apply HnL in HL); try (intros ? ? HL; by apply HnL in HL);
    try done.
  - intros h. simpl. rewrite lookup_empty. split; [by intros []|lia].
  - intros h. simpl. rewrite lookup_empty. split; [by intros []|lia].
  - intros h. simpl. rewrite lookup_empty. split; [by intros []|lia].
  - intros u v h. split; [|intros (HL&_); by apply HnL in HL]. done.
Qed.

Record VAdded m p m' v : Prop := {
  va_wf : WF m';
  va_v : v = nverts m ∧ nverts m' = nverts m + 1;
  va_pos : vpos <$> verts m' !! v = Some (p : P) ∧ vrem <$> verts m' !! v = Some false;
  va_old : ∀ u, u ≠ v → verts m' !! u = verts m !! u;
  va_faces : same_faces m m';
  va_size : nhes m' = nhes m ∧ nfaces m' = nfaces m
}.

Lemma add_vertex_ok m p : WF m → nverts m < umax →
  ∃ m' v, add_vertex m p = Some (m', v) ∧ VAdded m p m' v.
Proof.
  intros HW Hn. pose proof (wf_si _ HW) as HS. unfold add_vertex, pushV.
  rewrite (proj2 (N.ltb_lt _ _) Hn). cbn [mbind option_bind].
  set (m' := mkMesh _ _ _ _ _ _ _). exists m', (nverts m). split; [done|].
  assert (SI m' None) as HS'.
  { destruct HS as [J1 J2 J3 J4 J5 J6 J8 J9 J10 J11 J12]. split; try done.
    - intros v. cbn. rewrite lookup_insert_is_Some', J5. split; [intros [<-|?]; lia|].
      intros ?. destruct (decide (nverts m = v)); [by left|right; lia].
    - cbn. lia.
    - intros h HL. specialize (J12 h HL). cbn. change (hd m' h) with (hd m h). lia. }
  split.
  - split; [done|apply HW|by apply (BI_hes m), HW|].
    intros v x. cbn. destruct (decide (nverts m = v)) as [<-|Hne].
    + rewrite lookup_insert. intros [= <-]. simpl. intros h HL Ht.
      destruct (si_tw _ _ HS h HL) as (HLt&_). pose proof (si_hd _ _ HS _ HLt).
      change (tl m' h) with (tl m h) in Ht. unfold tl in Ht. lia.
    + rewrite lookup_insert_ne by done. apply HW.
  - done.
  - cbn. by rewrite lookup_insert.
  - intros u Hu. cbn. by rewrite lookup_insert_ne.
  - intros g a b c. done.
  - done.
Qed.
End ops.
