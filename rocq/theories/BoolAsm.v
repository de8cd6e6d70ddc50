(** The assembled Boolean result against its triangles. *)
From Verif Require Export BoolBuild.
From Verif Require Import MeshWF MeshBase MeshInv.
Local Open Scope N_scope.

Lemma rev3_sides {A} (ts : list (A * A * A)) : all_sides (rev3 <$> ts) ≡ₚ (λ e, (e.2, e.1)) <$> all_sides ts.
Proof.
  unfold all_sides. induction ts as [|[[a b] c] ts IH]; [done|]. rewrite !fmap_cons. cbn [concat]. rewrite fmap_app, IH.
  apply Permutation_app; [|done]. cbn. apply (Permutation_cons_append [(c, b); (b, a)] (a, c)) || idtac.
  etrans; [apply perm_swap|]. done.
Qed.

Lemma sorted_unique (l l' : list N) : StronglySorted N.lt l → StronglySorted N.lt l' → (∀ x, x ∈ l ↔ x ∈ l') → l = l'.
Proof.
  revert l'. induction l as [|x l IH]; intros l' Hs Hs' Hx.
  - destruct l' as [|y l']; [done|]. exfalso. apply (not_elem_of_nil y), Hx. by left.
  - destruct l' as [|y l']. { exfalso. apply (not_elem_of_nil x), Hx. by left. }
    apply StronglySorted_inv in Hs as [Hs Hf], Hs' as [Hs' Hf']. rewrite Forall_forall in Hf, Hf'.
    assert (x = y) as ->.
    { assert (x ∈ y :: l') as [?|Hxy]%elem_of_cons by (apply Hx; by left); [done|].
      assert (y ∈ x :: l) as [?|Hyx]%elem_of_cons by (apply Hx; by left); [done|].
      specialize (Hf _ Hyx). specialize (Hf' _ Hxy). lia. }
    f_equal. apply IH; try done. intros z. specialize (Hx z). rewrite !elem_of_cons in Hx. split; intros Hz.
    + destruct (proj1 Hx) as [->|?]; [by right| |done]. specialize (Hf _ Hz). lia.
    + destruct (proj2 Hx) as [->|?]; [by right| |done]. specialize (Hf' _ Hz). lia.
Qed.

Section asm.
Context {P : Type}.
Implicit Types (m a b res : mesh P) (ts : list tri) (ps : list P).

Notation faces_of m fs ts := (Forall2 (λ g t, oriented_face m g t.1.1 t.1.2 t.2) fs ts).

Lemma face_side m f t e : oriented_face m f t.1.1 t.1.2 t.2 → e ∈ sides t → ∃ w, cycle_face m f e.1 e.2 w.
Proof.
  destruct t as [[a b] c]. cbn. rewrite !elem_of_cons, elem_of_nil. intros Ho [->|[->|[->|[]]]]; cbn.
  - exists c. by left.
  - exists a. right; by right.
  - exists b. right; by left.
Qed.

Lemma faces_sides_NoDup m fs ts : WF m → NoDup fs → faces_of m fs ts → NoDup (all_sides ts).
Proof.
  intros HW Hnd H2. induction H2 as [|f t fs ts Ho H2 IH]; [constructor|].
  apply NoDup_cons in Hnd as [Hf Hnd]. change (all_sides (t :: ts)) with (sides t ++ all_sides ts).
  apply NoDup_app. split; [|split; [|by apply IH]].
  - destruct (oriented_distinct m _ _ _ _ (wf_si _ HW) Ho) as (N1&N2&N3&_). destruct t as [[u v] w]. cbn in *.
    apply NoDup_cons. rewrite !elem_of_cons, elem_of_nil. split; [naive_solver|]. apply NoDup_cons.
    rewrite !elem_of_cons, elem_of_nil. split; [naive_solver|]. apply NoDup_singleton.
  - intros e He Hin. apply elem_all_sides in Hin as (t'&(j&Hj)%elem_of_list_lookup&He').
    destruct (Forall2_lookup_r _ _ _ _ _ H2 Hj) as (g&Hg&Ho').
    destruct (face_side _ _ _ _ Ho He) as [w Hw], (face_side _ _ _ _ Ho' He') as [w' Hw'].
    destruct (side_unique m _ _ _ _ _ _ HW Hw Hw') as [-> _]. apply Hf. by eapply elem_of_list_lookup_2.
Qed.

Lemma faces_good m fs ts : WF m → faces_of m fs ts → Forall (good_tri (nverts m)) ts.
Proof.
  intros HW H2. apply Forall_forall. intros t (j&Hj)%elem_of_list_lookup.
  destruct (Forall2_lookup_r _ _ _ _ _ H2 Hj) as (g&_&Ho). apply oriented_distinct in Ho; [|apply wf_si, HW].
  by destruct t as [[u v] w].
Qed.

Definition posns m ps : Prop := length ps = N.to_nat (nverts m) ∧ ∀ i, ps !! i = vpos <$> verts m !! N.of_nat i.
Lemma posns_of m ps : (∀ v, is_Some (verts m !! v) ↔ v < nverts m) →
  Forall2 (λ v q, vpos <$> verts m !! v = Some q) (range (nverts m)) ps → posns m ps.
Proof.
  intros Hvb H2. pose proof (Forall2_length _ _ _ H2) as Hl. rewrite range_length in Hl. split; [done|]. intros i.
  destruct (ps !! i) as [p|] eqn:E.
  - destruct (Forall2_lookup_r _ _ _ _ _ H2 E) as (v&[-> _]%range_lookup&?). done.
  - apply lookup_ge_None in E. destruct (verts m !! N.of_nat i) as [x|] eqn:Ex; [|done].
    assert (N.of_nat i < nverts m); [|lia]. apply Hvb. eauto.
Qed.

(** the triangles of an assembled result *)
Definition joined (op : bop) (na : N) (tsa tsb : list tri) : list tri :=
  tsa ++ ((λ t, rev_if (flip_b op) (map3 (N.add na) t)) <$> tsb).

Lemma fmap_if {A B} (f : bool) (g h : A → B) (l : list A) : (λ x, if f then g x else h x) <$> l = if f then g <$> l else h <$> l.
Proof. by destruct f. Qed.

Lemma assemble_ok op a b cls_a cls_b : WF a → WF b →
  N.of_nat (length cls_a) = nfaces a → N.of_nat (length cls_b) = nfaces b →
  nverts a + nverts b ≤ umax → 6 * (nfaces a + nfaces b) ≤ umax →
  ∃ res pa pb fsa fsb tsa tsb, assemble op a b cls_a cls_b = Some res ∧ posns a pa ∧ posns b pb ∧
    chosen a (want_a op) 0 cls_a fsa ∧ chosen b (want_b op) 0 cls_b fsb ∧ faces_of a fsa tsa ∧ faces_of b fsb tsb ∧
    Built res (pa ++ pb) (joined op (nverts a) tsa tsb).
Proof.
  intros HA HB La Lb Hnv Hnf. unfold assemble. pose proof (wf_si _ HA) as SA. pose proof (wf_si _ HB) as SB.
  destruct (append_vertices_ok a (range (nverts a))) with (res := mesh_new (P:=P)) (ps := @nil P) (ts := @nil tri) (vid := (∅ : gmap N N))
    as (r0 & va & pa & -> & B0 & H2a & _ & Hva).
  { intros v. rewrite range_spec. apply (si_vb _ _ SA). } { apply sorted_NoDup, range_sorted. } { apply Built_new. }
  { cbn. rewrite range_length. lia. }
  cbn [mbind option_bind fst snd app] in *. pose proof (posns_of a pa (si_vb _ _ SA) H2a) as Hpa.
  assert (∀ v, v < nverts a → va !! v = Some v) as Hva'.
  { intros v Hv. rewrite (Hva (N.to_nat v) v). { cbn. f_equal. lia. } apply range_lookup. split; [lia|done]. }
  destruct (append_faces_eq a va (want_a op) false HA) with (cls := cls_a) (f := 0) as (fsa & tsa & Ca & Fa & Ea).
  { intros v Hv. rewrite Hva'; eauto. } { lia. }
  rewrite Ea. clear Ea. cbn [rev_if].
  pose proof (faces_good a fsa tsa HA Fa) as Ga. pose proof (faces_sides_NoDup a fsa tsa HA (sorted_NoDup _ (proj1 Ca)) Fa) as Na.
  assert ((λ t, map3 (λ v, default 0 (va !! v)) t) <$> tsa = tsa) as ->.
  { rewrite <- (list_fmap_id tsa) at 2. apply list_fmap_ext. intros i [[u v] w] Ht.
    rewrite Forall_forall in Ga. destruct (Ga (u, v, w)) as (_&_&_&?&?&?); [by eapply elem_of_list_lookup_2|].
    cbn. rewrite !Hva' by done. done. }
  assert (∀ m f l cls fs, WF m → chosen m l f cls fs → N.of_nat (length cls) = nfaces m → f = 0 → N.of_nat (length fs) ≤ nfaces m) as Hcl.
  { intros m f l cls fs Hm [Cs Ci] Hl ->. assert (length fs ≤ N.to_nat (nfaces m))%nat; [|lia].
    rewrite <- range_length. apply submseteq_length, NoDup_submseteq; [by apply sorted_NoDup|].
    intros g (Hg&_)%Ci. apply range_spec, (si_fb _ _ (wf_si _ Hm)). destruct Hg as (x&?&_). eauto. }
  pose proof (Forall2_length _ _ _ Fa) as Lfa. pose proof (Hcl a 0 _ _ _ HA Ca La eq_refl) as Hfa.
  pose proof (bl_nv _ _ _ B0) as Hn0. rewrite (proj1 Hpa), N2Nat.id in Hn0.
  destruct (add_tris_ok tsa r0 pa [] B0) as (r1 & -> & B1).
  { by rewrite Hn0. } { done. } { change ([] ++ tsa) with tsa. lia. }
  cbn [mbind option_bind app] in *. pose proof (bl_nv _ _ _ B1) as Hn1. rewrite (proj1 Hpa), N2Nat.id in Hn1.
  destruct (append_vertices_ok b (range (nverts b))) with (res := r1) (ps := pa) (ts := tsa) (vid := (∅ : gmap N N))
    as (r2 & vb & pb & -> & B2 & H2b & _ & Hvb); try done.
  { intros v. rewrite range_spec. apply (si_vb _ _ SB). } { apply sorted_NoDup, range_sorted. }
  { rewrite range_length. lia. }
  cbn [mbind option_bind fst snd app] in *. pose proof (posns_of b pb (si_vb _ _ SB) H2b) as Hpb.
  assert (∀ v, v < nverts b → vb !! v = Some (nverts a + v)) as Hvb'.
  { intros v Hv. rewrite (Hvb (N.to_nat v) v). { f_equal. lia. } apply range_lookup. split; [lia|done]. }
  destruct (append_faces_eq b vb (want_b op) (flip_b op) HB) with (cls := cls_b) (f := 0) as (fsb & tsb & Cb & Fb & Eb).
  { intros v Hv. rewrite Hvb'; eauto. } { lia. }
  rewrite Eb. clear Eb.
  pose proof (faces_good b fsb tsb HB Fb) as Gb. pose proof (faces_sides_NoDup b fsb tsb HB (sorted_NoDup _ (proj1 Cb)) Fb) as Nb.
  set (tsb' := (λ t, rev_if (flip_b op) (map3 (N.add (nverts a)) t)) <$> tsb).
  assert ((λ t, rev_if (flip_b op) (map3 (λ v, default 0 (vb !! v)) t)) <$> tsb = tsb') as ->.
  { apply list_fmap_ext. intros i [[u v] w] Ht.
    rewrite Forall_forall in Gb. destruct (Gb (u, v, w)) as (_&_&_&?&?&?); [by eapply elem_of_list_lookup_2|].
    cbn. rewrite !Hvb' by done. done. }
  pose proof (bl_nv _ _ _ B2) as Hn2. rewrite app_length, (proj1 Hpa), (proj1 Hpb) in Hn2.
  pose proof (Forall2_length _ _ _ Fb) as Lfb. pose proof (Hcl b 0 _ _ _ HB Cb Lb eq_refl) as Hfb.
  assert (all_sides tsb' ≡ₚ (if flip_b op then (λ e, (e.2, e.1)) <$> (prod_map (N.add (nverts a)) (N.add (nverts a)) <$> all_sides tsb)
     else prod_map (N.add (nverts a)) (N.add (nverts a)) <$> all_sides tsb)) as Hsb.
  { unfold tsb', rev_if. rewrite fmap_if. rewrite <- all_sides_map. destruct (flip_b op); [|done].
    rewrite (list_fmap_compose (map3 (N.add (nverts a))) rev3). apply rev3_sides. }
  assert (NoDup (prod_map (N.add (nverts a)) (N.add (nverts a)) <$> all_sides tsb)) as Nb'.
  { apply NoDup_fmap_2; [|done]. intros [u v] [u' v']. cbn. intros [= ? ?]. f_equal; lia. }
  destruct (add_tris_ok tsb' r2 (pa ++ pb) tsa B2) as (r3 & -> & B3).
  - apply Forall_forall. intros t Ht. apply elem_of_list_fmap in Ht as ([[u v] w]&->&Ht).
    rewrite Forall_forall in Gb. destruct (Gb _ Ht) as (?&?&?&?&?&?). destruct (flip_b op); cbn; split_and!; try lia; congruence.
  - rewrite all_sides_app. apply NoDup_app. split; [done|]. split.
    + intros e He. rewrite Hsb. apply elem_all_sides in He as (t&Ht&He).
      assert (e.1 < nverts a ∧ e.2 < nverts a) as [? ?].
      { rewrite Forall_forall in Ga. specialize (Ga t Ht). destruct t as [[u v] w]. destruct Ga as (?&?&?&?&?&?). cbn in He.
        rewrite !elem_of_cons, elem_of_nil in He. destruct He as [->|[->|[->|[]]]]; cbn; lia. }
      destruct (flip_b op).
      * intros (e'&->&(e''&->&_)%elem_of_list_fmap)%elem_of_list_fmap. destruct e''; cbn in *; lia.
      * intros (e''&->&_)%elem_of_list_fmap. destruct e''; cbn in *; lia.
    + rewrite Hsb. destruct (flip_b op); [|done]. apply NoDup_fmap_2; [|done]. intros [? ?] [? ?]. cbn. by intros [= -> ->].
  - rewrite app_length. unfold tsb'. rewrite fmap_length. lia.
  - exists r3, pa, pb, fsa, fsb, tsa, tsb. split_and!; try done; lia.
Qed.

(** ** after merging the vertices *)
Section merge.
Context {K : Type} `{Countable K}.
Variable key : P → option K.
Variable eqb : P → P → bool.
Variable order : ∀ A : Type, list A → list A.
Variable same : P → P → Prop.
Context (LW : Lawful key eqb order same).

Lemma merged_vertices m o m' f u v w : WF m → Merged same m o m' → oriented_face m f u v w →
  face_vertices m' f = Some (o u, o v, o w).
Proof.
  intros HW HM Ho. pose proof (wf_si _ HW) as HS. apply oriented_face_L in Ho as (e&Ef&HL&Hf&<-&<-&<-); [|done].
  destruct (face3 m HS _ _ HL Hf) as (L1&L2&F1&F2&N1&N2&N3&N4&T1&T2&T3&_).
  assert (∀ h, L m h → ∃ x, hes m' !! h = Some x ∧ hv x = o (hd m h) ∧ hnext x = nx m h ∧ hprev x = pv m h) as Hh.
  { intros h Hl. pose proof (si_hd _ _ HS h Hl) as Hlt. pose proof (L_rem m h Hl) as Hr.
    rewrite (mg_hes _ _ _ _ HM h). pose proof (L_getH m h Hl) as Eh. unfold getH in Eh. rewrite Eh. cbn. rewrite Hr.
    unfold hd in Hlt. rewrite (proj2 (N.ltb_lt _ _) Hlt). eexists. split; [done|]. done. }
  unfold face_vertices, getF, getH. rewrite (proj1 (mg_faces _ _ _ _ HM)), Ef. cbn [mbind option_bind fhe].
  destruct (Hh e HL) as (x0&->&E0&X1&X2). cbn [mbind option_bind]. rewrite X1, X2.
  destruct (Hh _ L1) as (x1&->&E1&_). cbn [mbind option_bind]. destruct (Hh _ L2) as (x2&->&E2&_). cbn [mbind option_bind].
  rewrite E0, E1, E2. destruct (In_pv m HS e) as (_&_&E); [split; [done|by rewrite Hf]|]. unfold tl. by rewrite E.
Qed.

Lemma merged_readable m ps ts o m' : Built m ps ts → Merged same m o m' → Readable m' (map3 o <$> ts).
Proof.
  intros HB HM. pose proof (bl_wf _ _ _ HB) as HW. split.
  - apply HM.
  - pose proof (mg_le _ _ _ _ HM). pose proof (si_vmax _ _ (wf_si _ HW)). lia.
  - rewrite (proj1 (proj2 (mg_faces _ _ _ _ HM))), fmap_length. apply HB.
  - intros i t Hi. rewrite list_lookup_fmap in Hi. destruct (ts !! i) as [[[u v] w]|] eqn:Et; [|done]. injection Hi as <-.
    apply (bl_face _ _ _ HB) in Et. split; [|split].
    + rewrite (proj1 (mg_faces _ _ _ _ HM)). by apply oriented_live in Et.
    + by apply (merged_vertices m).
    + cbn. destruct (oriented_distinct m _ _ _ _ (wf_si _ HW) Et) as (_&_&_&?&?&?). split_and!; by apply (mg_o _ _ _ _ HM).
Qed.

(** the triangles [ts] on the positions [ps], as triangles of positions *)
Definition placed ps (t : tri) (s : P * P * P) : Prop :=
  ps !! N.to_nat t.1.1 = Some s.1.1 ∧ ps !! N.to_nat t.1.2 = Some s.1.2 ∧ ps !! N.to_nat t.2 = Some s.2.

Lemma placed_sides ps ts S : Forall2 (placed ps) ts S →
  Forall2 (λ e d, ps !! N.to_nat e.1 = Some d.1 ∧ ps !! N.to_nat e.2 = Some d.2) (all_sides ts) (all_sides S).
Proof.
  induction 1 as [|[[u v] w] [[p q] r] ts S (Hp&Hq&Hr) H2 IH]; [constructor|].
  change (all_sides ((u, v, w) :: ts)) with ((u, v) :: (v, w) :: (w, u) :: all_sides ts).
  change (all_sides ((p, q, r) :: S)) with ((p, q) :: (q, r) :: (r, p) :: all_sides S). cbn in *.
  repeat constructor; done.
Qed.

(** everything about [finish], with and without clashes *)
Lemma finish_ok m ps ts S : Built m ps ts → Forall2 (placed ps) ts S → 6 * N.of_nat (length ts) ≤ umax →
  ∃ m', finish key eqb order m = Some m' ∧ WF m' ∧ (∀ f, f < nfaces m' → live_face m' f) ∧ (nfaces m' ≤ N.of_nat (length S)) ∧
    (∀ u v p q, vpos <$> verts m' !! u = Some p → vpos <$> verts m' !! v = Some q → same p q → u = v) ∧
    (∀ f s, tri_at m' f s → ∃ t s', t ∈ S ∧ same3 same t s' ∧ (s = s' ∨ s = (s'.1.1, s'.2, s'.1.2))) ∧
    (no_clash same S → nfaces m' = N.of_nat (length S) ∧
       (∀ i t, S !! i = Some t → ∃ s, tri_at m' (N.of_nat i) s ∧ same3 same t s) ∧
       (∀ v, v < nverts m' → ∃ f x y z, oriented_face m' f x y z ∧ (v = x ∨ v = y ∨ v = z))).
Proof using LW.
  intros HB H2 Hn. pose proof (bl_wf _ _ _ HB) as HW. unfold finish.
  destruct (remove_duplicate_vertices_ok key eqb order same LW m (si_vb _ _ (wf_si _ HW))) as (m1 & n & o & -> & _ & HM).
  cbn [mbind option_bind fst]. pose proof (merged_readable m ps ts o m1 HB HM) as HR.
  destruct (remove_unused_readable m1 _ HR) as (kept & rk & ps1 & r0 & -> & B0 & Ks & Kin & Krk & Kps).
  set (g := λ v, rk (o v)).
  assert (map3 rk <$> (map3 o <$> ts) = map3 g <$> ts) as Eg.
  { rewrite <- list_fmap_compose. apply list_fmap_ext. by intros i [[u v] w] _. }
  rewrite Eg. pose proof (Forall2_length _ _ _ H2) as HlS.
  pose proof (bl_nv _ _ _ B0) as Hn0. pose proof (Forall2_length _ _ _ Kps) as Hlk.
  assert (∀ v, corners_of ts v → corners_of (map3 o <$> ts) (o v)) as Hco.
  { intros v (t&Ht&Hv). exists (map3 o t). split; [apply elem_of_list_fmap; eauto|]. destruct t as [[x y] z]. cbn. naive_solver. }
  assert (∀ v, corners_of ts v → v < nverts m) as Hcl.
  { intros v (t&(i&Hi)%elem_of_list_lookup&Hv). destruct t as [[x y] z]. apply (bl_face _ _ _ HB) in Hi.
    destruct (oriented_distinct m _ _ _ _ (wf_si _ HW) Hi) as (_&_&_&?&?&?). naive_solver. }
  (* positions of the corners *)
  assert (∀ v, corners_of ts v → ∃ p q, ps !! N.to_nat v = Some p ∧ ps1 !! N.to_nat (g v) = Some q ∧ same p q) as Hpq.
  { intros v Hv. pose proof (Hcl v Hv) as Hlt.
    destruct (ps !! N.to_nat v) as [p|] eqn:Ep.
    2:{ apply lookup_ge_None in Ep. pose proof (bl_nv _ _ _ HB). lia. }
    pose proof (bl_pos _ _ _ HB (N.to_nat v)) as Hp. rewrite N2Nat.id, Ep in Hp.
    destruct (mg_same _ _ _ _ HM v p Hp) as (q&Hq&Hs). pose proof (Krk _ (Hco v Hv)) as Hk.
    destruct (Forall2_lookup_l _ _ _ _ _ Kps Hk) as (q'&Hq'&Ev). rewrite Hq in Ev. injection Ev as <-. by exists p, q. }
  assert (∀ v, corners_of ts v → g v < nverts r0) as Hglt.
  { intros v Hv. destruct (Hpq v Hv) as (p&q&_&Hq&_). apply lookup_lt_Some in Hq. lia. }
  assert (∀ i j p q, ps1 !! i = Some p → ps1 !! j = Some q → same p q → i = j) as Hinj.
  { intros i j p q Hi Hj Hs. destruct (Forall2_lookup_r _ _ _ _ _ Kps Hi) as (u&Hu&Eu), (Forall2_lookup_r _ _ _ _ _ Kps Hj) as (v&Hv&Ev).
    assert (u = v) as -> by (by apply (mg_diff _ _ _ _ HM u v p q)). eapply (NoDup_lookup kept); [by apply sorted_NoDup|done|done]. }
  set (L := filter nondeg (map3 g <$> ts)).
  assert (∀ t, t ∈ L → ∃ t0 i, ts !! i = Some t0 ∧ t = map3 g t0) as HLin.
  { intros t [_ Ht]%elem_of_list_filter. apply elem_of_list_fmap in Ht as (t0&->&(i&Hi)%elem_of_list_lookup). eauto. }
  assert (∀ t0 i, ts !! i = Some t0 → let '(a, b, c) := t0 in corners_of ts a ∧ corners_of ts b ∧ corners_of ts c) as Hcor.
  { intros [[x y] z] i Hi%elem_of_list_lookup_2. split_and!; exists (x, y, z); (split; [done|tauto]). }
  assert (Forall (good_tri (nverts r0)) L) as HG.
  { apply Forall_forall. intros t Ht. destruct (HLin t Ht) as ([[x y] z]&i&Hi&->). apply elem_of_list_filter in Ht as [(?&?&?) _].
    destruct (Hcor _ _ Hi) as (?&?&?). cbn. split_and!; try done; by apply Hglt. }
  assert (N.of_nat (length L) ≤ N.of_nat (length ts)) as HlL.
  { unfold L. pose proof (filter_length nondeg (map3 g <$> ts)) as Hl. rewrite fmap_length in Hl. lia. }
  destruct (add_tris_sound L r0 ps1 [] (Built_Sound _ _ _ B0) HG) as (m2 & E2 & HS2); [change ([] ++ L) with L; lia|].
  cbn [app] in HS2. rewrite E2. cbn [mbind option_bind].
  destruct (remove_invalidated_faces_ok m2 (sd_wf _ _ _ HS2)) as (m3 & lfs & -> & Sl & Hl & [W3 NF3 LV3 FC3 [PN3 PS3] _]).
  assert (lfs = range (nfaces m2)) as ->.
  { pose proof (sorted_NoDup _ Sl) as Hnd.
    apply sorted_unique; [done|apply range_sorted|]. intros f. rewrite Hl, range_spec. split; [|apply HS2].
    intros (x&?&_). apply (si_fb _ _ (wf_si _ (sd_wf _ _ _ HS2))). eauto. }
  rewrite range_length, N2Nat.id in NF3.
  assert (∀ i x y z, oriented_face m3 i x y z ↔ oriented_face m2 i x y z) as FC.
  { intros i x y z. rewrite FC3. split.
    - intros (f&[-> _]%range_lookup&Ho). by rewrite N2Nat.id in Ho.
    - intros Ho. exists i. split; [|done]. apply range_lookup. rewrite N2Nat.id. split; [done|].
      apply oriented_live in Ho as (y'&?&_). apply (si_fb _ _ (wf_si _ (sd_wf _ _ _ HS2))). eauto. }
  assert (∀ v, vpos <$> verts m3 !! v = ps1 !! N.to_nat v) as HP.
  { intros v. rewrite (proj1 (PS3 v)). rewrite <- (sd_pos _ _ _ HS2), N2Nat.id. done. }
  pose proof (sd_nf _ _ _ HS2) as Hnf2.
  (* a corner of the result *)
  assert (∀ t0 i, ts !! i = Some t0 → ∃ t s', S !! i = Some t ∧ same3 same t s' ∧
     let '(x, y, z) := t0 in ps1 !! N.to_nat (g x) = Some s'.1.1 ∧ ps1 !! N.to_nat (g y) = Some s'.1.2 ∧ ps1 !! N.to_nat (g z) = Some s'.2) as Htr.
  { intros [[x y] z] i Hi. destruct (Forall2_lookup_l _ _ _ _ _ H2 Hi) as ([[p q] r]&HS&Hp&Hq&Hr).
    destruct (Hcor _ _ Hi) as (Cx&Cy&Cz). cbn in Hp, Hq, Hr.
    destruct (Hpq x Cx) as (p0&p'&?&?&?), (Hpq y Cy) as (q0&q'&?&?&?), (Hpq z Cz) as (r0'&r'&?&?&?).
    exists (p, q, r), (p', q', r'). unfold same3. cbn. split_and!; try done; congruence. }
  exists m3. split; [done|]. split; [done|]. split; [done|]. split; [lia|]. split; [|split].
  - intros u v p q. rewrite !HP. intros Hu Hv Hs. apply (inj N.to_nat). by eapply Hinj.
  - intros f s (x&y&z&Ho&Hx&Hy&Hz). apply FC in Ho. destruct (sd_face _ _ _ HS2 _ _ _ _ Ho) as (t&Ht&Htt).
    destruct (HLin t Ht) as ([[x0 y0] z0]&i&Hi&->). destruct (Htr _ _ Hi) as (t&s'&HSi&Hs3&Hp&Hq&Hr).
    exists t, s'. split; [by eapply elem_of_list_lookup_2|]. split; [done|].
    rewrite HP in Hx, Hy, Hz. destruct s as [[s0 s1] s2], s' as [[s0' s1'] s2']. cbn in *.
    destruct Htt as [[= -> -> ->]|[= -> -> ->]]; [left|right]; congruence.
  - intros [HNC HND].
    pose proof (placed_sides ps ts S H2) as H2s.
    assert (∀ i e, all_sides ts !! i = Some e → ∃ d, all_sides S !! i = Some d ∧
      ∃ p q, ps1 !! N.to_nat (g e.1) = Some p ∧ ps1 !! N.to_nat (g e.2) = Some q ∧ same d.1 p ∧ same d.2 q) as Hsd.
    { intros i e Hi. destruct (Forall2_lookup_l _ _ _ _ _ H2s Hi) as (d&Hd&H1&H2').
      assert (corners_of ts e.1 ∧ corners_of ts e.2) as [C1 C2].
      { apply elem_of_list_lookup_2, elem_all_sides in Hi as ([[x y] z]&Ht&He).
        cbn in He. rewrite !elem_of_cons, elem_of_nil in He. destruct He as [->|[->|[->|[]]]]; cbn; (split; exists (x, y, z); (split; [done|tauto])). }
      exists d. split; [done|]. destruct (Hpq _ C1) as (p0&p&?&?&?), (Hpq _ C2) as (q0&q&?&?&?).
      exists p, q. split_and!; try done; congruence. }
    assert (∀ x y, (x, y) ∈ all_sides ts → g x ≠ g y) as Hnd.
    { intros x y (i&Hi)%elem_of_list_lookup E. destruct (Hsd _ _ Hi) as (d&Hd&p&q&Hp&Hq&Sp&Sq). cbn in *.
      apply (HND d); [by eapply elem_of_list_lookup_2|]. rewrite E, Hq in Hp. injection Hp as ->.
      eapply (lw_trans _ _ _ _ LW); [exact Sp|]. by apply (lw_sym _ _ _ _ LW). }
    assert (L = map3 g <$> ts) as HL.
    { unfold L. assert (Forall nondeg (map3 g <$> ts)) as Hall.
      { apply Forall_forall. intros t' Ht'. apply elem_of_list_fmap in Ht' as ([[x y] z]&->&Ht).
        cbn. split_and!; apply Hnd, elem_all_sides; exists (x, y, z); (split; [done|]); cbn; rewrite !elem_of_cons; naive_solver. }
      revert Hall. generalize (map3 g <$> ts) as l. clear. induction l as [|t l IH]; intros Hl; [done|].
      apply Forall_cons in Hl as [Ht Hl]. rewrite filter_cons, decide_True by done. by rewrite IH. }
    assert (NoDup (all_sides L)) as HNL.
    { rewrite HL, all_sides_map. apply NoDup_alt. intros i j e Hi Hj. rewrite list_lookup_fmap in Hi, Hj.
      destruct (all_sides ts !! i) as [[x y]|] eqn:Ei; [|done]. destruct (all_sides ts !! j) as [[x' y']|] eqn:Ej; [|done].
      cbn in Hi, Hj. injection Hi as <-. injection Hj as E1 E2'.
      destruct (Hsd _ _ Ei) as (d&Hd&p&q&Hp&Hq&Sp&Sq), (Hsd _ _ Ej) as (d'&Hd'&p'&q'&Hp'&Hq'&Sp'&Sq'). cbn in *.
      rewrite E1, Hp in Hp'. injection Hp' as <-. rewrite E2', Hq in Hq'. injection Hq' as <-.
      apply (HNC i j d d'); try done; (eapply (lw_trans _ _ _ _ LW); [eassumption|]; by apply (lw_sym _ _ _ _ LW)). }
    destruct (add_tris_ok L r0 ps1 [] B0 HG) as (m2' & E2' & HB2); [done|change ([] ++ L) with L; lia|].
    rewrite E2 in E2'. injection E2' as <-. cbn [app] in HB2.
    pose proof (bl_nf _ _ _ HB2) as Hnf. rewrite HL, fmap_length in Hnf.
    split; [lia|]. split.
    + intros i t Ht. destruct (Forall2_lookup_r _ _ _ _ _ H2 Ht) as (t0&Ht0&_).
      destruct (Htr _ _ Ht0) as (t'&s'&Ht'&Hs&Hp). rewrite Ht in Ht'. injection Ht' as <-. exists s'. split; [|done].
      destruct t0 as [[x y] z]. exists (g x), (g y), (g z). rewrite FC, !HP. split; [|done].
      apply (bl_face _ _ _ HB2). rewrite HL, list_lookup_fmap, Ht0. done.
    + intros v Hv. rewrite PN3, (sd_nv _ _ _ HS2) in Hv.
      destruct (lookup_lt_is_Some_2 kept (N.to_nat v)) as [w Hw]; [lia|].
      assert (corners_of (map3 o <$> ts) w) as Hcw by (apply Kin; by eapply elem_of_list_lookup_2).
      assert (rk w = v) as Erk.
      { apply (inj N.to_nat). eapply (NoDup_lookup kept); [by apply sorted_NoDup|by apply Krk|done]. }
      destruct Hcw as (t&Ht&Hwt). apply elem_of_list_fmap in Ht as ([[x y] z]&->&(i&Hi)%elem_of_list_lookup).
      exists (N.of_nat i), (g x), (g y), (g z). split.
      * apply FC, (bl_face _ _ _ HB2). rewrite HL, list_lookup_fmap, Hi. done.
      * subst v. unfold g. cbn in Hwt. destruct Hwt as [->|[->| ->]]; auto.
Qed.
End merge.
End asm.
