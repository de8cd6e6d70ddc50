(** remove_unused_vertices against the specification. *)
From Coq Require Export Sorting.Sorted.
From Verif Require Export MeshCompactModel MeshOps.
Local Open Scope N_scope.

Lemma range_sorted n : StronglySorted N.lt (range n).
Proof.
  unfold range. generalize (N.to_nat n) as k, 0%nat as s. clear n.
  induction k as [|k IH]; intros s; cbn; constructor; [apply IH|].
  apply Forall_forall. intros x (y & -> & ?%elem_of_seq)%elem_of_list_fmap. lia.
Qed.

Lemma filter_sorted (Q : N → Prop) `{!∀ x, Decision (Q x)} l :
  StronglySorted N.lt l → StronglySorted N.lt (filter Q l).
Proof.
  induction 1 as [|x l Hs IH Hf]; [constructor|]. rewrite filter_cons.
  destruct (decide (Q x)); [|done]. constructor; [done|].
  rewrite Forall_forall in *. intros y [_ Hy]%elem_of_list_filter. auto.
Qed.

Lemma sorted_NoDup l : StronglySorted N.lt l → NoDup l.
Proof.
  induction 1 as [|x l Hs IH Hf]; constructor; [|done].
  rewrite Forall_forall in Hf. intros Hx. specialize (Hf x Hx). lia.
Qed.

Section compact.
Context {P : Type}.
Implicit Types (m new : mesh P) (f v : N).

Lemma face_vertices_ok m f a b c : WF m → oriented_face m f a b c → face_vertices m f = Some (a, b, c).
Proof.
  intros HW Ho. pose proof (wf_si _ HW) as HS. apply oriented_face_L in Ho as (e&Ef&HL&Hf&<-&<-&<-); [|done].
  destruct (face3 m HS _ _ HL Hf) as (L1&L2&F1&F2&N1&N2&N3&N4&T1&T2&T3&_).
  unfold face_vertices, getF. rewrite Ef. cbn [mbind option_bind fhe].
  rewrite (L_getH m _ HL). cbn [mbind option_bind]. fold (nx m e) (pv m e).
  rewrite (L_getH m _ L1), (L_getH m _ L2). cbn [mbind option_bind].
  fold (hd m (pv m e)) (hd m e) (hd m (nx m e)). 
  destruct (In_pv m HS e) as (_&_&E); [split; [done|by rewrite Hf]|]. unfold tl. by rewrite E.
Qed.

Global Instance live_face_dec m f : Decision (live_face m f).
Proof.
  destruct (faces m !! f) as [x|] eqn:E.
  - destruct (frem x) eqn:R; [right|left].
    + intros (y & ? & ?). congruence.
    + by exists x.
  - right. intros (y & ? & ?). congruence.
Defined.

Lemma ruv_mark_ok m fs : WF m → Forall (λ f, f < nfaces m) fs → ∀ used, ∃ used',
  ruv_mark m fs used = Some used' ∧
  ∀ v, v ∈ used' ↔ v ∈ used ∨ ∃ f a b c, f ∈ fs ∧ oriented_face m f a b c ∧ (v = a ∨ v = b ∨ v = c).
Proof.
  intros HW. pose proof (wf_si _ HW) as HS. induction 1 as [|f fs Hf Hfs IH]; intros used.
  { exists used. split; [done|]. intros v. split; [auto|]. intros [?|(?&?&?&?&[]%not_elem_of_nil&_)]. done. }
  cbn [ruv_mark]. apply (si_fb _ _ HS) in Hf as [x Ex]. unfold getF at 1. rewrite Ex. cbn [mbind option_bind].
  destruct (frem x) eqn:R.
  - destruct (IH used) as (used' & -> & Hu). exists used'. split; [done|]. intros v. rewrite Hu.
    split; (intros [?|(g&a&b&c&Hg&Ho&?)]; [by left|right; exists g, a, b, c]).
    + split_and!; try done. by right.
    + split_and!; try done. apply elem_of_cons in Hg as [->|?]; [|done].
      apply oriented_live in Ho as (y&?&?). congruence.
  - destruct (live_oriented m f HW) as (a&b&c&Ho); [by exists x|].
    rewrite (face_vertices_ok m f a b c HW Ho). cbn [mbind option_bind].
    destruct (oriented_distinct m f a b c HS Ho) as (_&_&_&Ha&Hb&Hc).
    rewrite (proj2 (N.ltb_lt _ _) Ha), (proj2 (N.ltb_lt _ _) Hb), (proj2 (N.ltb_lt _ _) Hc).
    cbn [andb assertb mbind option_bind].
    destruct (IH ({[a]} ∪ {[b]} ∪ {[c]} ∪ used)) as (used' & -> & Hu). exists used'. split; [done|].
    intros v. rewrite Hu. rewrite !elem_of_union, !elem_of_singleton. split.
    + intros [[[[?|?]|?]|?]|(g&a'&b'&c'&Hg&Ho'&?)]; [right; exists f, a, b, c..|by left|right; exists g, a', b', c'];
        try (split_and!; [by left|done|tauto]). split_and!; try done. by right.
    + intros [?|(g&a'&b'&c'&Hg&Ho'&Hv)]; [tauto|]. apply elem_of_cons in Hg as [->|?].
      * destruct (oriented_fun m f a b c a' b' c' HS Ho Ho') as (<-&<-&<-). tauto.
      * right. exists g, a', b', c'. done.
Qed.

Lemma ruv_number_ok m used vs : NoDup vs → Forall (λ v, is_Some (verts m !! v)) vs → ∀ k, ∃ ps mp,
  ruv_number m used vs k = Some (ps, mp) ∧
  Forall2 (λ v p, vpos <$> verts m !! v = Some p) (filter (λ v, v ∈ used) vs) ps ∧
  ∀ v i, mp !! v = Some i ↔ k ≤ i ∧ filter (λ v, v ∈ used) vs !! N.to_nat (i - k) = Some v.
Proof.
  intros Hn Hs. induction vs as [|v vs IH]; intros k.
  { exists [], ∅. split; [done|]. split; [constructor|]. intros v i. rewrite lookup_empty. split; [done|]. intros [_ ?]. done. }
  apply NoDup_cons in Hn as [Hv Hn]. apply Forall_cons in Hs as [[x Ex] Hs]. specialize (IH Hn Hs).
  cbn [ruv_number]. unfold getV. rewrite Ex. cbn [mbind option_bind]. rewrite filter_cons.
  case_bool_decide as D.
  - destruct (IH (k + 1)) as (ps & mp & -> & H2 & Hmp). cbn [mbind option_bind fst snd].
    exists (vpos x :: ps), (<[v := k]> mp). split; [done|]. rewrite decide_True by done.
    split; [constructor; [by rewrite Ex|done]|]. intros u i.
    rewrite lookup_insert_Some, Hmp. split.
    + intros [[-> ->]|(Hne&Hk&E)].
      * split; [lia|]. by rewrite N.sub_diag.
      * split; [lia|]. replace (N.to_nat (i - k)) with (S (N.to_nat (i - (k + 1)))) by lia. done.
    + intros [Hk E]. destruct (decide (i = k)) as [->|Hi].
      * left. rewrite N.sub_diag in E. split; [|done]. cbn in E. congruence.
      * right. replace (N.to_nat (i - k)) with (S (N.to_nat (i - (k + 1)))) in E by lia. cbn in E.
        split; [|split; [lia|done]]. intros <-. apply Hv.
        apply elem_of_list_lookup_2, elem_of_list_filter in E. tauto.
  - rewrite decide_False by done. apply IH.
Qed.

Lemma ruv_vertices_ok ps : ∀ new, WF new → nfaces new = 0 → nhes new = 0 →
  nverts new + N.of_nat (length ps) ≤ umax →
  ∃ new', ruv_vertices ps new = Some new' ∧ WF new' ∧ nfaces new' = 0 ∧ nhes new' = 0 ∧
    nverts new' = nverts new + N.of_nat (length ps) ∧
    (∀ i, i < nverts new → verts new' !! i = verts new !! i) ∧
    ∀ i p, ps !! i = Some p → vpos <$> verts new' !! (nverts new + N.of_nat i) = Some p.
Proof.
  induction ps as [|p ps IH]; intros new HW H0 H1 Hl; cbn [length ruv_vertices] in *.
  { exists new. split_and!; try done; lia. }
  destruct (add_vertex_ok new p HW) as (n1 & v & -> & [HW1 [-> Hn] [Hp _] Hold _ [Hh Hf]]); [lia|].
  cbn [mbind option_bind fst].
  destruct (IH n1 HW1) as (n2 & -> & HW2 & ? & ? & Hn2 & Ho2 & Hp2); [congruence|congruence|lia|].
  exists n2. split_and!; try done; [lia| |].
  - intros i Hi. rewrite Ho2 by lia. apply Hold. lia.
  - intros [|i] q; cbn.
    + intros [= <-]. rewrite N.add_0_r, Ho2 by lia. done.
    + intros E%Hp2. rewrite Hn in E. by replace (nverts new + N.pos (Pos.of_succ_nat i)) with (nverts new + 1 + N.of_nat i) by lia.
Qed.

(** [done] faces of [m] copied, with vertices renumbered by their rank in [kept] *)
Record Copied m (kept copied : list N) new : Prop := {
  cp_wf : WF new;
  cp_nv : nverts new = N.of_nat (length kept);
  cp_nf : nfaces new = N.of_nat (length copied);
  cp_nh : nhes new ≤ 6 * nfaces new;
  cp_faces : ∀ i a b c, oriented_face new i a b c ↔ ∃ f u v w,
    copied !! N.to_nat i = Some f ∧ oriented_face m f u v w ∧
    kept !! N.to_nat a = Some u ∧ kept !! N.to_nat b = Some v ∧ kept !! N.to_nat c = Some w
}.

Lemma Copied_cycle m kept copied new i a b c : Copied m kept copied new →
  cycle_face new i a b c → ∃ f u v w, copied !! N.to_nat i = Some f ∧ cycle_face m f u v w ∧
    kept !! N.to_nat a = Some u ∧ kept !! N.to_nat b = Some v ∧ kept !! N.to_nat c = Some w.
Proof.
  intros HC [H|[H|H]]; apply (cp_faces _ _ _ _ HC) in H as (f&u&v&w&?&?&?&?&?).
  - exists f, u, v, w. split_and!; try done. by left.
  - exists f, w, u, v. split_and!; try done. right; by left.
  - exists f, v, w, u. split_and!; try done. right; by right.
Qed.

Lemma Copied_step m kept copied new f a b c u v w : WF m → Copied m kept copied new → NoDup kept →
  f ∉ copied → oriented_face m f u v w →
  kept !! N.to_nat a = Some u → kept !! N.to_nat b = Some v → kept !! N.to_nat c = Some w →
  6 * N.of_nat (length copied) + 6 ≤ umax →
  ∃ new' i, add_triangle new a b c = Some (new', i) ∧ Copied m kept (copied ++ [f]) new' ∧
    ∀ x, vpos <$> verts new' !! x = vpos <$> verts new !! x.
Proof.
  intros HW HC Hnd Hf Ho Ea Eb Ec Hsz. pose proof (wf_si _ HW) as HS.
  destruct (oriented_distinct m f u v w HS Ho) as (N1&N2&N3&_).
  pose proof HC as [HWn Hnv Hnf Hnh Hof]. pose proof (wf_si _ HWn) as HSn.
  pose proof (lookup_lt_Some _ _ _ Ea). pose proof (lookup_lt_Some _ _ _ Eb). pose proof (lookup_lt_Some _ _ _ Ec).
  assert (∀ a' b' u' v' w', cycle_face m f u' v' w' → kept !! N.to_nat a' = Some u' → kept !! N.to_nat b' = Some v' →
    ¬ side_used new a' b') as Hfree.
  { intros a' b' u' v' w' Hc Ea' Eb' (g & c' & Hg). destruct (Copied_cycle _ _ _ _ _ _ _ _ HC Hg) as (f'&u''&v''&w''&Ef'&Hc'&?&?&?).
    assert (u'' = u') as -> by congruence. assert (v'' = v') as -> by congruence.
    destruct (side_unique m f f' u' v' w' w'' HW Hc Hc') as [<- _].
    apply Hf. by eapply elem_of_list_lookup_2. }
  assert (¬ side_used new a b ∧ ¬ side_used new b c ∧ ¬ side_used new c a) as Hccw.
  { split_and!.
    - apply (Hfree a b u v w); try done. by left.
    - apply (Hfree b c v w u); try done. right; by right.
    - apply (Hfree c a w u v); try done. right; by left. }
  destruct (add_triangle_ok new a b c HWn) as (new' & i & E & Hp); try lia.
  1-3: intros ->; congruence.
  exists new', i. split; [done|].
  destruct Hp as [[_ Hp]|[(?&_)|(?&_)]]; [|done..].
  apply AddPost_Added in Hp as [HW' [-> Hn'] Hface Hrest [Hnv' Hpos] Hsize]; [|done].
  split; [|intros x; apply Hpos]. split; [done|lia| | |].
  - rewrite app_length. cbn [length]. lia.
  - lia.
  - intros j a' b' c'. destruct (decide (j = nfaces new)) as [->|Hj].
    + rewrite Hnf, Nat2N.id. rewrite lookup_app_r, Nat.sub_diag by lia. cbn. split.
      * intros Ho'. rewrite Hnf in Hface.
        destruct (oriented_fun new' _ _ _ _ _ _ _ (wf_si _ HW') Hface Ho') as (<-&<-&<-).
        exists f, u, v, w. done.
      * intros (f'&u'&v'&w'&[= <-]&Ho'&Ea'&Eb'&Ec').
        destruct (oriented_fun m f _ _ _ _ _ _ HS Ho Ho') as (<-&<-&<-).
        assert (∀ x y z, kept !! N.to_nat x = Some z → kept !! N.to_nat y = Some z → x = y) as Hinj.
        { intros x y z Hx Hy. apply N2Nat.inj. by apply (NoDup_lookup kept _ _ z). }
        rewrite (Hinj a' a u), (Hinj b' b v), (Hinj c' c w) by done. by rewrite <- Hnf.
    + rewrite (Hrest j a' b' c' Hj), Hof. split; intros (f'&u'&v'&w'&Hl&?); exists f', u', v', w'; (split; [|done]).
      * by apply lookup_app_l_Some.
      * apply lookup_app_Some in Hl as [?|[Hge Hl]]; [done|].
        assert (N.to_nat j - length copied < 1)%nat by (apply lookup_lt_Some in Hl; exact Hl). lia.
Qed.

Lemma ruv_faces_ok m kept mp : WF m → NoDup kept →
  (∀ v i, mp !! v = Some i ↔ kept !! N.to_nat i = Some v) →
  (∀ f a b c, oriented_face m f a b c → a ∈ kept ∧ b ∈ kept ∧ c ∈ kept) →
  ∀ fs copied new, Forall (λ f, f < nfaces m) fs → NoDup fs → (∀ f, f ∈ copied → f ∉ fs) →
  Copied m kept copied new → 6 * N.of_nat (length copied + length fs) ≤ umax →
  ∃ new', ruv_faces m mp fs new = Some new' ∧ Copied m kept (copied ++ filter (live_face m) fs) new' ∧
    ∀ x, vpos <$> verts new' !! x = vpos <$> verts new !! x.
Proof.
  intros HW Hk Hmp Hall. pose proof (wf_si _ HW) as HS.
  induction fs as [|f fs IH]; intros copied new Hfs Hnd Hdis HC Hsz.
  { exists new. rewrite app_nil_r. done. }
  apply Forall_cons in Hfs as [Hf Hfs]. apply NoDup_cons in Hnd as [Hff Hnd].
  cbn [ruv_faces length] in *. apply (si_fb _ _ HS) in Hf as [x Ex]. unfold getF at 1. rewrite Ex. cbn [mbind option_bind].
  rewrite filter_cons. destruct (frem x) eqn:R.
  - rewrite decide_False. 2:{ intros (y&?&?). congruence. }
    apply IH; try done; [|lia]. intros g Hg ?. apply (Hdis g Hg). by right.
  - assert (live_face m f) as Hlf by (by exists x). rewrite decide_True by done.
    destruct (live_oriented m f HW Hlf) as (u&v&w&Ho).
    rewrite (face_vertices_ok m f u v w HW Ho). cbn [mbind option_bind].
    destruct (Hall f u v w Ho) as (Hu&Hv&Hw).
    assert (∀ z, z ∈ kept → ∃ i, mp !! z = Some i ∧ kept !! N.to_nat i = Some z) as Hnum.
    { intros z (i & Ei)%elem_of_list_lookup. exists (N.of_nat i). rewrite Hmp, Nat2N.id. done. }
    destruct (Hnum u Hu) as (a&->&Ea), (Hnum v Hv) as (b&->&Eb), (Hnum w Hw) as (c&->&Ec).
    cbn [mbind option_bind].
    destruct (oriented_distinct m f u v w HS Ho) as (N1&N2&N3&_).
    rewrite (proj2 (N.eqb_neq a b)), (proj2 (N.eqb_neq b c)), (proj2 (N.eqb_neq c a)) by (intros ->; congruence).
    cbn [negb andb].
    destruct (Copied_step m kept copied new f a b c u v w) as (n1 & i & E & HC1 & Hp1); try done; [|lia|].
    { intros Hin. apply (Hdis f Hin). by left. }
    rewrite E. cbn [mbind option_bind fst].
    destruct (IH (copied ++ [f]) n1) as (n2 & -> & HC2 & Hp2); try done.
    + intros g [Hg| ->%elem_of_list_singleton]%elem_of_app; [|done]. intros ?. apply (Hdis g Hg). by right.
    + rewrite app_length. cbn [length]. lia.
    + exists n2. split; [done|]. rewrite <- app_assoc in HC2. split; [done|]. intros y. by rewrite Hp2.
Qed.

Theorem remove_unused_vertices_ok m : WF m → 6 * nfaces m ≤ umax →
  ∃ m' kept lfs, remove_unused_vertices m = Some m' ∧
    StronglySorted N.lt kept ∧ StronglySorted N.lt lfs ∧
    (∀ v, v ∈ kept ↔ ∃ f a b c, oriented_face m f a b c ∧ (v = a ∨ v = b ∨ v = c)) ∧
    (∀ f, f ∈ lfs ↔ live_face m f) ∧
    Copied m kept lfs m' ∧
    ∀ i v, kept !! i = Some v → is_Some (verts m !! v) ∧
      vpos <$> verts m' !! N.of_nat i = vpos <$> verts m !! v.
Proof.
  intros HW Hsz. pose proof (wf_si _ HW) as HS. unfold remove_unused_vertices.
  assert (Forall (λ f, f < nfaces m) (range (nfaces m))) as Hr.
  { apply Forall_forall. intros f. by rewrite range_spec. }
  destruct (ruv_mark_ok m (range (nfaces m)) HW Hr ∅) as (used & -> & Hu). cbn [mbind option_bind].
  assert (Forall (λ v, is_Some (verts m !! v)) (range (nverts m))) as Hv.
  { apply Forall_forall. intros v. rewrite range_spec. apply (si_vb _ _ HS). }
  pose proof (sorted_NoDup _ (range_sorted (nverts m))) as Hnv.
  destruct (ruv_number_ok m used (range (nverts m)) Hnv Hv 0) as (ps & mp & -> & H2 & Hmp).
  set (kept := filter (λ v, v ∈ used) (range (nverts m))) in *. cbn [mbind option_bind fst snd].
  assert (StronglySorted N.lt kept) as Hks by (apply filter_sorted, range_sorted).
  pose proof (sorted_NoDup _ Hks) as Hkn.
  pose proof (Forall2_length _ _ _ H2) as Hlen.
  assert (length kept ≤ N.to_nat (nverts m))%nat as Hle.
  { rewrite <- range_length. unfold kept. apply filter_length. }
  destruct (ruv_vertices_ok ps mesh_new mesh_new_WF eq_refl eq_refl) as (n1 & -> & HW1 & Hf1 & Hh1 & Hn1 & _ & Hp1).
  { pose proof (si_vmax _ _ HS). cbn. lia. }
  cbn [mbind option_bind]. rewrite N.add_0_l in Hn1.
  assert (∀ v, v ∈ kept ↔ ∃ f a b c, oriented_face m f a b c ∧ (v = a ∨ v = b ∨ v = c)) as Hkept.
  { intros v. unfold kept. rewrite elem_of_list_filter, Hu, range_spec. split.
    - intros [[[]%not_elem_of_empty|(f&a&b&c&_&?)] _]. by exists f, a, b, c.
    - intros (f&a&b&c&Ho&Hva). destruct (oriented_distinct m f a b c HS Ho) as (_&_&_&?&?&?). split.
      + right. exists f, a, b, c. split; [|done]. apply range_spec, (si_fb _ _ HS).
        apply oriented_live in Ho as (x&?&_). eauto.
      + destruct Hva as [->|[->| ->]]; done. }
  destruct (ruv_faces_ok m kept mp HW Hkn) with (fs := range (nfaces m)) (copied := @nil N) (new := n1)
    as (n2 & -> & HC & Hp2).
  - intros v i. rewrite Hmp, N.sub_0_r. split; [intros [_ ?]; done|intros ?; split; [lia|done]].
  - intros f a b c Ho. rewrite !Hkept. split_and!; exists f, a, b, c; auto.
  - done.
  - apply sorted_NoDup, range_sorted.
  - intros f []%not_elem_of_nil.
  - split; [done|lia| |lia|].
    + cbn. lia.
    + intros i a b c. split; [|by intros (?&?&?&?&?&_)]. intros Ho%oriented_live. exfalso.
      destruct Ho as (x&Hx&_). assert (i < nfaces n1); [|lia]. apply (si_fb _ _ (wf_si _ HW1)). eauto.
  - cbn [length]. rewrite range_length. lia.
  - exists n2, kept, (filter (live_face m) (range (nfaces m))). split_and!; try done.
    + apply filter_sorted, range_sorted.
    + intros f. rewrite elem_of_list_filter, range_spec. split; [by intros []|]. intros Hf. split; [done|].
      destruct Hf as (x&Hx&_). apply (si_fb _ _ HS). eauto.
    + intros i v E. split.
      * apply elem_of_list_lookup_2, elem_of_list_filter in E as [_ E]. apply (si_vb _ _ HS). by apply range_spec.
      * rewrite Hp2. destruct (Forall2_lookup_l _ _ _ _ _ H2 E) as (p & Ep & Evp). rewrite Evp.
        apply Hp1 in Ep. done.
Qed.
End compact.
