(** The connectivity checker, face queries and the collapse link condition on
    well-formed meshes. *)
From Verif Require Export MeshQuery.
Local Open Scope N_scope.

Section query2.
Context {P : Type}.
Implicit Types (m : mesh P) (h k b c f g u v e t : N).

Lemma for_all_ok l chk : (∀ i, i ∈ l → chk i = Some tt) → for_all l chk = Some tt.
Proof.
  induction l as [|i l IH]; intros H; [done|]. cbn. rewrite H by left. cbn. apply IH. intros; apply H; by right.
Qed.

Section wf.
Context m (HW : WF m).
Let HS : SI m None := wf_si _ HW.

Lemma fuel_3 : ∀ h, L m h → fc m h ≠ None → ∃ k : nat, fuel_of m = S (S (S (S k))).
Proof.
  intros h HL Hf. destruct (fc m h) as [f|] eqn:E; [|done].
  destruct (face3 m HS h f HL E) as (L1&L2&_&_&_&_&_&_&_&_&_&D1&D2&D3).
  assert (length [h; nx m h; pv m h] ≤ N.to_nat (nhes m))%nat as Hl.
  { apply (nodup_bound (λ h, L m h)).
    - intros k. by apply L_lt.
    - repeat (apply NoDup_cons; split); [| | |constructor]; rewrite ?elem_of_cons, ?elem_of_nil; naive_solver.
    - by rewrite !Forall_cons. }
  cbn in Hl. unfold fuel_of. destruct (N.to_nat (nhes m)) as [|[|[|k]]]; [lia..|]. by exists k.
Qed.

Lemma check_he_ok i : i < nhes m → check_he m i = Some tt.
Proof.
  intros Hi. apply (si_hb _ _ HS) in Hi as [x Hx]. unfold check_he. assert (getH m i = Some x) as -> by exact Hx. cbn [mbind option_bind].
  destruct (hrem x) eqn:Hr; [done|].
  assert (L m i) as HL by (by eapply L_intro). pose proof (L_getH m i HL) as Hg. unfold getH in Hg.
  rewrite Hx in Hg. injection Hg as ->.
  fold (nx m i) (pv m i) (tw m i) (fc m i).
  destruct (next_L m HW i HL) as (HLn&En&_&_). destruct (prev_L m HW i HL) as (HLp&Ep&_&_).
  destruct (si_tw _ _ HS i HL) as (HLt&Et&_).
  rewrite (L_getH m _ HLn). cbn [mbind option_bind]. fold (pv m (nx m i)). rewrite En, N.eqb_refl. cbn [mbind option_bind assertb].
  rewrite (L_getH m _ HLp). cbn [mbind option_bind]. fold (nx m (pv m i)). rewrite Ep, N.eqb_refl. cbn [mbind option_bind assertb].
  rewrite (L_getH m _ HLt). cbn [mbind option_bind]. fold (tw m (tw m i)). rewrite Et, N.eqb_refl. cbn [mbind option_bind assertb].
  destruct (fc m i) as [f|] eqn:Ef; [|done].
  destruct (face_live m HW i f HL Ef) as (y&Hy&Hyr). unfold getF. rewrite Hy. cbn [mbind option_bind].
  destruct (wf_fh _ HW f y Hy Hyr ltac:(done)) as (HLe&Hfe&Hcyc).
  destruct (fuel_3 i HL) as [k ->]; [by rewrite Ef|].
  set (e := fhe y) in *. destruct (face3 m HS e f HLe Hfe) as (L1&L2&F1&F2&N1&N2&N3&N4&_&_&_&D1&D2&D3).
  cbn [in_face_loop]. destruct (N.eqb_spec e i) as [|Hne]; [done|].
  rewrite (L_getH m e HLe). cbn [mbind option_bind]. fold (nx m e).
  destruct (N.eqb_spec (nx m e) e); [done|]. cbn [mbind option_bind assertb negb].
  destruct (N.eqb_spec (nx m e) i) as [|Hne1]; [done|].
  rewrite (L_getH m _ L1). cbn [mbind option_bind]. fold (nx m (nx m e)). rewrite N1.
  destruct (N.eqb_spec (pv m e) e); [done|]. cbn [mbind option_bind assertb negb].
  destruct (N.eqb_spec (pv m e) i) as [|Hne2]; [done|].
  exfalso. destruct (Hcyc i HL Ef) as [?|[?|?]]; congruence.
Qed.

Lemma check_dup_ok l : ∀ seen, NoDup l → (∀ i, i ∈ l → i < nhes m) →
  (∀ u v i, (u, v) ∈ seen → i ∈ l → L m i → ¬ (tl m i = u ∧ hd m i = v)) →
  check_dup m l seen = Some tt.
Proof.
  induction l as [|i l IH]; intros seen HN Hl Hs; [done|]. apply NoDup_cons in HN as [Hni HN].
  cbn [check_dup]. assert (i < nhes m) as Hi by (apply Hl; left).
  apply (si_hb _ _ HS) in Hi as [x Hx]. assert (getH m i = Some x) as -> by exact Hx. cbn [mbind option_bind].
  destruct (hrem x) eqn:Hr.
  { apply IH; [done|intros; apply Hl; by right|]. intros u v j ??. eapply Hs; [done|by right]. }
  assert (L m i) as HL by (by eapply L_intro). pose proof (L_getH m i HL) as Hg. unfold getH in Hg.
  rewrite Hx in Hg. injection Hg as ->. fold (pv m i). destruct (prev_L m HW i HL) as (HLp&_&Ep&_).
  rewrite (L_getH m _ HLp). cbn [mbind option_bind]. fold (hd m (pv m i)) (hd m i). rewrite Ep.
  rewrite bool_decide_false.
  2: { intros Hin. by apply (Hs _ _ i Hin); [left|..]. }
  cbn [mbind option_bind assertb negb]. apply IH; [done|intros; apply Hl; by right|].
  intros u v j Huv Hj HLj [Et Eh]. apply elem_of_union in Huv as [Huv|Huv].
  - apply elem_of_singleton in Huv. injection Huv as -> ->.
    apply Hni. assert (i = j) as -> by (by apply (em_inj m None)). done.
  - by apply (Hs u v j Huv); [right|..].
Qed.

Lemma NoDup_range n : NoDup (range n).
Proof. unfold range. apply NoDup_fmap_2_strong; [|apply NoDup_seq]. intros. lia. Qed.

Lemma validate_half_edges_ok : validate_half_edges m = Some tt.
Proof.
  apply check_dup_ok; [apply NoDup_range|intros i; by rewrite range_spec|].
  intros u v i []%elem_of_empty.
Qed.

Lemma check_face_ok f : f < nfaces m → check_face m f = Some tt.
Proof.
  intros Hf. apply (si_fb _ _ HS) in Hf as [y Hy]. unfold check_face, getF. rewrite Hy. cbn [mbind option_bind].
  destruct (frem y) eqn:Hr; [done|]. destruct (wf_fh _ HW f y Hy Hr ltac:(done)) as (HLe&Hfe&_).
  destruct (fuel_3 _ HLe) as [k ->]; [by rewrite Hfe|].
  set (e := fhe y) in *. destruct (face3 m HS e f HLe Hfe) as (L1&L2&F1&F2&N1&N2&N3&N4&_&_&_&D1&D2&D3).
  cbn [face_loop].
  rewrite (L_getH m e HLe). cbn [mbind option_bind]. fold (nx m e) (fc m e). rewrite Hfe, bool_decide_true by done.
  cbn [mbind option_bind assertb]. destruct (N.eqb_spec (nx m e) e); [done|].
  rewrite (L_getH m _ L1). cbn [mbind option_bind]. fold (nx m (nx m e)) (fc m (nx m e)). rewrite F1, bool_decide_true by done.
  cbn [mbind option_bind assertb]. rewrite N1. destruct (N.eqb_spec (pv m e) e); [done|].
  rewrite (L_getH m _ L2). cbn [mbind option_bind]. fold (nx m (pv m e)) (fc m (pv m e)). rewrite F2, bool_decide_true by done.
  cbn [mbind option_bind assertb]. by rewrite N2, N.eqb_refl.
Qed.

Lemma check_vertex_ok v : v < nverts m → check_vertex m v = Some tt.
Proof.
  intros Hv. apply (si_vb _ _ HS) in Hv as [x Hx]. unfold check_vertex, getV. rewrite Hx. cbn [mbind option_bind].
  destruct (vhe x) as [h|] eqn:Eh; [|done]. destruct (anchor_L m HW v x h Hx Eh) as [HL Ht].
  rewrite (source_ok m HW h HL). cbn [mbind option_bind]. by rewrite Ht, N.eqb_refl.
Qed.

Lemma validate_connectivity_ok : validate_connectivity m = Some tt.
Proof.
  unfold validate_connectivity.
  rewrite (for_all_ok _ (check_he m)) by (intros i; rewrite range_spec; apply check_he_ok). cbn [mbind option_bind].
  pose proof validate_half_edges_ok as Q. unfold validate_half_edges in Q. rewrite Q. cbn [mbind option_bind].
  rewrite (for_all_ok _ (check_face m)) by (intros i; rewrite range_spec; apply check_face_ok). cbn [mbind option_bind].
  apply for_all_ok. intros i; rewrite range_spec; apply check_vertex_ok.
Qed.

(** ** Faces *)
Lemma face_half_edges_ok f a b c : oriented_face m f a b c →
  ∃ e0 e1 e2, face_half_edges m f = Some [e0; e1; e2] ∧
    runs m e0 a b ∧ runs m e1 b c ∧ runs m e2 c a ∧
    get_face_half_edges_iterative m f = Some (Some [e0; e1; e2]) ∧
    (∀ h, h ∈ [e0; e1; e2] ↔ L m h ∧ fc m h = Some f) ∧
    face_vertices m f = Some (a, b, c).
Proof.
  intros (e&Ef&HLe&Hfe&Ea&Eb&Ec)%oriented_face_L; [|done].
  destruct (face3 m HS e f HLe Hfe) as (L1&L2&F1&F2&N1&N2&N3&N4&T1&T2&T3&D1&D2&D3).
  exists e, (nx m e), (pv m e).
  split.
  { unfold face_half_edges, getF. rewrite Ef. cbn [mbind option_bind frem negb assertb fhe].
    cbn [fhe_loop]. rewrite (L_getH m e HLe). cbn [mbind option_bind]. fold (nx m e).
    destruct (N.eqb_spec (nx m e) e); [done|]. replace (3 <? 0 + 1) with false by done.
    rewrite (L_getH m _ L1). cbn [mbind option_bind]. fold (nx m (nx m e)). rewrite N1.
    destruct (N.eqb_spec (pv m e) e); [done|]. replace (3 <? 0 + 1 + 1) with false by done.
    rewrite (L_getH m _ L2). cbn [mbind option_bind]. fold (nx m (pv m e)). by rewrite N2, N.eqb_refl. }
  rewrite !runs_WF by done. split; [done|]. split; [split_and!; congruence|]. split; [split_and!; congruence|].
  split; [|split].
  - assert (∀ h, L m h → (nhes m <=? h) = false) as Hlt by (intros h ?%(L_lt m HS); by apply N.leb_gt).
    unfold get_face_half_edges_iterative, getF.
    assert (f < nfaces m) as Hf by (apply (si_fb _ _ HS); eauto). apply N.leb_gt in Hf as ->.
    rewrite Ef. cbn [mbind option_bind fhe].
    destruct (N.eqb_spec e umax) as [Eu|_]; [by apply (L_ne_umax m HS e) in Eu|].
    rewrite (L_getH m e HLe). cbn [mbind option_bind]. rewrite (L_rem m e HLe), (Hlt e HLe).
    cbn [gfh_loop]. rewrite (Hlt e HLe), (L_getH m e HLe). cbn [mbind option_bind]. fold (nx m e). rewrite (Hlt _ L1).
    destruct (N.eqb_spec (nx m e) e); [done|].
    rewrite (L_getH m _ L1). cbn [mbind option_bind]. fold (nx m (nx m e)). rewrite N1, (Hlt _ L2).
    destruct (N.eqb_spec (pv m e) e); [done|].
    rewrite (L_getH m _ L2). cbn [mbind option_bind]. fold (nx m (pv m e)). by rewrite N2, (Hlt _ HLe), N.eqb_refl.
  - intros h. rewrite !elem_of_cons, elem_of_nil. split; [intros [->|[->|[->|[]]]]; done|].
    intros [HL Hf]. destruct (face_cycle m HS e h f (wf_fh _ HW) HLe HL Hfe Hf) as [->|[->| ->]]; tauto.
  - unfold face_vertices, getF. rewrite Ef. cbn [mbind option_bind fhe].
    rewrite (L_getH m e HLe). cbn [mbind option_bind]. fold (nx m e) (pv m e).
    rewrite ?(L_getH m _ L1), ?(L_getH m _ L2). cbn [mbind option_bind].
    fold (hd m (pv m e)) (hd m e) (hd m (nx m e)). rewrite <- T3. congruence.
Qed.

Lemma share_edge_iff f g : share_edge m f g ↔
  ∃ h, L m h ∧ fc m h = Some f ∧ fc m (tw m h) = Some g.
Proof.
  split.
  - intros (u&v&w&w'&H1&H2). apply cycle_face_inv in H1 as (h&HL&Hf&Et&Eh&_); [|done].
    apply cycle_face_inv in H2 as (h'&HL'&Hf'&Et'&Eh'&_); [|done].
    exists h. split_and!; try done. assert (tw m h = h') as ->; [|done].
    destruct (si_tw _ _ HS h HL) as (HLt&Htt&_).
    apply (em_inj m None); try done; unfold tl in *; congruence.
  - intros (h&HL&Hf&Hg). destruct (si_tw _ _ HS h HL) as (HLt&Htt&_).
    exists (tl m h), (hd m h), (hd m (nx m h)), (hd m (nx m (tw m h))).
    split; [by apply cycle_face_side|]. pose proof (cycle_face_side m g (tw m h) HW HLt Hg) as Q.
    unfold tl in Q at 1. rewrite Htt in Q. done.
Qed.

Lemma adjacent_faces_ok f a b c : oriented_face m f a b c →
  ∃ l, adjacent_faces m f = Some l ∧ ∀ g, g ∈ l ↔ share_edge m f g.
Proof.
  intros Ho. destruct (face_half_edges_ok f a b c Ho) as (e0&e1&e2&_&R0&R1&R2&Hg&Hl&_).
  unfold adjacent_faces. rewrite Hg. cbn [mbind option_bind default id].
  rewrite (mapM_ok _ (λ h, fc m (tw m h))).
  2: { intros h Hh. destruct (proj1 (Hl h) Hh) as [HL _]. rewrite (L_getH m h HL). cbn [mbind option_bind]. fold (tw m h).
       pose proof (tw_L m HS h HL) as HLt. destruct (N.eqb_spec (tw m h) umax) as [E|_]; [by apply (L_ne_umax m HS) in E|].
       rewrite (proj2 (N.ltb_lt _ _) (L_lt m HS _ HLt)). cbn [negb andb]. by rewrite (L_getH m _ HLt). }
  cbn [mbind option_bind]. eexists. split; [done|]. intros g. rewrite elem_of_list_filter, elem_of_list_omap, share_edge_iff.
  split.
  - intros (_&o&Ho'&Eo). unfold id in Eo. subst o. apply elem_of_list_fmap in Ho' as (h&Eh&Hh).
    destruct (proj1 (Hl h) Hh). eauto.
  - intros (h&HL&Hf&Ht). split.
    + intros ->. by apply (no_self_glue m HS h f (wf_fh _ HW) HL Hf).
    + exists (Some g). split; [|done]. apply elem_of_list_fmap. exists h. split; [done|].
      by apply Hl.
Qed.

Lemma are_faces_adjacent_ok f g : live_face m f → live_face m g →
  ∃ r : bool, are_faces_adjacent m f g = Some r ∧ (r = true ↔ share_edge m f g).
Proof.
  intros Hf Hg. destruct (live_oriented m f HW Hf) as (a&b&c&Ho). destruct (live_oriented m g HW Hg) as (a'&b'&c'&Ho').
  destruct (face_half_edges_ok f _ _ _ Ho) as (e0&e1&e2&E&_&_&_&_&Hl&_).
  destruct (face_half_edges_ok g _ _ _ Ho') as (e0'&e1'&e2'&E'&_&_&_&_&Hl'&_).
  unfold are_faces_adjacent. rewrite E, E'. cbn [mbind option_bind].
  rewrite (mapM_ok _ (he m)) by (intros h Hh; apply L_getH; by apply Hl).
  cbn [mbind option_bind]. eexists. split; [done|]. rewrite share_edge_iff, existsb_exists. split.
  - intros (x&Hx&Hb). apply elem_of_list_In, elem_of_list_fmap in Hx as (h&->&Hh).
    apply existsb_exists in Hb as (h'&Hh'&Eh%N.eqb_eq). apply elem_of_list_In in Hh'.
    fold (tw m h) in Eh. subst h'. apply Hl in Hh as [? ?]. apply Hl' in Hh' as [? ?]. eauto.
  - intros (h&HL&Hfh&Hgh). exists (he m h). split.
    + apply elem_of_list_In, elem_of_list_fmap. exists h. split; [done|]. by apply Hl.
    + apply existsb_exists. exists (tw m h). split; [|by apply N.eqb_eq].
      apply elem_of_list_In, Hl'. split; [by apply tw_L|done].
Qed.

(** ** Edge look-ups *)
Lemma half_edge_between_ok u v h : half_edge_between m u v = Some h ↔ runs m h u v.
Proof. unfold half_edge_between. rewrite (si_em _ _ HS), runs_WF by done. unfold tl. tauto. Qed.

Lemma are_vertices_connected_ok u v :
  are_vertices_connected m u v = true ↔ registered m u v.
Proof.
  unfold are_vertices_connected. rewrite orb_true_iff. rewrite !(registered_sides m) by done.
  assert (∀ u v, is_some (emap m !! (u, v)) = true ↔ registered m u v) as Hr.
  { intros u' v'. unfold registered. setoid_rewrite <- half_edge_between_ok. unfold half_edge_between.
    destruct (emap m !! (u', v')); cbn; naive_solver. }
  rewrite !Hr, !(registered_sides m) by done. tauto.
Qed.

Lemma edge_half_edges_ok u v h h' : edge_half_edges m u v = Some (Some (h, h')) ↔ runs m h u v ∧ runs m h' v u.
Proof.
  unfold edge_half_edges. rewrite !runs_WF by done. split.
  - destruct (emap m !! (u, v)) as [k|] eqn:E; [|done]. apply (si_em _ _ HS) in E as (HL&Eh&Et).
    rewrite (L_getH m k HL). cbn. fold (tw m k). intros Q; injection Q as <- <-.
    destruct (si_tw _ _ HS k HL) as (HLt&Htt&_). unfold tl. rewrite Htt. done.
  - intros ((HL&Et&Eh)&(HL'&Et'&Eh')). rewrite (proj2 (si_em _ _ HS u v h)) by done.
    rewrite (L_getH m h HL). cbn. fold (tw m h). do 3 f_equal.
    destruct (si_tw _ _ HS h HL) as (HLt&Htt&_).
    apply (em_inj m None); try done; unfold tl in *; congruence.
Qed.

Lemma canonical_edge_ok h u v : runs m h u v →
  canonical_edge_indices m h = Some (Some (N.min u v, N.max u v)).
Proof.
  rewrite runs_WF by done. intros (HL&<-&<-). unfold canonical_edge_indices.
  rewrite (proj2 (N.leb_gt _ _) (L_lt m HS h HL)), (L_getH m h HL). cbn [mbind option_bind]. fold (tw m h).
  pose proof (tw_L m HS h HL) as HLt.
  rewrite (proj2 (N.leb_gt _ _) (L_lt m HS _ HLt)), (L_getH m _ HLt). cbn [mbind option_bind].
  fold (hd m (tw m h)) (hd m h). unfold tl.
  destruct (N.leb_spec (hd m (tw m h)) (hd m h)); do 3 f_equal; lia.
Qed.

(** ** Vertex queries when the faces at the vertex form one fan *)
Lemma one_fan_all v x h0 : verts m !! v = Some x → vhe x = Some h0 → one_fan m v →
  ∀ h, same_fan m h0 h ↔ ∃ w, runs m h v w.
Proof.
  intros Hx Hh Hone h. destruct (anchor_L m HW v x h0 Hx Hh) as [HL0 Ht0]. split.
  - intros Hsf. destruct (outgoing_ok m HW v x h0 Hx Hh) as (l&_&_&Hl&Hin).
    apply Hin, Hl in Hsf as [HL Ht]. exists (hd m h). by apply runs_WF.
  - intros [w Hr]. eapply Hone; [|done]. apply runs_WF; [done|]. split; [done|]. split; [exact Ht0|done].
Qed.

Lemma faces_around_vertex_ok v x h0 : verts m !! v = Some x → vhe x = Some h0 → one_fan m v →
  ∃ l, faces_around_vertex m v = Some l ∧ NoDup l ∧ ∀ f, f ∈ l ↔ corner m f v.
Proof.
  intros Hx Hh Hone. destruct (anchor_L m HW v x h0 Hx Hh) as [HL0 Ht0].
  destruct (outgoing_ok m HW v x h0 Hx Hh) as (l&E&HN&Hl&Hin).
  unfold outgoing_half_edges, getV in E. rewrite Hx in E. cbn [mbind option_bind] in E. rewrite Hh in E.
  unfold faces_around_vertex, getV. rewrite Hx. cbn [mbind option_bind]. rewrite Hh.
  eexists. split; [by apply (fav_loop_ok m HW _ _ _ _ HL0 HL0 E)|]. split.
  - apply (faces_at_nodup m HW); [done|]. intros h h' H1%Hl H2%Hl. destruct H1, H2. split; congruence.
  - intros f. rewrite elem_of_list_bind, (corner_spoke m HW). split.
    + intros (h&Hf&Hh'%Hl). exists h. unfold face_at in Hf. destruct (fc m h); [|by apply elem_of_nil in Hf].
      apply elem_of_list_singleton in Hf as ->. tauto.
    + intros (h&HL&Ht&Hf). exists h. split; [unfold face_at; rewrite Hf; left|].
      apply Hin, (one_fan_all v x h0 Hx Hh Hone). exists (hd m h). by apply runs_WF.
Qed.

Lemma vertex_touches_face_ok v f : v < nverts m → one_fan m v →
  ∃ r : bool, vertex_touches_face m v f = Some r ∧ (r = true ↔ corner m f v).
Proof.
  intros Hv Hone. unfold vertex_touches_face, getV. rewrite (proj2 (N.leb_gt _ _) Hv).
  apply (si_vb _ _ HS) in Hv as [x Hx]. rewrite Hx. cbn [mbind option_bind].
  destruct (vhe x) as [h0|] eqn:Hh.
  - destruct (anchor_L m HW v x h0 Hx Hh) as [HL0 Ht0].
    destruct (outgoing_ok m HW v x h0 Hx Hh) as (l&E&HN&Hl&Hin).
    unfold outgoing_half_edges, getV in E. rewrite Hx in E. cbn [mbind option_bind] in E. rewrite Hh in E.
    eexists. split; [by apply (vtf_loop_ok m HW _ _ _ _ _ HL0 HL0 E)|].
    rewrite bool_decide_eq_true, Exists_exists, (corner_spoke m HW). split.
    + intros (h&Hh'%Hl&Hf). exists h. tauto.
    + intros (h&HL&Ht&Hf). exists h. split; [|done].
      apply Hin, (one_fan_all v x h0 Hx Hh Hone). exists (hd m h). by apply runs_WF.
  - exists false. split; [done|]. split; [done|]. rewrite (corner_spoke m HW). intros (h&HL&Ht&_).
    pose proof (wf_vi _ HW v x Hx) as Q. rewrite Hh in Q. by apply Q in Ht.
Qed.

(** ** The link condition *)
Lemma ring_nb v x h0 : verts m !! v = Some x → vhe x = Some h0 → one_fan m v →
  ∃ r, vertex_ring_ccw m v = Some r ∧
    (∀ w, w ∈ ((λ s, snd (fst s)) <$> ring_spokes r) ↔ registered m v w) ∧
    (∀ s, s ∈ ring_spokes r ↔ ∃ h, s = spoke m h ∧ L m h ∧ tl m h = v) ∧
    (ring_border r = true ↔ ∃ h w, runs m h v w ∧ fc m h = None).
Proof.
  intros Hx Hh Hone. destruct (vertex_ring_ok m HW v x h0 Hx Hh) as (l&E&HN&_&Hl&Hin).
  eexists. split; [done|]. cbn [ring_spokes ring_border].
  assert (∀ h, h ∈ l ↔ L m h ∧ tl m h = v) as Hl'.
  { intros h. split; [apply Hl|]. intros [HL Ht]. apply Hin, (one_fan_all v x h0 Hx Hh Hone).
    exists (hd m h). by apply runs_WF. }
  split; [|split].
  - intros w. rewrite !elem_of_list_fmap. unfold registered. setoid_rewrite runs_WF; [|done]. split.
    + intros (t&->&Ht). apply elem_of_list_fmap in Ht as (h&->&Hh'). apply Hl' in Hh' as [??]. eauto.
    + intros (h&HL&Ht&<-). exists (spoke m h). split; [done|]. apply elem_of_list_fmap. exists h. split; [done|]. by apply Hl'.
  - intros t. rewrite elem_of_list_fmap. by setoid_rewrite Hl'.
  - rewrite existsb_exists. setoid_rewrite runs_WF; [|done]. split.
    + intros (h&Hh'&Hf). apply elem_of_list_In, Hl' in Hh' as [??]. exists h, (hd m h).
      split; [done|]. destruct (fc m h); done.
    + intros (h&w&(HL&Ht&_)&Hf). exists h. split; [by apply elem_of_list_In, Hl'|]. by rewrite Hf.
Qed.

Lemma opposite_ok h : L m h → opposite m h = Some (match fc m h with Some _ => Some (hd m (nx m h)) | None => None end).
Proof.
  intros HL. unfold opposite. rewrite (face_ok_ok m HW h HL). cbn [mbind option_bind].
  destruct (fc m h) as [f|] eqn:Ef; [|done]. cbn [is_some].
  rewrite (L_getH m h HL). cbn [mbind option_bind]. fold (nx m h).
  rewrite (L_getH m _ (proj1 (next_L m HW h HL))). done.
Qed.

Lemma filter_head {A} (Q : A → Prop) `{∀ x, Decision (Q x)} (l : list A) x : x ∈ l → Q x →
  ∃ y l', filter Q l = y :: l' ∧ y ∈ l ∧ Q y.
Proof.
  intros Hx HQ. destruct (filter Q l) as [|y l'] eqn:E.
  - exfalso. assert (x ∈ filter Q l) as Hf by (by apply elem_of_list_filter). rewrite E in Hf. by apply elem_of_nil in Hf.
  - exists y, l'. split; [done|]. assert (y ∈ filter Q l) as Hf by (rewrite E; left). by apply elem_of_list_filter in Hf as [? ?].
Qed.

Lemma link_condition_ok v0 v1 : one_fan m v0 → one_fan m v1 →
  ∃ r : bool, collapse_link_condition_triangle m v0 v1 = Some r ∧
    (r = true ↔ registered m v0 v1 ∧
       ∀ w, w ≠ v0 → w ≠ v1 →
         (registered m v0 w ∧ registered m v1 w ↔
          (∃ f, cycle_face m f v0 v1 w) ∨ (∃ f, cycle_face m f v1 v0 w))).
Proof.
  intros H0 H1. unfold collapse_link_condition_triangle, ring_pair.
  assert (∀ u v, registered m u v → registered m v u) as Hsym.
  { intros u v. rewrite !(registered_sides m) by done. tauto. }
  assert (∀ u v, registered m u v ↔ ∃ h, emap m !! (u, v) = Some h) as Hreg.
  { intros u v. unfold registered. setoid_rewrite <- half_edge_between_ok. done. }
  destruct (N.eqb_spec v0 v1) as [->|Hne].
  { exists false. split; [done|]. split; [done|]. intros [[h Hr] _]. apply runs_WF in Hr as (HL&Et&Eh); [|done].
    pose proof (hd_tl_ne m HS h HL). congruence. }
  destruct (emap m !! (v0, v1)) as [h|] eqn:E01.
  2: { exists false. split; [done|]. split; [done|]. rewrite Hreg. intros [[h ?] _]. congruence. }
  assert (registered m v0 v1) as Hr01 by (rewrite Hreg; eauto).
  pose proof (Hsym _ _ Hr01) as Hr10. apply Hreg in Hr10 as [h' E10]. rewrite E10.
  apply (si_em _ _ HS) in E01 as (HL&Eh&Et). apply (si_em _ _ HS) in E10 as (HL'&Eh'&Et').
  fold (tl m h) in Et. fold (tl m h') in Et'.
  assert (tw m h = h') as Etw.
  { destruct (si_tw _ _ HS h HL) as (HLt&Htt&_). apply (em_inj m None); try done; unfold tl in *; congruence. }
  destruct (has_anchor m HW v0 h HL Et) as (x0&k0&Hx0&Hk0).
  destruct (has_anchor m HW v1 h' HL' Et') as (x1&k1&Hx1&Hk1).
  destruct (ring_nb v0 x0 k0 Hx0 Hk0 H0) as (r0&->&Hn0&Hs0&_).
  destruct (ring_nb v1 x1 k1 Hx1 Hk1 H1) as (r1&->&Hn1&Hs1&_).
  cbn [mbind option_bind].
  destruct (filter_head (λ s, fst (fst s) = h) (ring_spokes r0) (spoke m h)) as (t0&l0&->&Ht0&Q0).
  { apply Hs0. eauto. } { done. }
  destruct (filter_head (λ s, fst (fst s) = h') (ring_spokes r1) (spoke m h')) as (t1&l1&->&Ht1&Q1).
  { apply Hs1. eauto. } { done. }
  apply Hs0 in Ht0 as (j0&->&_&_). apply Hs1 in Ht1 as (j1&->&_&_). cbn in Q0, Q1. subst j0 j1.
  cbn [spoke fst snd]. rewrite Eh, Eh', !N.eqb_refl. cbn [mbind option_bind assertb].
  rewrite !opposite_ok by done. cbn [mbind option_bind].
  eexists. split; [done|]. rewrite andb_true_iff, !bool_decide_eq_true, !Forall_forall.
  set (exp := (match match fc m h with Some _ => Some (hd m (nx m h)) | None => None end with Some a => [a] | None => [] end ++
     match match fc m h' with Some _ => Some (hd m (nx m h')) | None => None end with Some b => [b] | None => [] end)).
  assert (∀ w, w ∈ exp ↔ (∃ f, cycle_face m f v0 v1 w) ∨ (∃ f, cycle_face m f v1 v0 w)) as Hexp.
  { assert (∀ k u v w, L m k → tl m k = u → hd m k = v →
      w ∈ (match match fc m k with Some _ => Some (hd m (nx m k)) | None => None end with Some a => [a] | None => [] end)
      ↔ ∃ f, cycle_face m f u v w) as Hside.
    { intros k u v w HLk <- <-. split.
      - destruct (fc m k) as [f|] eqn:Ef; [|by intros []%elem_of_nil].
        intros ->%elem_of_list_singleton. exists f. by apply cycle_face_side.
      - intros (f&Hc). apply cycle_face_inv in Hc as (k'&HLk'&Hfk&E1&E2&<-); [|done].
        assert (k' = k) as -> by (by apply (em_inj m None)). rewrite Hfk. left. }
    intros w. unfold exp. rewrite elem_of_app. by rewrite (Hside h v0 v1), (Hside h' v1 v0). }
  assert (∀ w, w ∈ exp → w ≠ v0 ∧ w ≠ v1 ∧ registered m v0 w ∧ registered m v1 w) as Hexp2.
  { intros w Hw%Hexp. assert (∀ f u v w, cycle_face m f u v w → w ≠ u ∧ w ≠ v ∧ registered m u w ∧ registered m v w) as Hc.
    { intros f u v z Hc. pose proof Hc as Hc'. apply cycle_face_inv in Hc' as (k&HLk&Hfk&<-&<-&<-); [|done].
      destruct (face3 m HS k f HLk Hfk) as (L1&L2&F1&F2&N1&N2&N3&N4&T1&T2&T3&_).
      pose proof (hd_tl_ne m HS _ L1). pose proof (hd_tl_ne m HS _ L2).
      split_and!; [congruence|congruence| |].
      - apply Hsym. exists (pv m k). apply runs_WF; [done|]. split_and!; congruence.
      - exists (nx m k). apply runs_WF; done. }
    destruct Hw as [[f Hw]|[f Hw]]; apply Hc in Hw; tauto. }
  assert (∀ w, w ∈ filter (λ x, x ∈ filter (λ x, x ≠ v0) ((λ s, s.1.2) <$> ring_spokes r1))
      (filter (λ x, x ≠ v1) ((λ s, s.1.2) <$> ring_spokes r0)) ↔
      w ≠ v0 ∧ w ≠ v1 ∧ registered m v0 w ∧ registered m v1 w) as Hcom.
  { intros w. rewrite !elem_of_list_filter, Hn0, Hn1. tauto. }
  setoid_rewrite Hcom. split.
  - intros [C1 C2]. split; [done|]. intros w W0 W1. rewrite <- Hexp. split.
    + intros [? ?]. by apply C1.
    + intros Hw%Hexp2. tauto.
  - intros [_ C]. split.
    + intros w (W0&W1&R0&R1). apply Hexp, C; tauto.
    + by apply Hexp2.
Qed.
End wf.
End query2.
