(** remove_invalidated_faces and remove_duplicate_vertices against the
    specification. *)
From Verif Require Export MeshCleanModel MeshCompact BoolSpec.
From Verif Require Import MeshWF MeshBase MeshInv.
Local Open Scope N_scope.

Lemma vec_of_lookup {A} (l : list A) k i : vec_of k l !! i = if i <? k then None else l !! N.to_nat (i - k).
Proof.
  revert k. induction l as [|x l IH]; intros k; cbn [vec_of].
  { rewrite lookup_empty. by destruct (i <? k). }
  destruct (N.ltb_spec i k) as [Hk|Hk].
  - rewrite lookup_insert_ne by lia. rewrite IH. rewrite (proj2 (N.ltb_lt i (k + 1))) by lia. done.
  - destruct (decide (i = k)) as [->|Hne].
    + rewrite lookup_insert, N.sub_diag. done.
    + rewrite lookup_insert_ne by lia. rewrite IH. rewrite (proj2 (N.ltb_ge i (k + 1))) by lia.
      replace (N.to_nat (i - k)) with (S (N.to_nat (i - (k + 1)))) by lia. done.
Qed.
Lemma vec_of_0 {A} (l : list A) i : vec_of 0 l !! i = l !! N.to_nat i.
Proof. rewrite vec_of_lookup. rewrite (proj2 (N.ltb_ge i 0)) by lia. by rewrite N.sub_0_r. Qed.

Section rif.
Context {P : Type}.
Implicit Types (m : mesh P) (f v h : N).

Lemma rif_keep_ok m fs : NoDup fs → Forall (λ f, is_Some (faces m !! f)) fs → ∀ k, ∃ l mp,
  rif_keep m fs k = Some (l, mp) ∧
  Forall2 (λ f x, faces m !! f = Some x) (filter (live_face m) fs) l ∧
  ∀ f i, mp !! f = Some i ↔ k ≤ i ∧ filter (live_face m) fs !! N.to_nat (i - k) = Some f.
Proof.
  intros Hn Hs. induction fs as [|v vs IH]; intros k.
  { exists [], ∅. split; [done|]. split; [constructor|]. intros v i. rewrite lookup_empty. split; [done|]. intros [_ ?]. done. }
  apply NoDup_cons in Hn as [Hv Hn]. apply Forall_cons in Hs as [[x Ex] Hs]. specialize (IH Hn Hs).
  cbn [rif_keep]. unfold getF. rewrite Ex. cbn [mbind option_bind]. rewrite filter_cons.
  destruct (frem x) eqn:R.
  - rewrite decide_False. 2:{ intros (y&?&?). congruence. } apply IH.
  - rewrite decide_True by (by exists x).
    destruct (IH (k + 1)) as (ps & mp & -> & H2 & Hmp). cbn [mbind option_bind fst snd].
    exists (x :: ps), (<[v := k]> mp). split; [done|].
    split; [constructor; done|]. intros u i.
    rewrite lookup_insert_Some, Hmp. split.
    + intros [[-> ->]|(Hne&Hk&E)].
      * split; [lia|]. by rewrite N.sub_diag.
      * split; [lia|]. replace (N.to_nat (i - k)) with (S (N.to_nat (i - (k + 1)))) by lia. done.
    + intros [Hk E]. destruct (decide (i = k)) as [->|Hi].
      * left. rewrite N.sub_diag in E. split; [|done]. cbn in E. congruence.
      * right. replace (N.to_nat (i - k)) with (S (N.to_nat (i - (k + 1)))) in E by lia. cbn in E.
        split; [|split; [lia|done]]. intros <-. apply Hv.
        apply elem_of_list_lookup_2, elem_of_list_filter in E. tauto.
Qed.

(** the state after the faces [lfs] have been renumbered by their rank *)
Record Renumbered m (lfs : list N) m' : Prop := {
  rn_wf : WF m';
  rn_nf : nfaces m' = N.of_nat (length lfs);
  rn_live : ∀ i, i < nfaces m' → live_face m' i;
  rn_faces : ∀ i a b c, oriented_face m' i a b c ↔ ∃ f, lfs !! N.to_nat i = Some f ∧ oriented_face m f a b c;
  rn_pos : same_positions m m';
  rn_he : nhes m' = nhes m ∧ emap m' = emap m
}.

Lemma renumber_ok m lfs mp l : WF m → StronglySorted N.lt lfs → (∀ f, f ∈ lfs ↔ live_face m f) →
  Forall2 (λ f x, faces m !! f = Some x) lfs l →
  (∀ f i, mp !! f = Some i ↔ lfs !! N.to_nat i = Some f) →
  Renumbered m lfs (mkMesh (verts m) (nverts m) (rif_he mp <$> hes m) (nhes m)
          (vec_of 0 l) (N.of_nat (length l)) (emap m)).
Proof.
  intros HW Hs Hl H2 Hmp. set (m' := mkMesh _ _ _ _ _ _ _). pose proof (proj1 (WF_iff m) HW) as W.
  pose proof (Forall2_length _ _ _ H2) as Hlen.
  assert (∀ i, faces m' !! i = l !! N.to_nat i) as Hfc by (intros i; apply vec_of_0).
  assert (∀ i x, faces m' !! i = Some x ↔ ∃ f, lfs !! N.to_nat i = Some f ∧ faces m !! f = Some x) as Hfaces.
  { intros i x. rewrite Hfc. split.
    - intros E. destruct (Forall2_lookup_r _ _ _ _ _ H2 E) as (f&?&?). eauto.
    - intros (f&E&Ex). destruct (Forall2_lookup_l _ _ _ _ _ H2 E) as (y&Ey&?). congruence. }
  assert (∀ f, live_face m f → ∃ i, mp !! f = Some i ∧ lfs !! N.to_nat i = Some f) as Hmpl.
  { intros f (i&E)%Hl%elem_of_list_lookup. exists (N.of_nat i). rewrite Hmp, Nat2N.id. done. }
  (* live half-edges *)
  assert (∀ h x, live_he m h x → ∃ x', live_he m' h x' ∧ hv x' = hv x ∧ hnext x' = hnext x ∧
     hprev x' = hprev x ∧ htwin x' = htwin x ∧ (hface x = None → hface x' = None) ∧
     ∀ f, hface x = Some f → ∃ i, hface x' = Some i ∧ lfs !! N.to_nat i = Some f) as Hto.
  { intros h x [Hx Hr]. exists (rif_he mp x).
    assert (hes m' !! h = Some (rif_he mp x)) as E by (cbn; rewrite lookup_fmap, Hx; done).
    unfold live_he. rewrite E. unfold rif_he in *. rewrite Hr in *. destruct (hface x) as [f|] eqn:Ef; cbn.
    - split_and!; try done. intros f0 [= <-].
      destruct (wfs_side _ W h x f) as (e0&x0&?&_); [done|done|].
      destruct (Hmpl f) as (i&Ei&?); [by exists (mkFC e0 false)|]. exists i. done.
    - split_and!; done. }
  assert (∀ h x', live_he m' h x' → ∃ x, live_he m h x ∧ hv x' = hv x ∧ hnext x' = hnext x ∧
     hprev x' = hprev x ∧ htwin x' = htwin x ∧ (hface x' = None → hface x = None) ∧
     ∀ i, hface x' = Some i → ∃ f, hface x = Some f ∧ lfs !! N.to_nat i = Some f) as Hfrom.
  { intros h x' Hx'. pose proof Hx' as [E R]. cbn in E. apply lookup_fmap_Some in E as (x&<-&Ex).
    assert (hrem x = false) as R'. { unfold rif_he in R. destruct (hrem x) eqn:?; [congruence|done]. }
    destruct (Hto h x) as (x'&H1&Hv&Hn&Hp&Ht&HN&HS); [done|].
    destruct H1 as [H1 _]. cbn in H1. rewrite lookup_fmap, Ex in H1. injection H1 as Hx. rewrite Hx.
    exists x. split_and!; try done.
    - destruct (hface x) as [f|]; [|done]. destruct (HS f eq_refl) as (i&?&?). congruence.
    - intros i Hi. destruct (hface x) as [f|] eqn:Ef; [|rewrite HN in Hi; done].
      destruct (HS f eq_refl) as (j&Ej&?). exists f. split; [done|]. congruence. }
  assert (∀ h u v, runs m' h u v ↔ runs m h u v) as Hruns.
  { intros h u v. split.
    - intros (x'&y'&Hx'&Hy'&Eu&Ev). destruct (Hfrom _ _ Hx') as (x&Hx&Hv&_&_&Ht&_).
      rewrite Ht in Hy'. destruct (Hfrom _ _ Hy') as (y&Hy&Hv'&_). exists x, y. split_and!; try done; congruence.
    - intros (x&y&Hx&Hy&Eu&Ev). destruct (Hto _ _ Hx) as (x'&Hx'&Hv&_&_&Ht&_).
      destruct (Hto _ _ Hy) as (y'&Hy'&Hv'&_). exists x', y'. rewrite Ht. split_and!; try done; congruence. }
  assert (∀ i j f, lfs !! i = Some f → lfs !! j = Some f → i = j) as Hinj.
  { intros i j f. apply (NoDup_lookup lfs). by apply sorted_NoDup. }
  assert (∀ i a b c, oriented_face m' i a b c ↔ ∃ f, lfs !! N.to_nat i = Some f ∧ oriented_face m f a b c) as Hor.
  { intros i a b c. split.
    - intros (e0&e1&e2&x0&x1&x2&Ef&H0&H1&H2'&F0&F1&F2&N0&N1&N2&P0&P1&P2&R0&R1&R2).
      apply Hfaces in Ef as (f&Hi&Ef). exists f. split; [done|].
      destruct (Hfrom _ _ H0) as (y0&?&?&?&?&?&_&G0). destruct (G0 _ F0) as (f0&?&?).
      destruct (Hfrom _ _ H1) as (y1&?&?&?&?&?&_&G1). destruct (G1 _ F1) as (f1&?&?).
      destruct (Hfrom _ _ H2') as (y2&?&?&?&?&?&_&G2). destruct (G2 _ F2) as (f2&?&?).
      exists e0, e1, e2, y0, y1, y2. rewrite <- !Hruns. split_and!; try done; congruence.
    - intros (f&Hi&e0&e1&e2&x0&x1&x2&Ef&H0&H1&H2'&F0&F1&F2&N0&N1&N2&P0&P1&P2&R0&R1&R2).
      assert (∀ x j, hface x = Some j → lfs !! N.to_nat j = Some f → hface x = Some i) as HE.
      { intros x j ? Ej. assert (j = i) as -> by (apply (inj N.to_nat); by eapply Hinj). done. }
      destruct (Hto _ _ H0) as (y0&?&?&?&?&?&_&G0). destruct (G0 _ F0) as (f0&?&?).
      destruct (Hto _ _ H1) as (y1&?&?&?&?&?&_&G1). destruct (G1 _ F1) as (f1&?&?).
      destruct (Hto _ _ H2') as (y2&?&?&?&?&?&_&G2). destruct (G2 _ F2) as (f2&?&?).
      exists e0, e1, e2, y0, y1, y2. rewrite !Hruns. split_and!; try done; try congruence; try (eapply HE; [eassumption|assumption]).
      apply Hfaces. eauto. }
  assert (∀ i, i < nfaces m' → live_face m' i) as Hlive.
  { intros i Hi. cbn in Hi. destruct (lookup_lt_is_Some_2 lfs (N.to_nat i)) as [f Hf]; [lia|].
    assert (live_face m f) as (x&Ex&R) by (apply Hl; by eapply elem_of_list_lookup_2).
    exists x. split; [|done]. apply Hfaces. eauto. }
  assert (WellFormed m') as W'.
  { assert (∀ k c, sweep m k c → sweep m' k c) as Hsw.
    { intros k c. induction 1 as [k x y Hx Hy Hf|k x y f c Hx Hy Hf _ IH].
      - destruct (Hto _ _ Hx) as (x'&Hx'&_&_&_&Ht&_). destruct (Hto _ _ Hy) as (y'&Hy'&_&_&_&_&HN&_).
        rewrite <- Ht. rewrite <- Ht in Hy'. eapply sweep_stop; eauto.
      - destruct (Hto _ _ Hx) as (x'&Hx'&_&_&_&Ht&_). destruct (Hto _ _ Hy) as (y'&Hy'&_&_&Hp&_&_&HS).
        destruct (HS _ Hf) as (i&Hi&_). rewrite <- Ht in Hy'. eapply sweep_step; eauto. by rewrite Hp. }
    assert (∀ n h, follow m' n h = follow m n h) as Hfol.
    { intros n. induction n as [|n IH]; intros h; [done|]. cbn. rewrite lookup_fmap.
      destruct (hes m !! h) as [x|]; [|done]. cbn. rewrite IH. f_equal. unfold rif_he.
      destruct (hrem x); [done|]. by destruct (hface x). }
    split.
    - intros h. cbn. rewrite lookup_fmap, fmap_is_Some. apply W.
    - intros f. rewrite Hfc. cbn. rewrite lookup_lt_is_Some. lia.
    - apply W.
    - destruct (wfs_size _ W) as (?&?&?). split_and!; try done. cbn. rewrite <- Hlen.
      assert (length lfs ≤ N.to_nat (nfaces m))%nat; [|lia].
      rewrite <- range_length. apply submseteq_length, NoDup_submseteq; [by apply sorted_NoDup|].
      intros f Hf%Hl. destruct Hf as (x&Ex&_). apply range_spec, (wfs_faces _ W). eauto.
    - intros h x' Hx'. destruct (Hfrom _ _ Hx') as (x&Hx&Hv&_&_&Ht&HN&_).
      destruct (wfs_twin _ W _ _ Hx) as (y&Hy&Hyt&Hne&HF).
      destruct (Hto _ _ Hy) as (y'&Hy'&Hv'&_&_&Ht'&_&HS). exists y'. rewrite Ht. split_and!; try done; try congruence.
      intros Hx0%HN%HF. destruct (hface y) as [f|]; [|done]. destruct (HS f eq_refl) as (?&->&_). done.
    - intros h x' Hx'. destruct (Hfrom _ _ Hx') as (x&Hx&->&_). by apply (wfs_head _ W h).
    - intros h x' u v Hx' Hr. destruct (Hfrom _ _ Hx') as (x&Hx&Hv&Hn&_&_&HN&HF). apply Hruns in Hr.
      destruct (wfs_next _ W _ _ _ _ Hx Hr) as (y&w&Hy&Hp&Hf&Hrw).
      destruct (Hto _ _ Hy) as (y'&Hy'&_&_&Hp'&_&HN'&HS'). exists y', w. rewrite Hn, Hruns. split_and!; try done; try congruence.
      destruct (hface x') as [i|] eqn:Ei.
      + destruct (HF i eq_refl) as (f&Ef&Hi). destruct (HS' f) as (j&Ej&Hj); [congruence|].
        rewrite Ej. f_equal. apply (inj N.to_nat). by eapply Hinj.
      + apply HN'. rewrite Hf. by apply HN.
    - intros h x' u v Hx' Hr. destruct (Hfrom _ _ Hx') as (x&Hx&Hv&_&Hn&_&HN&HF). apply Hruns in Hr.
      destruct (wfs_prev _ W _ _ _ _ Hx Hr) as (y&w&Hy&Hp&Hf&Hrw).
      destruct (Hto _ _ Hy) as (y'&Hy'&_&Hp'&_&_&HN'&HS'). exists y', w. rewrite Hn, Hruns. split_and!; try done; try congruence.
      destruct (hface x') as [i|] eqn:Ei.
      + destruct (HF i eq_refl) as (f&Ef&Hi). destruct (HS' f) as (j&Ej&Hj); [congruence|].
        rewrite Ej. f_equal. apply (inj N.to_nat). by eapply Hinj.
      + apply HN'. rewrite Hf. by apply HN.
    - intros h x' Hx'. destruct (Hfrom _ _ Hx') as (x&Hx&_). destruct (wfs_loop _ W _ _ Hx) as (n&?&?).
      exists n. by rewrite Hfol.
    - intros i (x&Ex&R). apply Hfaces in Ex as (f&Hi&Ex). destruct (wfs_face _ W f) as (a&b&c&Ho); [by exists x|].
      exists a, b, c. apply Hor. eauto.
    - intros h x' i Hx' Hi. destruct (Hfrom _ _ Hx') as (x&Hx&_&_&_&_&_&HF). destruct (HF i Hi) as (f&Ef&Hfi).
      destruct (wfs_side _ W _ _ _ Hx Ef) as (e0&x0&Hf0&Hx0&Hor0). destruct (Hto _ _ Hx0) as (x0'&?&_&En&Ep&_).
      exists e0, x0'. rewrite En, Ep. split_and!; try done. apply Hfaces. eauto.
    - intros b x' y' Hx' Hf' Hy'. destruct (Hfrom _ _ Hx') as (x&Hx&_&Hn&_&Ht&HN&_).
      rewrite Ht in Hy'. destruct (Hfrom _ _ Hy') as (y&Hy&_&_&Hp&_). rewrite Hn, Hp. apply Hsw.
      apply (wfs_border _ W b); auto.
    - intros u v h. rewrite Hruns. apply W.
    - intros v x Hx. pose proof (wfs_anchor _ W v x Hx) as HA. destruct (vhe x) as [h|].
      + destruct HA as (w&?). exists w. by apply Hruns.
      + intros h w Hr%Hruns. by apply HA in Hr. }
  split; try done.
  - by apply WF_iff.
  - cbn. by rewrite Hlen.
Qed.

Lemma remove_invalidated_faces_ok m : WF m → ∃ m' lfs,
  remove_invalidated_faces m = Some m' ∧ StronglySorted N.lt lfs ∧ (∀ f, f ∈ lfs ↔ live_face m f) ∧
  Renumbered m lfs m'.
Proof.
  intros HW. pose proof (wf_si _ HW) as HS. unfold remove_invalidated_faces.
  destruct (rif_keep_ok m (range (nfaces m)) (sorted_NoDup _ (range_sorted _))) with (k := 0) as (l & mp & -> & H2 & Hmp).
  { apply Forall_forall. intros f. rewrite range_spec. apply (si_fb _ _ HS). }
  set (lfs := filter (live_face m) (range (nfaces m))) in *. cbn [mbind option_bind fst snd].
  assert (∀ f, f ∈ lfs ↔ live_face m f) as Hl.
  { intros f. unfold lfs. rewrite elem_of_list_filter, range_spec. split; [by intros []|]. intros Hf. split; [done|].
    destruct Hf as (x&Hx&_). apply (si_fb _ _ HS). eauto. }
  assert (StronglySorted N.lt lfs) as Hs by (apply filter_sorted, range_sorted).
  rewrite (proj2 (forallb_forall _ _)).
  2:{ intros x Hx. apply elem_of_list_In, elem_of_list_fmap in Hx as ([h y]&->&Hy). apply elem_of_map_to_list in Hy.
      cbn. unfold rif_inrange. destruct (hrem y) eqn:R; [done|]. cbn. destruct (hface y) as [f|] eqn:Ef; [|done].
      apply N.ltb_lt, (si_fb _ _ HS). destruct (wfs_side m (proj1 (WF_iff m) HW) h y f) as (e0&x0&?&_); [done|done|]. eauto. }
  cbn [assertb mbind option_bind]. eexists _, lfs. split; [done|]. split; [done|]. split; [done|].
  apply renumber_ok; try done. intros f i. rewrite Hmp, N.sub_0_r. split; [by intros []|]. intros ?. split; [lia|done].
Qed.
End rif.

Section rdv.
Context {P K : Type} `{Countable K}.
Variable key : P → option K.
Variable eqb : P → P → bool.
Variable order : ∀ A : Type, list A → list A.
Variable same : P → P → Prop.
Implicit Types (m : mesh P) (v : N).

Context (LW : Lawful key eqb order same).

(** the positions of two vertices are the same *)
Definition samev m u v : Prop := ∃ p q, vpos <$> verts m !! u = Some p ∧ vpos <$> verts m !! v = Some q ∧ same p q.

Definition vkey m v : option K := x ← verts m !! v; key (vpos x).

Lemma rdv_groups_ok m vs : Forall (λ v, is_Some (verts m !! v)) vs → ∀ g0, ∃ g,
  rdv_groups key m vs g0 = Some g ∧
  ∀ k, g !! k = match filter (λ v, vkey m v = Some k) vs, g0 !! k with
                | [], o => o | l, o => Some (default [] o ++ l) end.
Proof using LW.
  induction 1 as [|v vs [x Ex] Hvs IH]; intros g0; cbn [rdv_groups].
  { exists g0. split; [done|]. done. }
  unfold getV. rewrite Ex. cbn [mbind option_bind]. destruct (lw_key _ _ _ _ LW (vpos x)) as [kv Ek]. rewrite Ek. cbn [mbind option_bind].
  destruct (IH (<[kv := default [] (g0 !! kv) ++ [v]]> g0)) as (g & -> & Hg). exists g. split; [done|]. intros k.
  rewrite Hg. rewrite filter_cons.
  assert (vkey m v = Some kv) as Ev by (unfold vkey; rewrite Ex; done). rewrite Ev.
  destruct (decide (Some kv = Some k)) as [[= ->]|Hne].
  - rewrite lookup_insert. cbn. destruct (filter _ vs) as [|w l]; [done|]. by rewrite <- app_assoc.
  - rewrite lookup_insert_ne by congruence. done.
Qed.

(** what is known of the marked duplicates *)
Definition marked m (dups : gmap N N) : Prop :=
  ∀ v c, dups !! v = Some c → c < v ∧ v < nverts m ∧ samev m c v ∧ dups !! c = None.

Lemma rdv_inner_ok m vi js : is_Some (verts m !! vi) → Forall (λ v, is_Some (verts m !! v)) js → ∀ dups, ∃ dups',
  rdv_inner eqb m vi js dups = Some dups' ∧
  (∀ v c, dups !! v = Some c → dups' !! v = Some c) ∧
  (∀ v c, dups' !! v = Some c → dups !! v = Some c ∨ (c = vi ∧ v ∈ js ∧ dups !! v = None ∧ samev m vi v)) ∧
  (∀ v, v ∈ js → dups' !! v = None → ¬ samev m vi v).
Proof using LW.
  intros [x Ex]. induction 1 as [|v vs [y Ey] Hvs IH]; intros dups; cbn [rdv_inner].
  { exists dups. split; [done|]. split; [done|]. split; [by left|]. intros v []%not_elem_of_nil. }
  destruct (dups !! v) as [c|] eqn:Ed; cbn [is_some].
  - destruct (IH dups) as (d & -> & H1 & H2 & H3). exists d. split; [done|]. split; [done|]. split.
    + intros w e Hw. destruct (H2 w e Hw) as [?|(?&?&?&?)]; [by left|]. right. split_and!; try done. by right.
    + intros w [->|Hw]%elem_of_cons Hn; [|by apply H3]. apply H1 in Ed. congruence.
  - unfold getV. rewrite Ex, Ey. cbn [mbind option_bind].
    destruct (eqb (vpos x) (vpos y)) eqn:Eq.
    + assert (samev m vi v) as Hs.
      { exists (vpos x), (vpos y). rewrite Ex, Ey. split_and!; try done. by apply (lw_eqb _ _ _ _ LW). }
      destruct (IH (<[v := vi]> dups)) as (d & -> & H1 & H2 & H3). exists d. split; [done|]. split; [|split].
      * intros w e Hw. apply H1. rewrite lookup_insert_ne; [done|]. congruence.
      * intros w e Hw. destruct (H2 w e Hw) as [Hi|(?&?&Hi&?)].
        -- apply lookup_insert_Some in Hi as [[<- <-]|[_ ?]]; [|by left]. right. split_and!; try done. by left.
        -- right. apply lookup_insert_None in Hi as [? _]. split_and!; try done. by right.
      * intros w [->|Hw]%elem_of_cons Hn; [|by apply H3]. rewrite (H1 v vi) in Hn by apply lookup_insert. done.
    + destruct (IH dups) as (d & -> & H1 & H2 & H3). exists d. split; [done|]. split; [done|]. split.
      * intros w e Hw. destruct (H2 w e Hw) as [?|(?&?&?&?)]; [by left|]. right. split_and!; try done. by right.
      * intros w [->|Hw]%elem_of_cons Hn; [|by apply H3].
        intros (p&q&Hp&Hq&Hpq). rewrite Ex in Hp. rewrite Ey in Hq. cbn in Hp, Hq.
        injection Hp as <-. injection Hq as <-. apply (lw_eqb _ _ _ _ LW) in Hpq. congruence.
Qed.

Lemma rdv_group_ok m g : StronglySorted N.lt g → Forall (λ v, is_Some (verts m !! v) ∧ v < nverts m) g → ∀ dups,
  marked m dups → (∀ v c, dups !! v = Some c → c ∉ g) → ∃ dups',
  rdv_group eqb m g dups = Some dups' ∧ marked m dups' ∧
  (∀ v c, dups !! v = Some c → dups' !! v = Some c) ∧
  (∀ v c, dups' !! v = Some c → dups !! v = Some c ∨ (c ∈ g ∧ v ∈ g)) ∧
  (∀ u v, u ∈ g → v ∈ g → u < v → dups' !! u = None → dups' !! v = None → ¬ samev m u v).
Proof using LW.
  induction 1 as [|vi g Hs IH Hlt]; intros Hg dups Hm Hc; cbn [rdv_group].
  { exists dups. split_and!; try done. by left. intros u v []%not_elem_of_nil. }
  apply Forall_cons in Hg as [[Hvi Hvl] Hg]. rewrite Forall_forall in Hlt.
  destruct (dups !! vi) as [c|] eqn:Ed; cbn [is_some mbind option_bind].
  - destruct (IH Hg dups Hm) as (d & E & HM & H1 & H2 & H3).
    { intros v c' Hv Hin. apply (Hc _ _ Hv). by right. }
    exists d. split; [done|]. split; [done|]. split; [done|]. split.
    + intros v e Hv. destruct (H2 v e Hv) as [?|[? ?]]; [by left|]. right. split; by right.
    + intros u v [->|Hu]%elem_of_cons [->|Hv]%elem_of_cons Huv Nu Nv; [lia| | |by apply H3].
      * apply H1 in Ed. congruence.
      * specialize (Hlt u Hu). lia.
  - destruct (rdv_inner_ok m vi g Hvi) with (dups := dups) as (d1 & E1 & I1 & I2 & I3).
    { eapply Forall_impl; [exact Hg|]. by intros ? []. }
    rewrite E1. cbn [mbind option_bind].
    assert (vi ∉ g) as Hnv. { intros Hin. specialize (Hlt vi Hin). lia. }
    assert (d1 !! vi = None) as Hvi1.
    { destruct (d1 !! vi) as [c|] eqn:E; [|done]. destruct (I2 _ _ E) as [?|(?&?&_)]; congruence. }
    destruct (IH Hg d1) as (d & E & HM & H1 & H2 & H3).
    + intros v c Hv. destruct (I2 v c Hv) as [Hd|(->&Hin&Hd&Hsm)].
      * destruct (Hm _ _ Hd) as (?&?&?&Hcn). split_and!; try done.
        destruct (d1 !! c) as [e|] eqn:Ec; [|done]. destruct (I2 _ _ Ec) as [?|(_&Hin&_)]; [congruence|].
        exfalso. apply (Hc _ _ Hd). by right.
      * split_and!; try done; [by apply Hlt|]. rewrite Forall_forall in Hg. by apply Hg.
    + intros v c Hv. destruct (I2 v c Hv) as [Hd|(->&_)]; [|done]. intros Hin. apply (Hc _ _ Hd). by right.
    + exists d. split; [done|]. split; [done|]. split; [by eauto|]. split.
      * intros v c Hv. destruct (H2 v c Hv) as [Hd|[? ?]]; [|right; split; by right].
        destruct (I2 v c Hd) as [?|(->&?&_)]; [by left|]. right. split; [by left|by right].
      * intros u v [->|Hu]%elem_of_cons [->|Hv]%elem_of_cons Huv Nu Nv; [lia| | |by apply H3].
        -- apply I3; [done|]. destruct (d1 !! v) as [c|] eqn:Ec; [|done]. apply H1 in Ec. congruence.
        -- specialize (Hlt u Hu). lia.
Qed.

Lemma rdv_all_ok m gs : Forall (StronglySorted N.lt) gs → Forall (Forall (λ v, is_Some (verts m !! v) ∧ v < nverts m)) gs →
  NoDup (concat gs) → ∀ dups, marked m dups → (∀ v c, dups !! v = Some c → c ∉ concat gs) → ∃ dups',
  rdv_all eqb m gs dups = Some dups' ∧ marked m dups' ∧
  (∀ v c, dups !! v = Some c → dups' !! v = Some c) ∧
  (∀ g u v, g ∈ gs → u ∈ g → v ∈ g → u < v → dups' !! u = None → dups' !! v = None → ¬ samev m u v).
Proof using LW.
  intros Hs Hg. revert Hg. induction Hs as [|g gs Hsg Hs IH]; intros Hg Hnd dups Hm Hc; cbn [rdv_all].
  { exists dups. split_and!; try done. intros g u v []%not_elem_of_nil. }
  apply Forall_cons in Hg as [Hgg Hg]. cbn [concat] in *. apply NoDup_app in Hnd as (Hn1&Hdis&Hn2).
  destruct (rdv_group_ok m g Hsg Hgg dups Hm) as (d1 & -> & Hm1 & G1 & G2 & G3).
  { intros v c Hv Hin. apply (Hc _ _ Hv), elem_of_app. by left. }
  cbn [mbind option_bind]. destruct (IH Hg Hn2 d1 Hm1) as (d & E & HM & H1 & H2).
  { intros v c Hv Hin. destruct (G2 _ _ Hv) as [Hd|[Hcg _]].
    - apply (Hc _ _ Hd), elem_of_app. by right.
    - by apply (Hdis c). }
  exists d. split_and!; try done; [by eauto|]. intros g' u v [->|Hg']%elem_of_cons; [|by apply H2].
  assert (∀ w, d !! w = None → d1 !! w = None) as Hdn.
  { intros w Hw. destruct (d1 !! w) as [c|] eqn:Ec; [|done]. apply H1 in Ec. congruence. }
  intros Hu Hv Huv Nu%Hdn Nv%Hdn. by apply G3.
Qed.

Lemma rdv_keep_ok m dups vs : NoDup vs → Forall (λ v, is_Some (verts m !! v)) vs → ∀ k, ∃ l mp,
  rdv_keep m dups vs k = Some (l, mp) ∧
  Forall2 (λ v x, verts m !! v = Some x) (filter (λ v, dups !! v = None) vs) l ∧
  ∀ v i, mp !! v = Some i ↔ k ≤ i ∧ filter (λ v, dups !! v = None) vs !! N.to_nat (i - k) = Some v.
Proof.
  intros Hn Hs. induction vs as [|v vs IH]; intros k.
  { exists [], ∅. split; [done|]. split; [constructor|]. intros v i. rewrite lookup_empty. split; [done|]. intros [_ ?]. done. }
  apply NoDup_cons in Hn as [Hv Hn]. apply Forall_cons in Hs as [[x Ex] Hs]. specialize (IH Hn Hs).
  cbn [rdv_keep]. unfold getV. rewrite Ex. cbn [mbind option_bind]. rewrite filter_cons.
  destruct (dups !! v) as [c|] eqn:D; cbn [is_some].
  - rewrite decide_False by done. apply IH.
  - destruct (IH (k + 1)) as (ps & mp & -> & H2 & Hmp). cbn [mbind option_bind fst snd].
    exists (x :: ps), (<[v := k]> mp). split; [done|]. rewrite decide_True by done.
    split; [by constructor|]. intros u i.
    rewrite lookup_insert_Some, Hmp. split.
    + intros [[-> ->]|(Hne&Hk&E)].
      * split; [lia|]. by rewrite N.sub_diag.
      * split; [lia|]. replace (N.to_nat (i - k)) with (S (N.to_nat (i - (k + 1)))) by lia. done.
    + intros [Hk E]. destruct (decide (i = k)) as [->|Hi].
      * left. rewrite N.sub_diag in E. split; [|done]. cbn in E. congruence.
      * right. replace (N.to_nat (i - k)) with (S (N.to_nat (i - (k + 1)))) in E by lia. cbn in E.
        split; [|split; [lia|done]]. intros <-. apply Hv.
        apply elem_of_list_lookup_2, elem_of_list_filter in E. tauto.
Qed.

Lemma rdv_point_ok (l : list (N * N)) o : NoDup l.*1 → (∀ d c, (d, c) ∈ l → c ∉ l.*1 ∧ is_Some (o !! c)) →
  let o' := foldl rdv_point o l in
  (∀ d c, (d, c) ∈ l → o' !! d = o !! c) ∧ (∀ v, v ∉ l.*1 → o' !! v = o !! v).
Proof.
  revert o. induction l as [|[d c] l IH]; intros o Hn Hc; cbn [foldl].
  { split; [|done]. intros d c []%not_elem_of_nil. }
  rewrite fmap_cons in Hn. cbn [fst] in Hn. apply NoDup_cons in Hn as [Hd Hn].
  destruct (Hc d c) as [Hcn [k Ek]]; [by left|]. rewrite fmap_cons in Hcn. cbn [fst] in Hcn.
  assert (rdv_point o (d, c) = <[d := k]> o) as -> by (unfold rdv_point; cbn; by rewrite Ek).
  destruct (IH (<[d := k]> o) Hn) as [I1 I2].
  { intros d' c' Hin. destruct (Hc d' c') as [Hc' Hs]; [by right|]. rewrite fmap_cons in Hc'. cbn [fst] in Hc'.
    apply not_elem_of_cons in Hc' as [? ?]. split; [done|]. by rewrite lookup_insert_ne. }
  apply not_elem_of_cons in Hcn as [? ?].
  split.
  - intros d' c' [[= -> ->]|Hin]%elem_of_cons.
    + rewrite I2 by done. by rewrite lookup_insert.
    + rewrite (I1 _ _ Hin). rewrite lookup_insert_ne; [done|].
      destruct (Hc d' c') as [Hc' _]; [by right|]. rewrite fmap_cons in Hc'. cbn [fst] in Hc'.
      apply not_elem_of_cons in Hc' as [? _]. done.
  - intros v. rewrite fmap_cons. cbn [fst]. intros [? ?]%not_elem_of_cons. rewrite I2 by done. by rewrite lookup_insert_ne.
Qed.

(** the effect of remove_duplicate_vertices, [o] being the renumbering *)
Record Merged m (o : N → N) m' : Prop := {
  mg_vb : ∀ v, is_Some (verts m' !! v) ↔ v < nverts m';
  mg_le : nverts m' ≤ nverts m;
  mg_o : ∀ v, v < nverts m → o v < nverts m';
  mg_same : ∀ v p, vpos <$> verts m !! v = Some p → ∃ q, vpos <$> verts m' !! o v = Some q ∧ same p q;
  mg_onto : ∀ w, w < nverts m' → ∃ v, v < nverts m ∧ o v = w ∧ vpos <$> verts m' !! w = vpos <$> verts m !! v;
  mg_diff : ∀ u v p q, vpos <$> verts m' !! u = Some p → vpos <$> verts m' !! v = Some q → same p q → u = v;
  mg_hes : ∀ h, hes m' !! h = (λ x, if hrem x then x else if hv x <? nverts m then with_hv (o (hv x)) x else x) <$> hes m !! h;
  mg_faces : faces m' = faces m ∧ nfaces m' = nfaces m ∧ nhes m' = nhes m;
  mg_emap : ∀ a b h, emap m' !! (a, b) = Some h → ∃ u v, emap m !! (u, v) = Some h ∧ o u = a ∧ o v = b;
  mg_emap' : ∀ u v h, emap m !! (u, v) = Some h → u < nverts m → v < nverts m → o u ≠ o v → is_Some (emap m' !! (o u, o v))
}.

Lemma rdv_edge_ok o2n (o : N → N) (L : list (N * N * N)) : (∀ v i, o2n !! v = Some i → i = o v) → ∀ em,
  (∀ a b h, foldl (rdv_edge o2n) em L !! (a, b) = Some h → em !! (a, b) = Some h ∨ ∃ u v, (u, v, h) ∈ L ∧ o u = a ∧ o v = b) ∧
  (∀ a b, is_Some (em !! (a, b)) → is_Some (foldl (rdv_edge o2n) em L !! (a, b))) ∧
  (∀ u v h, (u, v, h) ∈ L → is_Some (o2n !! u) → is_Some (o2n !! v) → o u ≠ o v → is_Some (foldl (rdv_edge o2n) em L !! (o u, o v))).
Proof.
  intros Ho. induction L as [|[[u v] h] L IH]; intros em.
  { split; [by left|]. split; [done|]. by intros u v h ?%elem_of_nil. }
  cbn [foldl]. destruct (IH (rdv_edge o2n em (u, v, h))) as (I1&I2&I3).
  assert (∀ a b, is_Some (em !! (a, b)) → is_Some (rdv_edge o2n em (u, v, h) !! (a, b))) as Hmono.
  { intros a b Ha. unfold rdv_edge. cbn. destruct (o2n !! u), (o2n !! v); try done. destruct (_ =? _); [done|]. rewrite lookup_insert_is_Some'. by right. }
  split; [|split].
  - intros a b k Hk. destruct (I1 a b k Hk) as [Hk'|(x&y&Hin&?)]; [|right; exists x, y; split; [by right|done]].
    unfold rdv_edge in Hk'. cbn in Hk'. destruct (o2n !! u) as [i|] eqn:Eu; [|by left]. destruct (o2n !! v) as [j|] eqn:Ev; [|by left].
    destruct (i =? j); [by left|]. apply lookup_insert_Some in Hk' as [[[= <- <-] <-]|[_ Hk']]; [|by left].
    right. exists u, v. split; [left|]. by rewrite (Ho u i Eu), (Ho v j Ev).
  - intros a b Ha. by apply I2, Hmono.
  - intros x y k [[= -> -> ->]|Hin]%elem_of_cons [i Hx] [j Hy] Hne; [|by eapply I3; eauto]. apply I2. unfold rdv_edge. cbn. rewrite Hx, Hy.
    rewrite (Ho _ _ Hx), (Ho _ _ Hy). rewrite (proj2 (N.eqb_neq _ _) Hne). rewrite lookup_insert. eauto.
Qed.

Lemma remove_duplicate_vertices_ok m : (∀ v, is_Some (verts m !! v) ↔ v < nverts m) →
  ∃ m' n o, remove_duplicate_vertices key eqb order m = Some (m', n) ∧ nverts m = nverts m' + n ∧ Merged m o m'.
Proof using LW.
  intros Hvb. unfold remove_duplicate_vertices.
  assert (Forall (λ v, is_Some (verts m !! v)) (range (nverts m))) as Hr.
  { apply Forall_forall. intros v. by rewrite range_spec, Hvb. }
  destruct (rdv_groups_ok m (range (nverts m)) Hr ∅) as (g & -> & Hg). cbn [mbind option_bind].
  assert (∀ k l, g !! k = Some l ↔ l ≠ [] ∧ l = filter (λ v, vkey m v = Some k) (range (nverts m))) as Hgk.
  { intros k l. rewrite Hg, lookup_empty. destruct (filter _ _) as [|w l']; cbn.
    - split; [done|]. intros [Hn ->]. done.
    - split; [intros [= <-]; done|]. intros [_ ->]. done. }
  set (gs := order _ (map_to_list g).*2).
  assert (gs ≡ₚ (map_to_list g).*2) as Hgs by apply (lw_order _ _ _ _ LW).
  assert (∀ l, l ∈ gs ↔ ∃ k, g !! k = Some l) as Hin.
  { intros l. rewrite Hgs, elem_of_list_fmap. split.
    - intros ([k l']&->&Hl%elem_of_map_to_list). eauto.
    - intros [k Hk]. exists (k, l). split; [done|]. by apply elem_of_map_to_list. }
  destruct (rdv_all_ok m gs) with (dups := (∅ : gmap N N)) as (dups & -> & HM & _ & HD).
  { apply Forall_forall. intros l [k [_ ->]%Hgk]%Hin. apply filter_sorted, range_sorted. }
  { apply Forall_forall. intros l [k [_ ->]%Hgk]%Hin. apply Forall_forall. intros v [_ Hv]%elem_of_list_filter.
    apply range_spec in Hv. split; [by apply Hvb|done]. }
  { rewrite Hgs. 
    assert (∀ kl, kl ∈ map_to_list g → kl.2 = filter (λ v, vkey m v = Some kl.1) (range (nverts m))) as Hall.
    { intros [k l] Hkl%elem_of_map_to_list%Hgk. apply Hkl. }
    pose proof (NoDup_fst_map_to_list g) as Hnd. revert Hall Hnd. generalize (map_to_list g) as L. clear.
    induction L as [|[k l] L IH]; intros Hall Hnd; [constructor|]. rewrite fmap_cons. cbn [snd concat].
    rewrite fmap_cons in Hnd. cbn [fst] in Hnd. apply NoDup_cons in Hnd as [Hk Hnd].
    apply NoDup_app. split; [|split].
    - pose proof (Hall (k, l)) as Hl. cbn [fst snd] in Hl. rewrite Hl by left. apply NoDup_filter, sorted_NoDup, range_sorted.
    - intros v Hv Hin. pose proof (Hall (k, l)) as Hl. cbn [fst snd] in Hl. rewrite Hl in Hv by left.
      apply elem_of_list_filter in Hv as [Hv _].
      apply elem_of_list_In, in_concat in Hin as (l'&Hl'&Hv'). apply elem_of_list_In, elem_of_list_fmap in Hl' as ([k' l'']&->&Hl').
      apply elem_of_list_In in Hv'. cbn [snd] in Hv'. pose proof (Hall (k', l'')) as Hl2. cbn [fst snd] in Hl2. rewrite Hl2 in Hv' by (by right).
      apply elem_of_list_filter in Hv' as [Hv' _]. rewrite Hv in Hv'. injection Hv' as <-.
      apply Hk. apply elem_of_list_fmap. by exists (k, l'').
    - apply IH; [|done]. intros kl Hkl. apply Hall. by right. }
  { intros v c Hv. by rewrite lookup_empty in Hv. }
  { intros v c Hv. by rewrite lookup_empty in Hv. }
  cbn [mbind option_bind].
  assert (∀ u v, u < nverts m → v < nverts m → dups !! u = None → dups !! v = None → samev m u v → u = v) as Hdiff.
  { assert (∀ u v, u < v → u < nverts m → v < nverts m → dups !! u = None → dups !! v = None → ¬ samev m u v) as Hlt.
    { intros u v Huv Hu Hv Nu Nv Hs. pose proof Hs as (p&q&Hp&Hq&Hpq).
      destruct (lw_key _ _ _ _ LW p) as [k Hk]. assert (vkey m u = Some k ∧ vkey m v = Some k) as [Ku Kv].
      { unfold vkey. destruct (verts m !! u); [|done]. destruct (verts m !! v); [|done]. cbn in *.
        injection Hp as ->. injection Hq as ->. by rewrite <- (lw_same _ _ _ _ LW p q Hpq). }
      assert (u ∈ filter (λ v, vkey m v = Some k) (range (nverts m))) as Iu.
      { apply elem_of_list_filter. split; [done|]. by apply range_spec. }
      assert (v ∈ filter (λ v, vkey m v = Some k) (range (nverts m))) as Iv.
      { apply elem_of_list_filter. split; [done|]. by apply range_spec. }
      refine (HD _ u v _ Iu Iv Huv Nu Nv Hs). apply Hin. exists k. apply Hgk. split; [|done].
      intros E. rewrite E in Iu. by apply not_elem_of_nil in Iu. }
    intros u v Hu Hv Nu Nv Hs. destruct (N.lt_trichotomy u v) as [?|[?|?]]; [|done|]; exfalso.
    - by apply (Hlt u v).
    - apply (Hlt v u); try done. destruct Hs as (p&q&?&?&?). exists q, p. split_and!; try done. by apply (lw_sym _ _ _ _ LW). }
  case_bool_decide as De.
  { exists m, 0, id. split; [done|]. split; [lia|]. split; try done.
    - intros v p Hp. exists p. split; [done|apply (lw_refl _ _ _ _ LW)].
    - intros w Hw. exists w. done.
    - intros u v p q Hp Hq Hpq. apply Hdiff; try (rewrite De; apply lookup_empty); [..|by exists p, q];
        apply Hvb; [destruct (verts m !! u)|destruct (verts m !! v)]; done.
    - intros h. destruct (hes m !! h) as [x|]; [|done]. cbn. f_equal. destruct (hrem x), (hv x <? nverts m); by destruct x.
    - intros a b h Hh. by exists a, b. }
  clear De. pose proof (sorted_NoDup _ (range_sorted (nverts m))) as Hnr.
  destruct (rdv_keep_ok m dups (range (nverts m)) Hnr Hr 0) as (l & mp & -> & H2 & Hmp). cbn [mbind option_bind fst snd].
  set (kept := filter (λ v, dups !! v = None) (range (nverts m))) in *.
  assert (∀ v i, mp !! v = Some i ↔ kept !! N.to_nat i = Some v) as Hmp'.
  { intros v i. rewrite Hmp, N.sub_0_r. split; [by intros []|]. intros ?. split; [lia|done]. }
  assert (∀ v, v ∈ kept ↔ v < nverts m ∧ dups !! v = None) as Hkept.
  { intros v. unfold kept. rewrite elem_of_list_filter, range_spec. tauto. }
  assert (NoDup kept) as Hkn by (apply NoDup_filter; done).
  pose proof (Forall2_length _ _ _ H2) as Hlen.
  assert (length kept ≤ N.to_nat (nverts m))%nat as Hkl. { rewrite <- range_length. unfold kept. apply filter_length. }
  assert (∀ v, v ∈ kept → ∃ i, mp !! v = Some i ∧ kept !! N.to_nat i = Some v) as Hnum.
  { intros v (i&Ei)%elem_of_list_lookup. exists (N.of_nat i). rewrite Hmp', Nat2N.id. done. }
  set (L := order _ (map_to_list dups)). assert (L ≡ₚ map_to_list dups) as HL by apply (lw_order _ _ _ _ LW).
  set (o2n := foldl rdv_point mp L).
  assert (∀ d c, (d, c) ∈ L ↔ dups !! d = Some c) as HLin by (intros d c; rewrite HL; apply elem_of_map_to_list).
  assert (∀ d, d ∈ L.*1 ↔ is_Some (dups !! d)) as HL1.
  { intros d. rewrite elem_of_list_fmap. split; [intros ([d' c]&->&Hd%HLin); eauto|].
    intros [c Hc]. exists (d, c). split; [done|]. by apply HLin. }
  destruct (rdv_point_ok L mp) as [O1 O2].
  { rewrite HL. apply NoDup_fst_map_to_list. }
  { intros d c Hd%HLin. destruct (HM _ _ Hd) as (?&?&?&Hc). split; [rewrite HL1, Hc; by intros []|].
    destruct (Hnum c) as (i&?&_); [|by eexists]. apply Hkept. split; [lia|done]. }
  fold o2n in O1, O2.
  set (o := λ v, default 0 (o2n !! v)).
  (* the representative of a vertex *)
  assert (∀ v, v < nverts m → ∃ c i, o2n !! v = Some i ∧ kept !! N.to_nat i = Some c ∧ samev m v c ∧ (dups !! v = None → c = v)) as Hrep.
  { intros v Hv. destruct (dups !! v) as [c|] eqn:Ed.
    - destruct (HM _ _ Ed) as (?&_&(p&q&?&?&?)&Hc). destruct (Hnum c) as (i&Ei&Hi). { apply Hkept. split; [lia|done]. }
      exists c, i. rewrite (O1 v c) by (by apply HLin). split_and!; try done. exists q, p. split_and!; try done. by apply (lw_sym _ _ _ _ LW).
    - destruct (Hnum v) as (i&Ei&Hi); [by apply Hkept|]. exists v, i. rewrite O2; [|rewrite HL1, Ed; by intros []].
      split_and!; try done. apply Hvb in Hv as [x Ex]. exists (vpos x), (vpos x). rewrite Ex. split_and!; try done. apply (lw_refl _ _ _ _ LW). }
  assert (∀ v, o2n !! v = if v <? nverts m then Some (o v) else None) as Ho2n.
  { intros v. destruct (N.ltb_spec v (nverts m)) as [Hv|Hv].
    - destruct (Hrep v Hv) as (c&i&Ei&_). unfold o. by rewrite Ei.
    - destruct (dups !! v) as [c|] eqn:Ed; [destruct (HM _ _ Ed); lia|]. rewrite O2; [|rewrite HL1, Ed; by intros []].
      destruct (mp !! v) as [i|] eqn:Ei; [|done]. apply Hmp', elem_of_list_lookup_2, Hkept in Ei. lia. }
  assert (∀ i, vec_of 0 (rdv_anchor m <$> l) !! i = rdv_anchor m <$> l !! N.to_nat i) as Hvec.
  { intros i. rewrite vec_of_0. apply list_lookup_fmap. }
  assert (∀ x, vpos (rdv_anchor m x) = vpos x) as Hanch.
  { intros x. unfold rdv_anchor. destruct (vhe x); [|done]. by destruct (match hes m !! n with Some y => hrem y | None => true end). }
  assert (∀ i, vpos <$> vec_of 0 (rdv_anchor m <$> l) !! i = (v ← kept !! N.to_nat i; vpos <$> verts m !! v)) as Hpos.
  { intros i. rewrite Hvec. destruct (kept !! N.to_nat i) as [v|] eqn:E.
    - destruct (Forall2_lookup_l _ _ _ _ _ H2 E) as (x&->&Ex). cbn. rewrite Ex, Hanch. done.
    - destruct (l !! N.to_nat i) as [x|] eqn:El; [|done]. apply lookup_lt_Some in El. apply lookup_ge_None in E. lia. }
  eexists _, _, o. split; [done|]. cbn [nverts]. split; [lia|]. split; cbn [nverts verts hes nhes faces nfaces].
  - intros v. rewrite Hvec, fmap_is_Some, lookup_lt_is_Some. lia.
  - lia.
  - intros v Hv. destruct (Hrep v Hv) as (c&i&Ei&Hi&_). unfold o. rewrite Ei. cbn. apply lookup_lt_Some in Hi. lia.
  - intros v p Hp. destruct (verts m !! v) as [x|] eqn:Ex; [|done]. destruct (Hrep v) as (c&i&Ei&Hi&(p'&q&Hp'&Hq&Hpq)&_); [by apply Hvb|].
    exists q. rewrite Hpos. unfold o. rewrite Ei. cbn. rewrite Hi. cbn. split; [done|]. rewrite Ex in Hp'. cbn in *. congruence.
  - intros w Hw. destruct (lookup_lt_is_Some_2 kept (N.to_nat w)) as [v Hv]; [lia|].
    assert (v < nverts m ∧ dups !! v = None) as [Hvl Hvd] by (apply Hkept; by eapply elem_of_list_lookup_2).
    exists v. split; [done|]. destruct (Hrep v Hvl) as (c&i&Ei&Hi&_&Hc). rewrite (Hc Hvd) in Hi. split.
    + unfold o. rewrite Ei. cbn. apply (inj N.to_nat). by eapply (NoDup_lookup kept).
    + rewrite Hpos, Hv. done.
  - intros u v p q. rewrite !Hpos. destruct (kept !! N.to_nat u) as [cu|] eqn:Eu; [|done]. destruct (kept !! N.to_nat v) as [cv|] eqn:Ev; [|done].
    cbn. intros Hp Hq Hpq.
    assert (cu < nverts m ∧ dups !! cu = None) as [? ?] by (apply Hkept; by eapply elem_of_list_lookup_2).
    assert (cv < nverts m ∧ dups !! cv = None) as [? ?] by (apply Hkept; by eapply elem_of_list_lookup_2).
    assert (cu = cv) as -> by (apply Hdiff; try done; by exists p, q).
    apply (inj N.to_nat). by eapply (NoDup_lookup kept).
  - intros h. rewrite lookup_fmap. destruct (hes m !! h) as [x|]; [|done]. cbn. f_equal. unfold rdv_head.
    destruct (hrem x); [done|]. rewrite Ho2n. by destruct (hv x <? nverts m).
  - done.
  - intros a b h. cbn [emap]. intros Hh. destruct (rdv_edge_ok o2n o (order _ (map_to_list (emap m)))) with (em := (∅ : gmap (N * N) N)) as (I1&_&_).
    { intros v i Hv. rewrite Ho2n in Hv. destruct (v <? nverts m); congruence. }
    destruct (I1 a b h Hh) as [Hk|(u&v&Hinl&E)]; [by rewrite lookup_empty in Hk|]. exists u, v. split; [|done].
    apply elem_of_map_to_list. revert Hinl. by rewrite (lw_order _ _ _ _ LW).
  - intros u v h Hh Hu Hv Hne. cbn [emap]. destruct (rdv_edge_ok o2n o (order _ (map_to_list (emap m)))) with (em := (∅ : gmap (N * N) N)) as (_&_&I3).
    { intros w i Hw. rewrite Ho2n in Hw. destruct (w <? nverts m); congruence. }
    apply (I3 u v h); [|rewrite Ho2n, (proj2 (N.ltb_lt _ _)) by done; eauto..|done].
    rewrite (lw_order _ _ _ _ LW). by apply elem_of_map_to_list.
Qed.
End rdv.
