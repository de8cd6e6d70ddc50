(** The border welding pass (mesh/triangle.rs 94-107, 295-329): it never fails on
    a structurally sound mesh, rewrites only next/prev of live borders, and links
    every border of the components it visits to its neighbours in its fan. *)
From Verif Require Export MeshInv.
Local Open Scope N_scope.

Section weld.
Context {P : Type}.
Implicit Types (m : mesh P) (h k b c f u v : N).

(** same mesh up to next/prev of live borders *)
Record bsim m m' : Prop := {
  bs_verts : verts m' = verts m; bs_nverts : nverts m' = nverts m;
  bs_nhes : nhes m' = nhes m;
  bs_faces : faces m' = faces m; bs_nfaces : nfaces m' = nfaces m;
  bs_emap : emap m' = emap m;
  bs_some : ∀ h, is_Some (hes m' !! h) ↔ is_Some (hes m !! h);
  bs_L : ∀ h, L m' h ↔ L m h;
  bs_hd : ∀ h, hd m' h = hd m h;
  bs_tw : ∀ h, tw m' h = tw m h;
  bs_fc : ∀ h, fc m' h = fc m h;
  bs_nx : ∀ h, ¬ (L m h ∧ fc m h = None) → nx m' h = nx m h;
  bs_pv : ∀ h, ¬ (L m h ∧ fc m h = None) → pv m' h = pv m h
}.

Lemma bsim_refl m : bsim m m.
Proof. by split. Qed.

Lemma bsim_trans m1 m2 m3 : bsim m1 m2 → bsim m2 m3 → bsim m1 m3.
Proof.
  intros [] []. split; try congruence.
  - intros. by rewrite bs_some1.
  - intros. by rewrite bs_L1.
  - intros h Hh. rewrite bs_nx1; [by apply bs_nx0|]. by rewrite bs_L0, bs_fc0.
  - intros h Hh. rewrite bs_pv1; [by apply bs_pv0|]. by rewrite bs_L0, bs_fc0.
Qed.

Lemma bsim_nx_in m m' h : bsim m m' → fc m h ≠ None → nx m' h = nx m h.
Proof. intros HB Hf. apply (bs_nx _ _ HB). naive_solver. Qed.
Lemma bsim_pv_in m m' h : bsim m m' → fc m h ≠ None → pv m' h = pv m h.
Proof. intros HB Hf. apply (bs_pv _ _ HB). naive_solver. Qed.

Lemma bsim_SI m m' s : bsim m m' → SI m s → SI m' s.
Proof.
  intros HB HS. pose proof HB as []. pose proof HS as [?? ?? ?? ?????]. split.
  - intros h. by rewrite bs_some0, bs_nhes0.
  - by rewrite bs_nhes0.
  - by rewrite bs_faces0, bs_nfaces0.
  - by rewrite bs_nfaces0.
  - by rewrite bs_verts0, bs_nverts0.
  - by rewrite bs_nverts0.
  - intros h. rewrite !bs_L0, !bs_tw0, !bs_hd0. auto.
  - intros u v h. by rewrite bs_emap0, bs_L0, bs_tw0, !bs_hd0.
  - intros h f. rewrite bs_L0, bs_fc0. intros HL Hf Hs.
    destruct (si_in h f HL Hf Hs) as (?&Hn&?&?&Hp&?&?&?&?).
    rewrite (bsim_nx_in m m') by (auto; by rewrite Hf).
    rewrite (bsim_pv_in m m' h) by (auto; by rewrite Hf).
    rewrite (bsim_pv_in m m' (nx m h)) by (auto; by rewrite Hn).
    rewrite (bsim_nx_in m m' (nx m h)) by (auto; by rewrite Hn).
    rewrite (bsim_nx_in m m' (pv m h)) by (auto; by rewrite Hp).
    rewrite !bs_L0, !bs_fc0, !bs_tw0, !bs_hd0, bs_faces0. done.
  - intros b. rewrite bs_L0, !bs_fc0, bs_tw0. auto.
  - intros h. rewrite bs_L0, bs_hd0, bs_nverts0. auto.
Qed.

Lemma bsim_FH m m' s : bsim m m' → FH m s → FH m' s.
Proof.
  intros HB HF f x. rewrite (bs_faces _ _ HB). intros H1 H2 H3.
  destruct (HF f x H1 H2 H3) as (?&E&?).
  rewrite (bsim_nx_in m m') by (auto; by rewrite E).
  rewrite (bsim_pv_in m m') by (auto; by rewrite E).
  rewrite (bs_L _ _ HB), (bs_fc _ _ HB). split; [done|]. split; [done|].
  intros h. rewrite (bs_L _ _ HB), (bs_fc _ _ HB). auto.
Qed.

Lemma bsim_spokes m m' n k c : bsim m m' → spokes m' n k c ↔ spokes m n k c.
Proof.
  intros HB. pose proof HB as []. split.
  - induction 1 as [k Hk|n k c Hk Hs IH].
    + rewrite bs_fc0, bs_tw0 in Hk. rewrite bs_tw0. by constructor.
    + rewrite bs_fc0, bs_tw0 in Hk. rewrite bs_tw0, (bsim_pv_in m m') in IH by done.
      by constructor.
  - induction 1 as [k Hk|n k c Hk Hs IH].
    + rewrite <- bs_tw0. constructor. by rewrite bs_fc0, bs_tw0.
    + constructor; [by rewrite bs_fc0, bs_tw0|].
      rewrite bs_tw0, (bsim_pv_in m m') by done. done.
Qed.

Lemma bsim_fan m m' b c : bsim m m' → fc m (tw m b) ≠ None → fan m' b c ↔ fan m b c.
Proof.
  intros HB Hb. unfold fan. rewrite (bs_tw _ _ HB), (bsim_pv_in m m') by done.
  by setoid_rewrite (bsim_spokes m m' _ _ _ HB).
Qed.

(** a set of live borders closed under the fan relation in both directions *)
Definition closed m (V : gset N) : Prop :=
  ∀ b, b ∈ V → L m b ∧ fc m b = None ∧ (∀ c, fan m b c → c ∈ V) ∧
       (∀ a, L m a → fc m a = None → fan m a b → a ∈ V).

Definition linked m m' b : Prop :=
  fan m b (nx m' b) ∧ fan m (pv m' b) b ∧ L m (pv m' b) ∧ fc m (pv m' b) = None.

Section orbit.
Context m (HS : SI m None) (start : N) (Hst : L m start) (Hsf : fc m start = None).

Definition F b := default umax (find_next_border m b).
Definition beta (i : nat) := Nat.iter i F start.
Local Arguments beta : simpl never.

Lemma F_ok b : L m b → fc m b = None →
  find_next_border m b = Some (F b) ∧ fan m b (F b) ∧ L m (F b) ∧ fc m (F b) = None.
Proof.
  intros HL Hb. unfold F. destruct (find_next_border_ok m HS b HL Hb) as (c & -> & Hf).
  simpl. destruct (fan_end m HS b c HL Hb Hf) as (?&?&?). done.
Qed.

Lemma beta_ok i : L m (beta i) ∧ fc m (beta i) = None.
Proof.
  induction i as [|i [IH1 IH2]]; [done|].
  unfold beta; simpl. by apply F_ok.
Qed.

Lemma beta_S i : fan m (beta i) (beta (S i)).
Proof. apply F_ok; apply beta_ok. Qed.

Lemma beta_inj_S i j : beta (S i) = beta (S j) → beta i = beta j.
Proof.
  intros E. apply (fan_inj m HS _ _ (beta (S i))); try apply beta_ok.
  - apply beta_S.
  - rewrite E. apply beta_S.
Qed.

Lemma beta_sub i j : beta (i + j) = beta i → beta j = beta 0.
Proof.
  revert j. induction i as [|i IH]; intros j E; [done|].
  apply IH. apply beta_inj_S. apply E.
Qed.

Lemma period_exists : ∃ p, (0 < p ≤ N.to_nat (nhes m))%nat ∧ beta p = start ∧
  ∀ i, (0 < i < p)%nat → beta i ≠ start.
Proof.
  assert (∀ n, (∀ i, (0 < i ≤ n)%nat → beta i ≠ start) ∨
    ∃ p, (0 < p ≤ n)%nat ∧ beta p = start ∧ ∀ i, (0 < i < p)%nat → beta i ≠ start) as Hdec.
  { induction n as [|n IH]; [left; lia|].
    destruct IH as [IH|(p & ? & ? & ?)]; [|right; exists p; split; [lia|done]].
    destruct (decide (beta (S n) = start)).
    - right. exists (S n). split; [lia|]. split; [done|]. intros i Hi. apply IH. lia.
    - left. intros i Hi. destruct (decide (i = S n)) as [->|]; [done|apply IH; lia]. }
  destruct (Hdec (N.to_nat (nhes m))) as [Hall|]; [|done]. exfalso.
  pose proof (pigeon beta (S (N.to_nat (nhes m))) (nhes m)) as Hp.
  feed specialize Hp.
  - intros i _. apply (L_lt m HS). apply beta_ok.
  - intros i j Hij E. apply (Hall (j - i)%nat); [lia|].
    apply (beta_sub i). replace (i + (j - i))%nat with j by lia. done.
  - lia.
Qed.

Context (p : nat) (Hp : (0 < p ≤ N.to_nat (nhes m))%nat) (Hpp : beta p = start)
  (Hmin : ∀ i, (0 < i < p)%nat → beta i ≠ start).

Lemma beta_distinct i j : (i < j < p)%nat → beta i ≠ beta j.
Proof.
  intros Hij E. apply (Hmin (j - i)%nat); [lia|].
  apply (beta_sub i). replace (i + (j - i))%nat with j by lia. done.
Qed.

Lemma beta_not_vis vis i : closed m vis → start ∉ vis → beta i ∉ vis.
Proof.
  intros Hc Hs. induction i as [|i IH]; [done|]. intros Hi. apply IH.
  destruct (Hc _ Hi) as (_&_&_&Hb). apply Hb; try apply beta_ok. apply beta_S.
Qed.

Lemma collect_ok vis : closed m vis → start ∉ vis →
  ∀ j i, (i + j = p)%nat → (0 < j)%nat → ∀ fuel V, (j ≤ fuel)%nat →
    (∀ x, x ∈ V ↔ x ∈ vis ∨ ∃ i', (i' < i)%nat ∧ x = beta i') →
    ∃ V', collect_ring fuel m start (beta i) V = Some (beta <$> seq i j, V') ∧
      (∀ x, x ∈ V' ↔ x ∈ vis ∨ ∃ i', (i' < p)%nat ∧ x = beta i').
Proof.
  intros Hc Hs. induction j as [|j IH]; intros i Hij Hj fuel V Hfuel HV; [lia|].
  destruct fuel as [|fuel]; [lia|]. simpl.
  destruct (beta_ok i) as [HL Hf].
  destruct (N.ltb_spec (beta i) (nhes m)) as [_|Hlt]; simpl;
    [|pose proof (L_lt m HS _ HL); lia].
  rewrite bool_decide_eq_false_2.
  2: { rewrite HV. intros [Hv|(i'&Hi'&E)].
    - by apply (beta_not_vis vis i Hc Hs).
    - apply (beta_distinct i' i); [lia|done]. }
  destruct (F_ok _ HL Hf) as (-> & _ & HLF & _). simpl.
  destruct (N.eqb_spec (F (beta i)) umax) as [E|_].
  { exfalso. by apply (L_ne_umax m HS _ HLF). }
  simpl. change (F (beta i)) with (beta (S i)).
  assert (∀ x, x ∈ {[beta i]} ∪ V ↔ x ∈ vis ∨ ∃ i', (i' < S i)%nat ∧ x = beta i') as HV'.
  { intros x. rewrite elem_of_union, elem_of_singleton, HV. split.
    - intros [->|[?|(i'&?&->)]]; [right; exists i; split; [lia|done]|by left|].
      right. exists i'. split; [lia|done].
    - intros [?|(i'&?&->)]; [by right; left|].
      destruct (decide (i' = i)) as [->|]; [by left|]. right; right. exists i'.
      split; [lia|done]. }
  destruct (decide (j = 0)%nat) as [->|Hj0].
  - replace (S i) with p by lia. rewrite Hpp, N.eqb_refl. simpl.
    eexists. split; [done|]. intros x. rewrite HV'. replace (S i) with p by lia. done.
  - destruct (N.eqb_spec (beta (S i)) start) as [E|_].
    { exfalso. revert E. apply Hmin. lia. }
    destruct (IH (S i) ltac:(lia) ltac:(lia) fuel _ ltac:(lia) HV') as (V'' & -> & HV'').
    simpl. eexists. split; [done|]. done.
Qed.

Lemma ring_lookup i : (i < p)%nat → (beta <$> seq 0 p) !! i = Some (beta i).
Proof. intros. rewrite list_lookup_fmap, lookup_seq_lt by done. done. Qed.

Lemma ring_next i : (i < p)%nat → (beta <$> seq 0 p) !! Nat.modulo (i + 1) p = Some (beta (S i)).
Proof.
  intros. rewrite ring_lookup by (apply Nat.mod_upper_bound; lia). f_equal.
  destruct (decide (S i = p)) as [E|].
  - replace (i + 1)%nat with p by lia. rewrite Nat.mod_same by lia. rewrite E, Hpp. done.
  - rewrite Nat.mod_small by lia. f_equal. lia.
Qed.

Lemma ring_prev i : (i < p)%nat → ∃ a, (beta <$> seq 0 p) !! Nat.modulo (i + p - 1) p = Some a ∧
  fan m a (beta i) ∧ L m a ∧ fc m a = None.
Proof.
  intros. rewrite ring_lookup by (apply Nat.mod_upper_bound; lia).
  eexists. split; [done|].
  destruct (decide (i = 0)%nat) as [->|].
  - replace (0 + p - 1)%nat with (p - 1)%nat by lia. rewrite Nat.mod_small by lia.
    split; [|apply beta_ok]. pose proof (beta_S (p - 1)) as Hb.
    replace (S (p - 1)) with p in Hb by lia. rewrite Hpp in Hb. done.
  - replace (i + p - 1)%nat with ((i - 1) + 1 * p)%nat by lia.
    rewrite Nat.mod_add, Nat.mod_small by lia. split; [|apply beta_ok].
    pose proof (beta_S (i - 1)) as Hb. replace (S (i - 1)) with i in Hb by lia. done.
Qed.

Lemma write_ok is : ∀ m1, bsim m m1 → NoDup is → (∀ i, i ∈ is → (i < p)%nat) →
  ∃ m2, write_ring (beta <$> seq 0 p) is m1 = Some m2 ∧ bsim m m2 ∧
    (∀ i, i ∈ is → linked m m2 (beta i)) ∧
    (∀ b, (∀ i, i ∈ is → b ≠ beta i) → nx m2 b = nx m1 b ∧ pv m2 b = pv m1 b).
Proof.
  induction is as [|i is IH]; intros m1 HB Hnd Hlt; simpl.
  { exists m1. split; [done|]. split; [done|]. split; [|done]. intros i Hi. by apply elem_of_nil in Hi. }
  apply NoDup_cons in Hnd as [Hni Hnd].
  assert (i < p)%nat as Hi by (apply Hlt; left).
  unfold write_one. rewrite fmap_length, seq_length.
  rewrite (ring_lookup i Hi). cbn [mbind option_bind].
  rewrite (ring_next i Hi). cbn [mbind option_bind].
  destruct (ring_prev i Hi) as (a & Ea & Hfa & HLa & Hfca).
  rewrite Ea. cbn [mbind option_bind].
  destruct (beta_ok i) as [HL Hf].
  rewrite updH_eq by (apply (bs_some _ _ HB); by apply L_ok). cbn [mbind option_bind].
  rewrite updH_eq by (rewrite putH_lookup; by left). cbn [mbind option_bind].
  set (m1' := putH (putH m1 _ _) _ _).
  assert (∀ h, he m1' h = if h =? beta i
     then with_prev a (with_next (beta (S i)) (he m1 h)) else he m1 h) as Hhe.
  { intros h. unfold m1'. rewrite !he_putH. destruct (N.eqb_spec h (beta i)) as [->|]; [|done].
    by rewrite N.eqb_refl. }
  assert (bsim m1 m1') as HB1.
  { split; try done.
    - intros h. unfold m1'. rewrite !putH_lookup. split; [|by auto].
      intros [->|[->|?]]; [| |done]; apply (bs_some _ _ HB); by apply L_ok.
    - intros h. unfold L at 1, m1'. rewrite !live_putH.
      destruct (N.eqb_spec h (beta i)) as [->|]; [|done].
      rewrite !he_putH, N.eqb_refl. simpl.
      assert (L m1 (beta i)) as HL1 by (by apply (bs_L _ _ HB)).
      rewrite (L_rem _ _ HL1). simpl. done.
    - intros h. unfold hd. rewrite Hhe. by destruct (h =? beta i).
    - intros h. unfold tw. rewrite Hhe. by destruct (h =? beta i).
    - intros h. unfold fc. rewrite Hhe. by destruct (h =? beta i).
    - intros h. unfold nx. rewrite Hhe. destruct (N.eqb_spec h (beta i)) as [->|]; [|done].
      intros []. rewrite (bs_L _ _ HB), (bs_fc _ _ HB). done.
    - intros h. unfold pv. rewrite Hhe. destruct (N.eqb_spec h (beta i)) as [->|]; [|done].
      intros []. rewrite (bs_L _ _ HB), (bs_fc _ _ HB). done. }
  destruct (IH m1') as (m2 & E2 & HB2 & Hlk & Hfr); [by eapply bsim_trans|done|..].
  { intros j Hj. apply Hlt. by right. }
  exists m2. split; [done|]. split; [done|]. split.
  - intros j [->|Hj]%elem_of_cons; [|by apply Hlk].
    destruct (Hfr (beta i)) as [E1 E1'].
    { intros j Hj E. destruct (decide (i = j)) as [->|]; [done|].
      assert (j < p)%nat by (apply Hlt; by right).
      destruct (decide (i < j)%nat); [apply (beta_distinct i j)|apply (beta_distinct j i)];
        try done; lia. }
    unfold linked. rewrite E1, E1'. unfold nx, pv. rewrite Hhe, N.eqb_refl. simpl.
    split; [apply beta_S|done].
  - intros b Hb. destruct (Hfr b) as [E1 E2'].
    { intros j Hj. apply Hb. by right. }
    assert (b ≠ beta i) as Hbi by (apply Hb; left).
    rewrite E1, E2'. unfold nx, pv. rewrite Hhe. destruct (N.eqb_spec b (beta i)); [done|]. done.
Qed.
End orbit.

Lemma rebuild_ok m start vis :
  SI m None → L m start → fc m start = None → closed m vis → start ∉ vis →
  ∃ m' V, rebuild_border_component_from m start vis = Some (m', V) ∧ bsim m m' ∧
    closed m V ∧ start ∈ V ∧ vis ⊆ V ∧
    (∀ b, b ∈ V → b ∉ vis → linked m m' b) ∧
    (∀ b, b ∉ V ∨ b ∈ vis → nx m' b = nx m b ∧ pv m' b = pv m b).
Proof.
  intros HS HL Hf Hc Hs.
  destruct (period_exists m HS start HL Hf) as (p & Hp & Hpp & Hmin).
  destruct (collect_ok m HS start HL Hf p Hp Hpp Hmin vis Hc Hs p 0 eq_refl ltac:(lia)
     (N.to_nat (nhes m) + 65)%nat vis ltac:(lia)) as (V & EV & HV).
  { intros x. split; [by left|]. intros [?|(?&?&?)]; [done|lia]. }
  destruct (write_ok m HS start HL Hf p Hp Hpp Hmin (seq 0 p) m) as (m2 & E2 & HB & Hlk & Hfr).
  { apply bsim_refl. } { apply NoDup_seq. } { intros i. rewrite elem_of_seq. lia. }
  exists m2, V. unfold rebuild_border_component_from.
  destruct (N.eqb_spec start umax) as [->|_]; [by destruct (L_ne_umax m HS _ HL)|].
  rewrite (L_getH _ _ HL). cbn [mbind option_bind]. rewrite (L_rem _ _ HL).
  fold (fc m start). rewrite Hf. cbn [orb is_some].
  change (beta m start 0) with start in EV. rewrite EV. cbn [mbind option_bind fst snd].
  rewrite fmap_length, seq_length, E2. cbn [mbind option_bind fst snd].
  split; [done|]. split; [done|]. split; [|split; [|split; [|split]]].
  - intros b [Hb|(i&Hi&->)]%HV.
    + destruct (Hc b Hb) as (?&?&H1&H2). split; [done|]. split; [done|].
      split; intros; apply HV; left; eauto.
    + destruct (beta_ok m HS start HL Hf i) as [H1 H2]. split; [done|]. split; [done|].
      pose proof (beta_S m HS start HL Hf i) as HbS. split.
      * intros c Hc'. apply HV. right. rewrite (fan_fun m _ _ _ Hc' HbS).
        destruct (decide (S i = p)) as [->|]; [|exists (S i); split; [lia|done]].
        exists 0%nat. split; [lia|]. by rewrite Hpp.
      * intros a Ha Hfa Hfan. apply HV. right. destruct i as [|i].
        -- exists (p - 1)%nat. split; [lia|].
           eapply (fan_inj m HS); [done|done|apply beta_ok; done|apply beta_ok; done|done|].
           pose proof (beta_S m HS start HL Hf (p - 1)) as HbS'.
           replace (S (p - 1)) with p in HbS' by lia. rewrite Hpp in HbS'. done.
        -- exists i. split; [lia|].
           eapply (fan_inj m HS); [done|done|apply beta_ok; done|apply beta_ok; done|done|].
           apply beta_S; done.
  - apply HV. right. exists 0%nat. split; [lia|done].
  - intros x Hx. apply HV. by left.
  - intros b [?|(i&Hi&->)]%HV Hnv; [done|]. apply Hlk. rewrite elem_of_seq. lia.
  - intros b Hb. apply Hfr. intros i Hi%elem_of_seq ->. destruct Hb as [Hb|Hb].
    + apply Hb, HV. right. exists i. split; [lia|done].
    + by apply (beta_not_vis m HS start HL Hf vis i Hc Hs).
Qed.

Lemma bsim_closed m m' V : SI m None → bsim m m' → closed m V ↔ closed m' V.
Proof.
  intros HS HB. unfold closed.
  assert (∀ b c, L m b → fc m b = None → fan m' b c ↔ fan m b c) as Hfan.
  { intros b c H1 H2. apply bsim_fan; [done|]. by apply (si_out _ _ HS). }
  split; intros H b Hb; destruct (H b Hb) as (H1&H2&H3&H4).
  - rewrite (bs_L _ _ HB), (bs_fc _ _ HB). split; [done|]. split; [done|]. split.
    + intros c Hc. apply H3. by apply Hfan.
    + intros a. rewrite (bs_L _ _ HB), (bs_fc _ _ HB). intros Ha Hfa Hf. apply H4; try done.
      by apply Hfan.
  - rewrite (bs_L _ _ HB) in H1. rewrite (bs_fc _ _ HB) in H2. split; [done|]. split; [done|].
    split.
    + intros c Hc. apply H3. by apply Hfan.
    + intros a Ha Hfa Hf. apply H4.
      * by rewrite (bs_L _ _ HB).
      * by rewrite (bs_fc _ _ HB).
      * by apply Hfan.
Qed.

Lemma weld_ok starts : ∀ m vis, SI m None → closed m vis →
  ∃ m' V, weld m starts vis = Some (m', V) ∧ bsim m m' ∧ closed m V ∧ vis ⊆ V ∧
    (∀ b, b ∈ starts → L m b → fc m b = None → b ∈ V) ∧
    (∀ b, b ∈ V → b ∉ vis → linked m m' b) ∧
    (∀ b, b ∉ V ∨ b ∈ vis → nx m' b = nx m b ∧ pv m' b = pv m b).
Proof.
  induction starts as [|s starts IH]; intros m vis HS Hc.
  { exists m, vis. simpl. split; [done|]. split; [apply bsim_refl|]. split; [done|].
    split; [done|]. split; [|done]. intros b Hb. by apply elem_of_nil in Hb. }
  simpl.
  destruct (decide (s = umax ∨ ¬ s < nhes m)) as [Hbad|Hok].
  { assert ((s =? umax) || negb (s <? nhes m) = true) as ->.
    { destruct Hbad as [->|Hlt]; [done|]. apply N.ltb_nlt in Hlt. rewrite Hlt. by rewrite orb_true_r. }
    destruct (IH m vis HS Hc) as (m' & V & ? & ? & ? & ? & Hst & ? & ?).
    exists m', V. repeat (split; [done|]). split; [|done].
    intros b [->|?]%elem_of_cons HL Hf; [|by apply Hst]. exfalso.
    destruct Hbad as [->|Hlt]; [by apply (L_ne_umax m HS _ HL)|].
    by apply Hlt, (L_lt m HS). }
  assert ((s =? umax) || negb (s <? nhes m) = false) as ->.
  { apply orb_false_iff. split; [apply N.eqb_neq; naive_solver|].
    rewrite negb_false_iff. apply N.ltb_lt. destruct (decide (s < nhes m)); [done|]. naive_solver. }
  assert (s < nhes m) as Hlt by (destruct (decide (s < nhes m)); [done|naive_solver]).
  rewrite getH_ok by (by apply (si_hb _ _ HS)). cbn [mbind option_bind].
  destruct (decide (L m s ∧ fc m s = None ∧ s ∉ vis)) as [(HL & Hf & Hv)|Hno].
  - rewrite (L_rem _ _ HL). fold (fc m s). rewrite Hf.
    rewrite bool_decide_eq_false_2 by done. cbn [negb andb is_none].
    destruct (rebuild_ok m s vis HS HL Hf Hc Hv) as (m1 & V1 & E1 & HB1 & HC1 & Hs1 & Hv1 & Hl1 & Hf1).
    rewrite E1. cbn [mbind option_bind fst snd].
    destruct (IH m1 V1) as (m' & V & E & HB & HC & HV & Hst & Hlk & Hfr).
    { by eapply bsim_SI. } { by apply (bsim_closed m m1 V1 HS HB1). }
    exists m', V. split; [done|]. split; [by eapply bsim_trans|].
    split; [by apply (bsim_closed m m1 V HS HB1)|]. split; [set_solver|]. split; [|split].
    + intros b [->|?]%elem_of_cons HLb Hfb; [set_solver|].
      apply Hst; [done|by apply (bs_L _ _ HB1)|by rewrite (bs_fc _ _ HB1)].
    + intros b Hb Hnv. destruct (decide (b ∈ V1)) as [Hb1|Hb1].
      * destruct (Hfr b) as [E2 E3]; [by right|].
        destruct (Hl1 b Hb1 Hnv). unfold linked. by rewrite E2, E3.
      * destruct (HC b Hb) as (HLb & Hfb & _).
        rewrite (bs_L _ _ HB1) in HLb. rewrite (bs_fc _ _ HB1) in Hfb.
        destruct (Hlk b Hb Hb1) as (G1 & G2 & G3 & G4).
        rewrite (bs_L _ _ HB1) in G3. rewrite (bs_fc _ _ HB1) in G4.
        apply (bsim_fan m m1) in G1; [|done|by apply (si_out _ _ HS)].
        apply (bsim_fan m m1) in G2; [|done|by apply (si_out _ _ HS)].
        done.
    + intros b Hb. destruct (Hfr b) as [E2 E3].
      { destruct Hb; [by left|right]. set_solver. }
      rewrite E2, E3. apply Hf1. destruct Hb as [Hb|]; [left; set_solver|by right].
  - assert (negb (hrem (he m s)) && is_none (hface (he m s)) && negb (bool_decide (s ∈ vis)) = false) as ->.
    { apply not_true_iff_false. intros H. apply Hno.
      apply andb_true_iff in H as [[H1 H2]%andb_true_iff H3].
      rewrite negb_true_iff in H1, H3. apply bool_decide_eq_false in H3.
      split; [|split; [|done]].
      - apply (L_intro m s (he m s)); [|done].
        destruct (proj2 (si_hb _ _ HS s) Hlt) as [x Hx]. unfold he. by rewrite Hx.
      - unfold fc. by destruct (hface (he m s)). }
    destruct (IH m vis HS Hc) as (m' & V & ? & ? & ? & ? & Hst & ? & ?).
    exists m', V. repeat (split; [done|]). split; [|done].
    intros b [->|?]%elem_of_cons HL Hf; [|by apply Hst].
    destruct (decide (s ∈ vis)) as [|Hn]; [set_solver|]. exfalso. by apply Hno.
Qed.
End weld.
