(** Structural invariant of the half-edge mesh and the theory of border fans. *)
From Verif Require Export MeshBase.
Local Open Scope N_scope.

Section inv.
Context {P : Type}.
Implicit Types (m : mesh P) (h k b c f u v : N).

(** [SI m skip]: the structural invariant, except for the half-edges of the face
    [skip] (the face under construction). *)
Record SI m (skip : option N) : Prop := {
  si_hb : ∀ h, is_Some (hes m !! h) ↔ h < nhes m;
  si_hmax : nhes m ≤ umax;
  si_fb : ∀ f, is_Some (faces m !! f) ↔ f < nfaces m;
  si_fmax : nfaces m ≤ umax;
  si_vb : ∀ v, is_Some (verts m !! v) ↔ v < nverts m;
  si_vmax : nverts m ≤ umax;
  si_tw : ∀ h, L m h → L m (tw m h) ∧ tw m (tw m h) = h ∧ hd m (tw m h) ≠ hd m h;
  si_em : ∀ u v h, emap m !! (u, v) = Some h ↔ L m h ∧ hd m h = v ∧ hd m (tw m h) = u;
  si_in : ∀ h f, L m h → fc m h = Some f → skip ≠ Some f →
    L m (nx m h) ∧ fc m (nx m h) = Some f ∧ pv m (nx m h) = h ∧
    L m (pv m h) ∧ fc m (pv m h) = Some f ∧ nx m (pv m h) = h ∧
    nx m (nx m h) = pv m h ∧ hd m (tw m (nx m h)) = hd m h ∧
    (∃ x, faces m !! f = Some x ∧ frem x = false);
  si_out : ∀ b, L m b → fc m b = None → fc m (tw m b) ≠ None;
  si_hd : ∀ h, L m h → hd m h < nverts m
}.

(** live faces own exactly one triangle of half-edges *)
Definition FH m (skip : option N) : Prop :=
  ∀ f x, faces m !! f = Some x → frem x = false → skip ≠ Some f →
    L m (fhe x) ∧ fc m (fhe x) = Some f ∧
    ∀ h, L m h → fc m h = Some f → h = fhe x ∨ h = nx m (fhe x) ∨ h = pv m (fhe x).

(** border rings are closed under next/prev *)
Definition ring_ok m : Prop :=
  ∀ b, L m b → fc m b = None →
    L m (nx m b) ∧ fc m (nx m b) = None ∧ pv m (nx m b) = b ∧
    L m (pv m b) ∧ fc m (pv m b) = None ∧ nx m (pv m b) = b.

(** [spokes m n k c]: rotating [n] times around the head of [k] reaches a spoke
    whose twin is the border [c] *)
Inductive spokes m : nat → N → N → Prop :=
| sp_stop k : fc m (tw m k) = None → spokes m 0 k (tw m k)
| sp_step n k c : fc m (tw m k) ≠ None → spokes m n (pv m (tw m k)) c → spokes m (S n) k c.

(** [fan m b c]: [c] is the border that follows [b] around the fan of faces at
    the head of [b] *)
Definition fan m b c : Prop := ∃ n, spokes m n (pv m (tw m b)) c.

(** every border is linked to its neighbours in its fan *)
Definition BI m : Prop :=
  ∀ b, L m b → fc m b = None → fan m b (nx m b) ∧ fan m (pv m b) b ∧
       L m (pv m b) ∧ fc m (pv m b) = None.

(** vertex anchors *)
Definition VI m : Prop :=
  ∀ v x, verts m !! v = Some x →
    match vhe x with
    | Some h => L m h ∧ tl m h = v
    | None => ∀ h, L m h → tl m h ≠ v
    end.

Record WF m : Prop := {
  wf_si : SI m None;
  wf_fh : FH m None;
  wf_bi : BI m;
  wf_vi : VI m
}.

(** ** Consequences *)
Section cons.
Context m (HS : SI m None).

Lemma L_lt h : L m h → h < nhes m.
Proof. intros ?%L_ok. by apply (si_hb _ _ HS). Qed.

Lemma L_ne_umax h : L m h → h ≠ umax.
Proof. intros ?%L_lt. pose proof (si_hmax _ _ HS). lia. Qed.

Lemma tw_L h : L m h → L m (tw m h). Proof. intros; by apply (si_tw _ _ HS). Qed.
Lemma tw_tw h : L m h → tw m (tw m h) = h. Proof. intros; by apply (si_tw _ _ HS). Qed.
Lemma tw_inj h k : L m h → L m k → tw m h = tw m k → h = k.
Proof. intros ?? E. rewrite <- (tw_tw h), <- (tw_tw k) by done. by rewrite E. Qed.

(** interior half-edges *)
Definition In h : Prop := L m h ∧ fc m h ≠ None.

Lemma In_face h : In h → ∃ f, fc m h = Some f.
Proof. intros [_ ?]. destruct (fc m h); eauto. done. Qed.

Lemma In_pv h : In h → In (pv m h) ∧ nx m (pv m h) = h ∧ hd m (pv m h) = hd m (tw m h).
Proof.
  intros HI. destruct (In_face _ HI) as [f Hf]. destruct HI as [HL _].
  destruct (si_in _ _ HS h f HL Hf) as (?&?&?&Hp&Hpf&Hnp&?&?&?); [done|].
  destruct (si_in _ _ HS _ f Hp Hpf) as (_&_&_&_&_&_&_&Hh&_); [done|].
  split; [split|split]; [done|by rewrite Hpf|done|]. rewrite Hnp in Hh. done.
Qed.

Lemma In_nx h : In h → In (nx m h) ∧ pv m (nx m h) = h ∧ hd m (tw m (nx m h)) = hd m h.
Proof.
  intros HI. destruct (In_face _ HI) as [f Hf]. destruct HI as [HL _].
  destruct (si_in _ _ HS h f HL Hf) as (?&Hn&?&Hp&Hpf&Hnp&?&?&?); [done|].
  split; [split|split]; try done. by rewrite Hn.
Qed.

Lemma border_tw_In b : L m b → fc m b = None → In (tw m b).
Proof. intros HL Hb. split; [by apply tw_L|]. by apply (si_out _ _ HS). Qed.

Lemma spokes_start b : L m b → fc m b = None →
  In (pv m (tw m b)) ∧ hd m (pv m (tw m b)) = hd m b ∧ nx m (pv m (tw m b)) = tw m b.
Proof.
  intros HL Hb. destruct (In_pv (tw m b)) as (?&?&E); [by apply border_tw_In|].
  rewrite (tw_tw b HL) in E. done.
Qed.

Definition rot k := pv m (tw m k).

Lemma rot_In k : In k → fc m (tw m k) ≠ None →
  In (rot k) ∧ hd m (rot k) = hd m k ∧ nx m (rot k) = tw m k.
Proof.
  intros [HL HI] Ht. destruct (In_pv (tw m k)) as (?&?&E).
  { split; [by apply tw_L|done]. }
  rewrite (tw_tw k HL) in E. done.
Qed.

(** functional *)
Lemma spokes_fun n n' k c c' : spokes m n k c → spokes m n' k c' → c = c' ∧ n = n'.
Proof.
  intros Hs. revert n' c'. induction Hs; intros n' c' Hs'; inversion Hs'; subst; try done.
  edestruct IHHs as [-> ->]; eauto.
Qed.

Lemma fan_fun b c c' : fan m b c → fan m b c' → c = c'.
Proof. intros [? H1] [? H2]. by destruct (spokes_fun _ _ _ _ _ H1 H2). Qed.

(** end points *)
Lemma spokes_end n k c : spokes m n k c → In k →
  L m c ∧ fc m c = None ∧ tl m c = hd m k.
Proof.
  induction 1 as [k Hk|n k c Hk Hs IH]; intros HI.
  - split; [apply tw_L, HI|]. split; [done|]. unfold tl. by rewrite tw_tw by apply HI.
  - destruct (rot_In k HI Hk) as (HI' & Hh & _). destruct (IH HI') as (?&?&E).
    split; [done|]. split; [done|]. rewrite E. apply Hh.
Qed.

Lemma fan_end b c : L m b → fc m b = None → fan m b c →
  L m c ∧ fc m c = None ∧ tl m c = hd m b.
Proof.
  intros HL Hb [n Hs]. destruct (spokes_start b HL Hb) as (HI&E&_).
  destruct (spokes_end _ _ _ Hs HI) as (?&?&?). rewrite <- E. done.
Qed.

Lemma fan_ne b c : L m b → fc m b = None → fan m b c → c ≠ b.
Proof.
  intros HL Hb Hf ->. destruct (fan_end _ _ HL Hb Hf) as (_&_&E).
  by destruct (si_tw _ _ HS b HL) as (_&_&Hn).
Qed.

(** injective: walk the fan backwards *)
Definition back k := tw m (nx m k).

Lemma spokes_back n k c : spokes m n k c → In k →
  k = Nat.iter n back (tw m c) ∧
  ∀ j, (1 ≤ j ≤ n)%nat → fc m (Nat.iter j back (tw m c)) ≠ None.
Proof.
  induction 1 as [k Hk|n k c Hk Hs IH]; intros HI.
  - simpl. rewrite tw_tw by apply HI. split; [done|]. intros; lia.
  - destruct (rot_In k HI Hk) as (HI' & _ & Hn). destruct (IH HI') as [E Hj].
    assert (k = back (rot k)) as Ek.
    { unfold back. rewrite Hn. by rewrite tw_tw by apply HI. }
    assert (k = Nat.iter (S n) back (tw m c)) as Ek'.
    { simpl. rewrite <- E. apply Ek. }
    split; [done|]. intros j Hjn. destruct (decide (j = S n)) as [->|].
    + rewrite <- Ek'. apply HI.
    + apply Hj. lia.
Qed.

Lemma fan_inj b b' c : L m b → fc m b = None → L m b' → fc m b' = None →
  fan m b c → fan m b' c → b = b'.
Proof.
  intros Hb Eb Hb' Eb' [n Hs] [n' Hs'].
  destruct (spokes_start b Hb Eb) as (HI&_&Hn).
  destruct (spokes_start b' Hb' Eb') as (HI'&_&Hn').
  destruct (spokes_back _ _ _ Hs HI) as [E Hj].
  destruct (spokes_back _ _ _ Hs' HI') as [E' Hj'].
  assert (b = Nat.iter (S n) back (tw m c)) as B.
  { simpl. rewrite <- E. unfold back. rewrite Hn. by rewrite tw_tw. }
  assert (b' = Nat.iter (S n') back (tw m c)) as B'.
  { simpl. rewrite <- E'. unfold back. rewrite Hn'. by rewrite tw_tw. }
  destruct (decide (n = n')) as [->|Hne]; [by rewrite B, B'|].
  exfalso. destruct (decide (n < n')%nat).
  - apply (Hj' (S n)); [lia|]. rewrite <- B. done.
  - apply (Hj (S n')); [lia|]. rewrite <- B'. done.
Qed.

(** total *)
Definition kk b i := Nat.iter i rot (pv m (tw m b)).
Local Arguments kk : simpl never.

Lemma iter_In b n : L m b → fc m b = None →
  (∀ i, (i < n)%nat → fc m (tw m (kk b i)) ≠ None) →
  ∀ i, (i ≤ n)%nat → In (kk b i).
Proof.
  intros Hb Eb Hall i. induction i as [|i IH]; intros Hi.
  - by apply spokes_start.
  - unfold kk; simpl. apply rot_In; [apply IH; lia|apply Hall; lia].
Qed.

Lemma rot_inj k k' : In k → In k' → fc m (tw m k) ≠ None → fc m (tw m k') ≠ None →
  rot k = rot k' → k = k'.
Proof.
  intros HI HI' Hk Hk' E. destruct (rot_In k HI Hk) as (_&_&N1).
  destruct (rot_In k' HI' Hk') as (_&_&N2). rewrite E in N1.
  apply tw_inj; [apply HI|apply HI'|congruence].
Qed.

Lemma kk_ne_start b n : L m b → fc m b = None →
  (∀ i, (i < n)%nat → fc m (tw m (kk b i)) ≠ None) →
  ∀ i, (0 < i ≤ n)%nat → kk b i ≠ kk b 0.
Proof.
  intros Hb Eb Hall i Hi E. destruct i as [|i]; [lia|].
  assert (In (kk b i)) as HI by (apply (iter_In b n); auto; lia).
  destruct (rot_In (kk b i) HI) as (_&_&N1); [apply Hall; lia|].
  destruct (spokes_start b Hb Eb) as (_&_&N2).
  change (rot (kk b i)) with (kk b (S i)) in N1. rewrite E in N1. unfold kk in N1; simpl in N1.
  rewrite N2 in N1. apply tw_inj in N1; [|done|apply HI].
  destruct HI as [_ HI]. apply HI. unfold kk. rewrite <- N1. done.
Qed.

Lemma kk_inj b n : L m b → fc m b = None →
  (∀ i, (i < n)%nat → fc m (tw m (kk b i)) ≠ None) →
  ∀ j i, (i < j ≤ n)%nat → kk b i ≠ kk b j.
Proof.
  intros Hb Eb Hall j i. revert j. induction i as [|i IH]; intros j Hij E.
  - symmetry in E. revert E. apply (kk_ne_start b n); auto; lia.
  - destruct j as [|j]; [lia|]. apply (IH j); [lia|].
    apply rot_inj; [apply (iter_In b n); auto; lia|apply (iter_In b n); auto; lia| | |done];
    apply Hall; lia.
Qed.

Lemma range_spec n x : x ∈ range n ↔ x < n.
Proof.
  unfold range. rewrite elem_of_list_fmap. split.
  - intros (y & -> & ?%elem_of_seq). lia.
  - intros ?. exists (N.to_nat x). rewrite elem_of_seq. lia.
Qed.
Lemma range_length n : length (range n) = N.to_nat n.
Proof. unfold range. by rewrite fmap_length, seq_length. Qed.

Lemma pigeon (g : nat → N) (n : nat) (B : N) :
  (∀ i, (i < n)%nat → g i < B) →
  (∀ i j, (i < j < n)%nat → g i ≠ g j) → (n ≤ N.to_nat B)%nat.
Proof.
  intros Hlt Hinj.
  assert (length (g <$> seq 0 n) ≤ length (range B))%nat as Hl.
  { apply submseteq_length, NoDup_submseteq.
    - apply NoDup_fmap_2_strong; [|apply NoDup_seq].
      intros x y Hx%elem_of_seq Hy%elem_of_seq E.
      destruct (decide (x = y)); [done|]. exfalso.
      destruct (decide (x < y)%nat); [apply (Hinj x y)|apply (Hinj y x)]; try done; lia.
    - intros x (i & -> & ?%elem_of_seq)%elem_of_list_fmap. rewrite range_spec.
      apply Hlt. lia. }
  rewrite fmap_length, seq_length, range_length in Hl. done.
Qed.

Lemma stop_exists b : L m b → fc m b = None →
  ∃ n, (n < N.to_nat (nhes m))%nat ∧ fc m (tw m (kk b n)) = None ∧
       ∀ i, (i < n)%nat → fc m (tw m (kk b i)) ≠ None.
Proof.
  intros Hb Eb.
  assert (∀ n, (∀ i, (i < n)%nat → fc m (tw m (kk b i)) ≠ None) ∨
    ∃ n', (n' < n)%nat ∧ fc m (tw m (kk b n')) = None ∧
       ∀ i, (i < n')%nat → fc m (tw m (kk b i)) ≠ None) as Hdec.
  { induction n as [|n IH]; [left; lia|].
    destruct IH as [IH|(n' & ? & ? & ?)]; [|right; exists n'; split; [lia|done]].
    destruct (fc m (tw m (kk b n))) eqn:E.
    - left. intros i Hi. destruct (decide (i = n)) as [->|]; [by rewrite E|apply IH; lia].
    - right. exists n. split; [lia|done]. }
  destruct (Hdec (N.to_nat (nhes m))) as [Hall|(n & ? & ? & ?)]; [|by exists n].
  exfalso. 
  pose proof (pigeon (kk b) (S (N.to_nat (nhes m))) (nhes m)) as Hp.
  feed specialize Hp.
  - intros i Hi. apply L_lt. apply (iter_In b (N.to_nat (nhes m))); auto; lia.
  - intros i j Hij. apply (kk_inj b (N.to_nat (nhes m))); auto; lia.
  - lia.
Qed.

Lemma fnb_loop_ok b n : L m b → fc m b = None →
  fc m (tw m (kk b n)) = None →
  (∀ i, (i < n)%nat → fc m (tw m (kk b i)) ≠ None) →
  ∀ j i, (i + j = n)%nat → ∀ fuel, (j < fuel)%nat →
    fnb_loop fuel m b (kk b 0) (kk b i) = Some (tw m (kk b n)) ∧
    spokes m j (kk b i) (tw m (kk b n)).
Proof.
  intros Hb Eb Hstop Hall.
  assert (∀ i, (i ≤ n)%nat → In (kk b i)) as HIn by (by apply iter_In).
  assert (tw m (kk b n) ≠ b) as Hnb.
  { intros E. destruct (HIn n) as [H1 H2]; [lia|].
    pose proof (sp_stop m (kk b n) Hstop) as Q. rewrite E in Q.
    assert (fan m b b) as Hfan.
    { exists n. assert (∀ j i, (i + j = n)%nat → spokes m j (kk b i) b) as Hs.
      { induction j as [|j IH]; intros i Hi.
        - replace i with n by lia. done.
        - constructor; [apply Hall; lia|]. apply (IH (S i)). lia. }
      apply (Hs n 0%nat). lia. }
    by apply (fan_ne b b Hb Eb Hfan). }
  induction j as [|j IH]; intros i Hij fuel Hf; (destruct fuel as [|fuel]; [lia|]).
  - replace i with n by lia. split; [|by constructor].
    simpl. destruct (HIn n) as [H1 H2]; [lia|].
    rewrite (L_getH _ _ H1). simpl. fold (tw m (kk b n)).
    destruct (N.eqb_spec (tw m (kk b n)) umax) as [E|_].
    { exfalso. apply (L_ne_umax (tw m (kk b n))); [by apply tw_L|done]. }
    rewrite (L_getH m (tw m (kk b n))) by (by apply tw_L). simpl.
    rewrite (L_rem m (tw m (kk b n))) by (by apply tw_L).
    fold (fc m (tw m (kk b n))). rewrite Hstop. simpl.
    destruct (N.eqb_spec (tw m (kk b n)) b); [done|]. done.
  - destruct (HIn i) as [H1 H2]; [lia|]. assert (fc m (tw m (kk b i)) ≠ None) as Hne by (apply Hall; lia).
    destruct (IH (S i) ltac:(lia) fuel ltac:(lia)) as [IH1 IH2]. split; [|by constructor].
    simpl. rewrite (L_getH _ _ H1). simpl. fold (tw m (kk b i)).
    destruct (N.eqb_spec (tw m (kk b i)) umax) as [E|_].
    { exfalso. apply (L_ne_umax (tw m (kk b i))); [by apply tw_L|done]. }
    rewrite (L_getH m (tw m (kk b i))) by (by apply tw_L). simpl.
    fold (fc m (tw m (kk b i))). destruct (fc m (tw m (kk b i))) eqn:Ef; [|done]. simpl.
    rewrite andb_false_r. simpl.
    unfold rotate_around_head. rewrite (L_getH _ _ H1). simpl. fold (tw m (kk b i)).
    destruct (N.eqb_spec (tw m (kk b i)) umax) as [E|_].
    { exfalso. apply (L_ne_umax (tw m (kk b i))); [by apply tw_L|done]. }
    simpl. rewrite (L_getH m (tw m (kk b i))) by (by apply tw_L). simpl.
    fold (pv m (tw m (kk b i))). change (pv m (tw m (kk b i))) with (kk b (S i)).
    destruct (N.eqb_spec (kk b (S i)) (kk b 0)) as [E|_]; [|exact IH1].
    exfalso. revert E. apply (kk_ne_start b n); auto; lia.
Qed.

Lemma find_next_border_ok b : L m b → fc m b = None →
  ∃ c, find_next_border m b = Some c ∧ fan m b c.
Proof.
  intros Hb Eb. destruct (stop_exists b Hb Eb) as (n & Hn & Hs & Ha).
  destruct (fnb_loop_ok b n Hb Eb Hs Ha n 0 eq_refl (N.to_nat (nhes m) + 65)%nat ltac:(lia)) as [E Hsp].
  exists (tw m (kk b n)). split; [|by exists n].
  unfold find_next_border. rewrite (L_getH _ _ Hb). simpl. fold (fc m b). rewrite Eb. simpl.
  fold (tw m b). destruct (N.eqb_spec (tw m b) umax) as [E'|_].
  { exfalso. apply (L_ne_umax (tw m b)); [by apply tw_L|done]. }
  simpl. rewrite (L_getH m (tw m b)) by (by apply tw_L). simpl. fold (fc m (tw m b)).
  pose proof (si_out _ _ HS b Hb Eb) as Ho. destruct (fc m (tw m b)) eqn:Ef; [|done]. simpl.
  apply E.
Qed.

Lemma fan_total b : L m b → fc m b = None → ∃ c, fan m b c.
Proof. intros H1 H2. destruct (find_next_border_ok b H1 H2) as (c&_&?). eauto. Qed.

End cons.
End inv.
