(** The loop over the half-edges meets each edge in use once. *)
From Verif Require Import EdgeLenSpec MeshBase MeshInv MeshCompact.
Local Open Scope N_scope.

Section lengths.
Variables (m : mesh point).
Hypothesis (W : WellFormed m).

Lemma runs_back h x u v : live_he m h x → runs m h u v → runs m (htwin x) v u.
Proof.
  intros Hx (x'&y&Hx'&Hy&Eu&Ev). assert (x' = x) as -> by (destruct Hx, Hx'; congruence).
  destruct (wfs_twin _ W h x Hx) as (y'&Hy'&Et&_). assert (y' = y) as -> by (destruct Hy, Hy'; congruence).
  exists y, x. rewrite Et. done.
Qed.
Lemma runs_once h h' u v : runs m h u v → runs m h' u v → h = h'.
Proof. intros H K. apply (wfs_emap _ W) in H, K. congruence. Qed.
Lemma source_at h u v : runs m h u v → source m h = Some u.
Proof.
  intros Hr. pose proof Hr as (x&_&Hx&_). destruct (wfs_prev _ W h x u v Hx Hr) as (z&w&Hz&_&_&Hrz).
  destruct Hrz as (z'&_&Hz'&_&_&Ez). assert (z' = z) as -> by (destruct Hz, Hz'; congruence).
  unfold source, getH. rewrite (proj1 Hx). cbn [mbind option_bind]. rewrite (proj1 Hz). cbn [mbind option_bind]. by rewrite Ez.
Qed.
Lemma runs_bound h u v : runs m h u v → is_Some (verts m !! u) ∧ is_Some (verts m !! v).
Proof. intros (x&y&Hx&Hy&<-&<-). split; apply (wfs_verts _ W); by eapply wfs_head. Qed.

Lemma counted_ok rms i : i < nhes m → ∃ r, counted rms m i = Some r ∧
  ∀ a b, r = Some (a, b) ↔ ∃ x, live_he m i x ∧ i < htwin x ∧ runs m i a b ∧ vertex_used m a ∧ vertex_used m b.
Proof.
  intros Hi. apply (wfs_hes _ W) in Hi as [x Hx]. unfold counted, getH. rewrite Hx. cbn [mbind option_bind].
  destruct (hrem x) eqn:Er; cbn [orb].
  { exists None. split; [done|]. intros a b. split; [done|]. intros (x'&[Hx' Er']&_). congruence. }
  assert (live_he m i x) as Hl by done.
  destruct (wfs_twin _ W i x Hl) as (y&Hy&Et&_).
  assert (htwin x < nhes m) as Hb by (apply (wfs_hes _ W); exists y; apply Hy).
  assert ((htwin x =? umax) = false) as -> by (apply N.eqb_neq; pose proof (wfs_size _ W); lia).
  rewrite andb_false_r. cbn [orb].
  destruct (N.leb_spec (htwin x) i) as [Hle|Hlt].
  { exists None. split; [done|]. intros a b. split; [done|]. intros (x'&[Hx' _]&Hlt&_). assert (x' = x) as -> by congruence. lia. }
  assert (runs m i (hv y) (hv x)) as Hr by (by exists x, y).
  rewrite (source_at i _ _ Hr). cbn [mbind option_bind].
  destruct (runs_bound _ _ _ Hr) as [[va Ha] [vb Hvb]].
  unfold getV. rewrite Ha, Hvb. cbn [mbind option_bind].
  assert (∀ a b, runs m i a b → a = hv y ∧ b = hv x) as Hfun.
  { intros a b (x'&y'&[Hx' _]&[Hy' _]&<-&<-). assert (x' = x) as -> by congruence. destruct Hy. split; congruence. }
  destruct (vrem va || vrem vb) eqn:E.
  - exists None. split; [done|]. intros a b. split; [done|]. intros (x'&_&_&Hab&(z&Hz&Hz')&(z2&Hz2&Hz2')).
    apply Hfun in Hab as [-> ->]. apply orb_true_iff in E as [E|E]; congruence.
  - apply orb_false_iff in E as [E1 E2]. exists (Some (hv y, hv x)). split; [done|]. intros a b. split.
    + intros [= <- <-]. exists x. split; [done|]. split; [done|]. split; [done|]. split; by eexists.
    + intros (x'&_&_&Hab&_). by apply Hfun in Hab as [-> ->].
Qed.

Lemma counted_list rms : ∃ l, mapM (counted rms m) (range (nhes m)) = Some l ∧ each_edge_once m (omap id l).
Proof.
  assert (is_Some (mapM (counted rms m) (range (nhes m)))) as [l El].
  { apply mapM_is_Some, Forall_forall. intros i Hi%range_spec. destruct (counted_ok rms i Hi) as (r&E&_). unfold compose. rewrite E. by eexists. }
  exists l. split; [done|]. apply mapM_Some_1 in El.
  assert (∀ e, e ∈ omap id l ↔ ∃ i, i ∈ range (nhes m) ∧ counted rms m i = Some (Some e)) as Hin.
  { intros e. rewrite elem_of_list_omap. unfold id. split.
    - intros (r&Hr&->). apply elem_of_list_lookup in Hr as [k Hk].
      destruct (Forall2_lookup_r _ _ _ _ _ El Hk) as (i&Hi&Hc). exists i. split; [by eapply elem_of_list_lookup_2|done].
    - intros (i&Hi&Hc). apply elem_of_list_lookup in Hi as [k Hk].
      destruct (Forall2_lookup_l _ _ _ _ _ El Hk) as (r&Hr&Hc'). exists r. split; [by eapply elem_of_list_lookup_2|congruence]. }
  assert (∀ i a b, i ∈ range (nhes m) → counted rms m i = Some (Some (a, b)) ↔
    ∃ x, live_he m i x ∧ i < htwin x ∧ runs m i a b ∧ vertex_used m a ∧ vertex_used m b) as Hc.
  { intros i a b Hi%range_spec. destruct (counted_ok rms i Hi) as (r&->&H). rewrite <- H. split; [by intros [= ->]|by intros ->]. }
  split; [|split].
  - assert (∀ l1, Forall2 (λ i r, counted rms m i = Some r) l1 l → NoDup l1 → (∀ i, i ∈ l1 → i ∈ range (nhes m)) → NoDup (omap id l)) as Hnd.
    { clear El Hin. induction l as [|r l IH]; intros l1 F N1 Hr; [apply NoDup_nil_2|].
      inversion F as [|i r' l1' l' Ei F' E1 E2]; subst. apply NoDup_cons in N1 as [Hni N1].
      assert (NoDup (omap id l)) as Hl by (apply (IH l1'); [done|done|intros j Hj; apply Hr; by right]).
      destruct r as [[a b]|]; [|done]. cbn. apply NoDup_cons. split; [|done].
      rewrite elem_of_list_omap. unfold id. intros (r&Hrl&->). apply elem_of_list_lookup in Hrl as [k Hk].
      destruct (Forall2_lookup_r _ _ _ _ _ F' Hk) as (j&Hj&Ej). apply elem_of_list_lookup_2 in Hj.
      apply Hc in Ei as (_&_&_&Ri&_); [|apply Hr; by left]. apply Hc in Ej as (_&_&_&Rj&_); [|apply Hr; by right].
      apply Hni. by rewrite (runs_once _ _ _ _ Ri Rj). }
    apply (Hnd _ El); [apply sorted_NoDup, range_sorted|done].
  - intros a b (i&Hi&E)%Hin. apply Hc in E as (x&_&_&Hr&Ha&Hb); [|done]. split; [by exists i|done].
  - intros a b ((h&Hr)&Ha&Hb). pose proof Hr as (x&y&Hx&Hy&_).
    pose proof (runs_back h x a b Hx Hr) as Hr'. destruct (wfs_twin _ W h x Hx) as (y'&Hy'&Et&_&_).
    assert (y' = y) as -> by (destruct Hy, Hy'; congruence).
    assert (h ∈ range (nhes m)) as Ih by (apply range_spec, (wfs_hes _ W); exists x; apply Hx).
    assert (htwin x ∈ range (nhes m)) as Ih' by (apply range_spec, (wfs_hes _ W); exists y; apply Hy).
    assert (h ≠ htwin x) as Hne.
    { intros E. destruct (wfs_twin _ W h x Hx) as (z&Hz&_&Hv&_). rewrite <- E in Hz. destruct Hx, Hz. congruence. }
    assert ((a, b) ∈ omap id l ↔ h < htwin x) as ->.
    { rewrite Hin. split.
      - intros (i&Hi&E). apply Hc in E as (x'&Hx'&Hlt&Ri&_); [|done]. rewrite (runs_once _ _ _ _ Ri Hr) in *.
        assert (x' = x) as -> by (destruct Hx, Hx'; congruence). done.
      - intros Hlt. exists h. split; [done|]. apply Hc; [done|]. by exists x. }
    assert ((b, a) ∈ omap id l ↔ htwin x < h) as ->.
    { rewrite Hin. split.
      - intros (i&Hi&E). apply Hc in E as (x'&Hx'&Hlt&Ri&_); [|done]. rewrite (runs_once _ _ _ _ Ri Hr') in *.
        assert (x' = y) as -> by (destruct Hy, Hx'; congruence). by rewrite Et in Hlt.
      - intros Hlt. exists (htwin x). split; [done|]. apply Hc; [done|]. exists y. rewrite Et. done. }
    lia.
Qed.

Lemma edge_length_ok rms : ∃ l ls, each_edge_once m l ∧ Forall2 (sq_len m) l ls ∧ edge_length rms m = Some (root_mean ls).
Proof.
  destruct (counted_list rms) as (k&Ek&Hk). exists (omap id k). unfold edge_length. rewrite Ek. cbn [mbind option_bind].
  assert (∀ e, e ∈ omap id k → ∃ s, len2 m e = Some s ∧ sq_len m e s) as Hs.
  { intros [a b] He. destruct Hk as (_&Hk&_). apply Hk in He as (_&(x&Hx&_)&(y&Hy&_)).
    unfold len2, place_of, getV, sq_len. cbn [fst snd]. rewrite Hx, Hy. cbn. eexists. split; [done|]. by eexists _, _. }
  assert (is_Some (mapM (len2 m) (omap id k))) as [ls El].
  { apply mapM_is_Some, Forall_forall. intros e He. destruct (Hs e He) as (s&E&_). unfold compose. rewrite E. by eexists. }
  exists ls. split; [done|]. rewrite El. split; [|done]. apply mapM_Some_1 in El.
  assert (Forall (λ e, e ∈ omap id k) (omap id k)) as F by (by apply Forall_forall).
  revert El F. generalize (omap id k) at 1 3 4. intros l El. induction El as [|e s l ls E El IH]; intros F; [done|].
  apply Forall_cons in F as [He F]. constructor; [|by apply IH]. destruct (Hs e He) as (s'&E'&H). congruence.
Qed.
End lengths.
