(** Edge collapse, part 3: the steps of collapse_edge_commit, one by one. *)
From Verif Require Export MeshCollapse1 MeshCollapseModel.
From Verif Require Import MeshBase.
Local Open Scope N_scope.

Section steps.
Context {P : Type}.
Implicit Types (m : mesh P) (h k f w : N).

Lemma L_he m h : L m h ↔ is_Some (hes m !! h) ∧ hrem (he m h) = false.
Proof.
  rewrite L_spec. unfold he. split.
  - intros (x&->&?). cbn. split; [eauto|done].
  - intros [[x Hx] Hr]. rewrite Hx in Hr. eauto.
Qed.

(** only half-edge records and the map may differ *)
Definition FR m m' : Prop :=
  verts m' = verts m ∧ nverts m' = nverts m ∧ nhes m' = nhes m ∧
  faces m' = faces m ∧ nfaces m' = nfaces m ∧ ∀ h, is_Some (hes m' !! h) ↔ is_Some (hes m !! h).
Lemma FR_refl m : FR m m. Proof. by split_and!. Qed.
Lemma FR_trans m m1 m2 : FR m m1 → FR m1 m2 → FR m m2.
Proof. intros (A1&A2&A3&A4&A5&A6) (B1&B2&B3&B4&B5&B6). split_and!; try congruence. intros h. by rewrite B6. Qed.
Lemma FR_putH m h x : is_Some (hes m !! h) → FR m (putH m h x).
Proof. intros H. split_and!; try done. intros k. rewrite putH_lookup. naive_solver. Qed.

(** ** The walks around a vertex *)
Section walks.
Context m (HW : WF m).
Let HS : SI m None := wf_si _ HW.

Lemma incident_walk_ok fuel start : ∀ cur l, L m start → L m cur →
  orbit fuel (out_step m) start cur = Some l →
  incident_walk fuel m start cur = Some (l ≫= λ h, [h; tw m h]).
Proof.
  induction fuel as [|fuel IH]; intros cur l HL0 HL E; [done|]. cbn [orbit incident_walk] in *.
  rewrite (out_step_ok m HW) in E by done. cbn [mbind option_bind] in E.
  rewrite (L_getH m cur HL). cbn [mbind option_bind]. fold (tw m cur).
  pose proof (tw_L m HS cur HL) as HLt.
  rewrite (proj2 (N.eqb_neq _ _) (L_ne_umax m HS _ HLt)).
  rewrite (L_getH m _ HLt). cbn [mbind option_bind]. fold (nx m (tw m cur)). fold (cwn m cur).
  destruct (cwn m cur =? start).
  - by injection E as <-.
  - destruct (orbit fuel (out_step m) start (cwn m cur)) as [l'|] eqn:E'; [|done].
    cbn in E. injection E as <-. rewrite (IH _ l'); [done|done|by apply cwn_L|done].
Qed.

Lemma nbr_walk_ok fuel start : ∀ cur l, L m start → L m cur →
  orbit fuel (out_step m) start cur = Some l → nbr_walk fuel m start cur = Some tt.
Proof.
  induction fuel as [|fuel IH]; intros cur l HL0 HL E; [done|]. cbn [orbit nbr_walk] in *.
  rewrite (out_step_ok m HW) in E by done. cbn [mbind option_bind] in E.
  rewrite (L_getH m cur HL). cbn [mbind option_bind]. fold (tw m cur).
  pose proof (tw_L m HS cur HL) as HLt.
  rewrite (proj2 (N.eqb_neq _ _) (L_ne_umax m HS _ HLt)).
  rewrite (L_getH m _ HLt). cbn [mbind option_bind]. fold (nx m (tw m cur)). fold (cwn m cur).
  destruct (cwn m cur =? start); [done|].
  destruct (orbit fuel (out_step m) start (cwn m cur)) as [l'|] eqn:E'; [|done].
  apply (IH _ l'); [done|by apply cwn_L|done].
Qed.

(** all the half-edges at [w] *)
Lemma collect_ok w h : one_fan m w → L m h → tl m h = w →
  ∃ l, collect_incident m w = Some l ∧ nbr_walk_at m w = Some tt ∧ NoDup l ∧
    ∀ k, k ∈ l ↔ L m k ∧ (tl m k = w ∨ hd m k = w).
Proof.
  intros Hone HL Ht. destruct (has_anchor m HW w h HL Ht) as (x&h0&Hx&Hh0).
  destruct (anchor_L m HW w x h0 Hx Hh0) as [HL0 Ht0].
  destruct (outgoing_ok m HW w x h0 Hx Hh0) as (l&E&HN&Hl&Hin).
  unfold outgoing_half_edges, getV in E. rewrite Hx in E. cbn [mbind option_bind] in E. rewrite Hh0 in E.
  cbn [mbind option_bind] in E.
  unfold collect_incident, nbr_walk_at, getV. rewrite Hx. cbn [mbind option_bind]. rewrite Hh0.
  rewrite (incident_walk_ok _ _ _ _ HL0 HL0 E), (nbr_walk_ok _ _ _ _ HL0 HL0 E).
  eexists. split; [done|]. split; [done|].
  assert (∀ k, k ∈ h0 :: l ↔ L m k ∧ tl m k = w) as Hout.
  { intros k. rewrite Hin, (one_fan_all m HW w x h0 Hx Hh0 Hone). split.
    - intros [y Hr]. apply runs_WF in Hr as (?&?&?); done.
    - intros [? ?]. exists (hd m k). by apply runs_WF. }
  revert Hout HN. generalize (h0 :: l) as s. clear -HS. intros s Hout HN. split.
  - assert (∀ k, k ∈ s → L m k ∧ tl m k = w) as Hs by (intros; by apply Hout). clear Hout.
    induction s as [|k s IH]; [constructor|]. apply NoDup_cons in HN as [Hk HN].
    destruct (Hs k) as [HLk Htk]; [left|].
    assert (∀ k', k' ∈ s → L m k' ∧ tl m k' = w) as Hs' by (intros; apply Hs; by right).
    assert (∀ k', k' ∈ s ≫= (λ h, [h; tw m h]) → k' ∈ s ∨ ∃ k2, k2 ∈ s ∧ k' = tw m k2) as Hb.
    { intros k' Hk'. apply elem_of_list_bind in Hk' as (k2&Hk2&Hin2). apply elem_of_cons in Hk2 as [->|Hk2]; [by left|].
      apply elem_of_list_singleton in Hk2. right. eauto. }
    destruct (si_tw _ _ HS k HLk) as (HLt&Ett&Hne).
    rewrite bind_cons. cbn [app]. apply NoDup_cons. split; [|apply NoDup_cons; split; [|by apply IH]].
    + rewrite elem_of_cons. intros [E|[?|(k2&Hk2&E)]%Hb]; [|done|].
      * rewrite <- E in Hne. done.
      * destruct (Hs' k2 Hk2) as [HL2 Ht2]. destruct (si_tw _ _ HS k2 HL2) as (_&Ett2&Hne2).
        subst k. unfold tl in Htk. rewrite Ett2 in Htk. unfold tl in Ht2. congruence.
    + intros [Hin|(k2&Hk2&E)]%Hb.
      * destruct (Hs' _ Hin) as [_ Ht2]. unfold tl in Ht2. rewrite Ett in Ht2. unfold tl in Htk. congruence.
      * destruct (Hs' k2 Hk2) as [HL2 Ht2]. apply (tw_inj m HS) in E; [|done|done]. by subst.
  - intros k. rewrite elem_of_list_bind. split.
    + intros (k2&Hk2&Hin). apply Hout in Hin as [HL2 Ht2].
      apply elem_of_cons in Hk2 as [->|Hk2]; [by split; [|left]|].
      apply elem_of_list_singleton in Hk2 as ->. split; [by apply (tw_L m HS)|]. right. done.
    + intros [HL [Ht|Hh]].
      * exists k. split; [left|by apply Hout].
      * destruct (si_tw _ _ HS k HL) as (HLt&Ett&Hne). exists (tw m k). rewrite Ett.
        split; [right; left|]. apply Hout. split; [done|]. unfold tl. by rewrite Ett.
Qed.
End walks.

(** ** Step 5 *)
Lemma retarget_ok (u v : N) (rs l : list N) : u ≠ v → ∀ m, (∀ h, h ∈ l → is_Some (hes m !! h)) →
  ∃ m', retarget m u v rs l = Some m' ∧ FR m m' ∧ emap m' = emap m ∧
    ∀ h, he m' h = if bool_decide (h ∈ l ∧ h ∉ rs ∧ hrem (he m h) = false ∧ hd m h = v)
                   then with_hv u (he m h) else he m h.
Proof.
  intros Huv. induction l as [|k l IH]; intros m Hl.
  - exists m. split; [done|]. split; [apply FR_refl|]. split; [done|]. intros h.
    rewrite bool_decide_false; [done|]. intros [H _]. by apply elem_of_nil in H.
  - assert (is_Some (hes m !! k)) as Hk by (apply Hl; left).
    cbn [retarget]. rewrite (getH_ok m k Hk). cbn [mbind option_bind].
    assert (∃ m1, (if hrem (he m k) then Some m else if bool_decide (k ∈ rs) then Some m else
      if hv (he m k) =? v then updH m k (with_hv u) else Some m) = Some m1 ∧ FR m m1 ∧ emap m1 = emap m ∧
      ∀ h, he m1 h = if bool_decide (h = k ∧ h ∉ rs ∧ hrem (he m h) = false ∧ hd m h = v)
                   then with_hv u (he m h) else he m h) as (m1&->&F1&E1&H1).
    { destruct (hrem (he m k)) eqn:Hr.
      { exists m. split; [done|]. split; [apply FR_refl|]. split; [done|]. intros h.
        rewrite bool_decide_false; [done|]. intros (->&_&?&_). congruence. }
      case_bool_decide as Hin.
      { exists m. split; [done|]. split; [apply FR_refl|]. split; [done|]. intros h.
        rewrite bool_decide_false; [done|]. intros (->&?&_). done. }
      fold (hd m k). destruct (N.eqb_spec (hd m k) v) as [Ev|Ev].
      - rewrite (updH_eq m k _ Hk). eexists. split; [done|]. split; [by apply FR_putH|]. split; [done|].
        intros h. rewrite he_putH. destruct (N.eqb_spec h k) as [->|Hne].
        + by rewrite bool_decide_true.
        + rewrite bool_decide_false; [done|]. by intros [? _].
      - exists m. split; [done|]. split; [apply FR_refl|]. split; [done|]. intros h.
        rewrite bool_decide_false; [done|]. intros (->&_&_&?). done. }
    cbn [mbind option_bind].
    destruct (IH m1) as (m2&E&F2&E2&H2).
    { intros h Hh. apply F1. apply Hl. by right. }
    exists m2. split; [done|]. split; [by eapply FR_trans|]. split; [congruence|]. intros h.
    rewrite H2. unfold hd. rewrite H1. clear -Huv.
    destruct (decide (h = k)) as [->|Hne].
    + destruct (decide (k ∉ rs ∧ hrem (he m k) = false ∧ hd m k = v)) as [Hc|Hc].
      * rewrite (bool_decide_true (k = k ∧ _)) by done. cbn.
        rewrite bool_decide_false by (intros (_&_&_&?); done).
        rewrite bool_decide_true; [done|]. split; [left|]. done.
      * rewrite (bool_decide_false (k = k ∧ _)) by (intros [_ ?]; done).
        rewrite bool_decide_false by (intros [_ ?]; done).
        rewrite bool_decide_false by (intros [_ ?]; done). done.
    + rewrite (bool_decide_false (h = k ∧ _)) by (intros [? _]; done).
      apply (f_equal (λ b : bool, if b then with_hv u (he m h) else he m h)).
      apply bool_decide_ext. rewrite elem_of_cons. naive_solver.
Qed.

(** ** Step 6: writing back what is already there *)
Lemma upd_id m k (g : HE → HE) : is_Some (hes m !! k) → g (he m k) = he m k →
  ∃ m', updH m k g = Some m' ∧ FR m m' ∧ emap m' = emap m ∧ ∀ h, he m' h = he m h.
Proof.
  intros Hk Hg. rewrite (updH_eq m k _ Hk). eexists. split; [done|]. split; [by apply FR_putH|].
  split; [done|]. intros h. rewrite he_putH. destruct (N.eqb_spec h k) as [->|]; [by rewrite Hg|done].
Qed.

(** ** Step 8 *)
Lemma drop_ok (l : list N) : ∀ m, (∀ h, h ∈ l → is_Some (hes m !! h)) →
  (∀ h, h ∈ l → tw m h = umax ∨ is_Some (hes m !! tw m h)) →
  ∃ m', drop_edges m l = Some m' ∧ FR m m' ∧ emap m' = emap m ∧
    (∀ h, h ∈ l → hrem (he m' h) = true) ∧ (∀ h, hd m' h = hd m h) ∧
    (∀ h, h ∉ l → he m' h = he m h ∨
       (he m' h = with_twin umax (he m h) ∧ ∃ k, k ∈ l ∧ tw m k = h ∧ h ≠ umax)).
Proof.
  induction l as [|k l IH]; intros m Hl Ht.
  { exists m. split; [done|]. split; [apply FR_refl|]. split; [done|].
    split; [intros h Hh; by apply elem_of_nil in Hh|]. split; [done|]. by left. }
  assert (is_Some (hes m !! k)) as Hk by (apply Hl; left).
  cbn [drop_edges]. rewrite (getH_ok m k Hk). cbn [mbind option_bind]. fold (tw m k).
  assert (∃ m1, (if tw m k =? umax then Some m else y ← getH m (tw m k);
      if hrem y then Some m else updH m (tw m k) (with_twin umax)) = Some m1 ∧ FR m m1 ∧ emap m1 = emap m ∧
      ∀ h, he m1 h = he m h ∨ (he m1 h = with_twin umax (he m h) ∧ tw m k = h ∧ h ≠ umax)) as (m1&->&F1&E1&H1).
  { destruct (N.eqb_spec (tw m k) umax) as [Eu|Eu].
    { exists m. split; [done|]. split; [apply FR_refl|]. split; [done|]. by left. }
    destruct (Ht k) as [|Hs]; [left|done|]. rewrite (getH_ok m _ Hs). cbn [mbind option_bind].
    destruct (hrem (he m (tw m k))).
    { exists m. split; [done|]. split; [apply FR_refl|]. split; [done|]. by left. }
    rewrite (updH_eq m _ _ Hs). eexists. split; [done|]. split; [by apply FR_putH|]. split; [done|].
    intros h. rewrite he_putH. destruct (N.eqb_spec h (tw m k)) as [->|]; [|by left]. by right. }
  cbn [mbind option_bind]. pose proof F1 as (_&_&_&_&_&D1).
  assert (is_Some (hes m1 !! k)) as Hk1 by (by apply D1).
  rewrite (updH_eq m1 k _ Hk1). cbn [mbind option_bind].
  set (m2 := putH m1 k _).
  assert (FR m m2) as F2 by (eapply FR_trans; [exact F1|by apply FR_putH]).
  pose proof F2 as (_&_&_&_&_&D2).
  assert (∀ h, he m2 h = if h =? k then mkHE (hv (he m1 k)) None k k umax true else he m1 h) as H2.
  { intros h. unfold m2. apply he_putH. }
  assert (∀ h, tw m2 h = tw m h ∨ tw m2 h = umax) as T2.
  { intros h. unfold tw. rewrite H2. destruct (h =? k); [by right|].
    destruct (H1 h) as [->|(->&_)]; [by left|by right]. }
  destruct (IH m2) as (m3&->&F3&E3&R3&V3&H3).
  { intros h Hh. apply D2, Hl. by right. }
  { intros h Hh. destruct (T2 h) as [E|E]; rewrite E; [|by left].
    destruct (Ht h) as [|Hs]; [by right|by left|]. right. by apply D2. }
  exists m3. split; [done|]. split; [by eapply FR_trans|]. split; [exact (eq_trans E3 E1)|].
  split.
  { intros h Hh. apply elem_of_cons in Hh as [->|Hh]; [|by apply R3].
    destruct (decide (k ∈ l)) as [Hin|Hni]; [by apply R3|].
    destruct (H3 k Hni) as [->|(->&_)]; rewrite H2, N.eqb_refl; done. }
  split.
  { intros h. rewrite V3. unfold hd. rewrite H2. destruct (N.eqb_spec h k) as [->|]; cbn;
      destruct (H1 h) as [E|(E&_)] || destruct (H1 k) as [E|(E&_)]; by rewrite E. }
  intros h Hh. apply not_elem_of_cons in Hh as [Hne Hni].
  assert (he m2 h = he m1 h) as E2 by (rewrite H2; by rewrite (proj2 (N.eqb_neq _ _) Hne)).
  destruct (H3 h Hni) as [->|(->&k'&Hk'&Et&Hu)]; rewrite E2; destruct (H1 h) as [->|(->&Eh&Hu')].
  - by left.
  - right. split; [done|]. exists k. split; [left|done].
  - right. split; [done|]. exists k'. split; [by right|]. split; [|done].
    destruct (T2 k') as [Ek|Ek]; congruence.
  - right. split; [done|]. exists k. split; [left|done].
Qed.
End steps.
