(** The remeshing passes keep closed surfaces. *)
From Verif Require Export MeshSurface.
From Verif Require Import MeshBase.
Local Open Scope N_scope.

Section passes.
Context {P : Type}.
Implicit Types (m : mesh P) (u v w a b c d f g h : N) (ops : list Z).

(** ** The cooldown array *)
Definition covers ops (n : N) : Prop := (N.to_nat n ≤ length ops)%nat.
Definition stamped ops iter v : Prop := ops !! N.to_nat v = Some iter.

Lemma op_is_ok ops iter n v : covers ops n → v < n →
  ∃ b : bool, op_is ops iter v = Some b ∧ (b = true ↔ stamped ops iter v).
Proof.
  intros Hc Hv. unfold op_is, stamped. destruct (lookup_lt_is_Some_2 ops (N.to_nat v)) as [x Hx]; [unfold covers in Hc; lia|].
  rewrite Hx. eexists. split; [done|]. rewrite Z.eqb_eq. split; [by intros ->|by intros [= ->]].
Qed.
Lemma recent_ok ops iter n v0 v1 : covers ops n → v0 < n → v1 < n →
  ∃ b : bool, recent ops iter v0 v1 = Some b ∧ (b = true ↔ stamped ops iter v0 ∨ stamped ops iter v1).
Proof.
  intros Hc H0 H1. unfold recent.
  destruct (op_is_ok ops iter n v0 Hc H0) as (b0&->&E0). destruct (op_is_ok ops iter n v1 Hc H1) as (b1&->&E1).
  cbn [mbind option_bind]. destruct b0.
  - exists true. split; [done|]. tauto.
  - exists b1. split; [done|]. rewrite <- E0, <- E1. split; [by auto|]. by intros [?|?].
Qed.
Lemma stamp_ok ops iter n v : covers ops n → v < n →
  ∃ ops', stamp ops iter v = Some ops' ∧ covers ops' n ∧ stamped ops' iter v ∧
    ∀ w, stamped ops iter w → stamped ops' iter w.
Proof.
  intros Hc Hv. unfold covers, stamp, stamped in *.
  rewrite bool_decide_true by lia. eexists. split; [done|]. rewrite insert_length. split; [done|]. split.
  - apply list_lookup_insert. lia.
  - intros w Hw. destruct (decide (N.to_nat w = N.to_nat v)) as [->|Nw].
    + apply list_lookup_insert. lia.
    + by rewrite list_lookup_insert_ne.
Qed.
Lemma grow_covers ops n : covers (grow ops n) n.
Proof. unfold covers, grow. rewrite app_length, replicate_length. lia. Qed.

(** ** Candidates *)
Lemma below_lt n h : h ∈ below n ↔ h < n.
Proof.
  unfold below. rewrite elem_of_list_fmap. setoid_rewrite elem_of_seq. split.
  - intros (k&->&?). lia.
  - intros ?. exists (N.to_nat h). split; [by rewrite N2Nat.id|lia].
Qed.
Lemma below_length n : length (below n) = N.to_nat n.
Proof. unfold below. by rewrite fmap_length, seq_length. Qed.

Lemma both_kept_ok m v0 v1 : WF m → v0 < nverts m → v1 < nverts m →
  ∃ z0 z1, verts m !! v0 = Some z0 ∧ verts m !! v1 = Some z1 ∧
    both_kept m v0 v1 = Some (if vrem z0 || vrem z1 then None else Some (vpos z0, vpos z1)).
Proof.
  intros HW H0 H1. pose proof (wf_si _ HW) as HS.
  apply (si_vb _ _ HS) in H0 as [z0 E0], H1 as [z1 E1]. exists z0, z1. split; [done|]. split; [done|].
  unfold both_kept, getV. rewrite E0, E1. cbn [mbind option_bind]. destruct (vrem z0), (vrem z1); done.
Qed.

Lemma live_ends m h : WF m → L m h → tl m h < nverts m ∧ hd m h < nverts m.
Proof.
  intros HW HL. pose proof (wf_si _ HW) as HS. split; apply (si_hd _ _ HS); [by apply tw_L|done].
Qed.

(** the end points of [h] pass the test *)
Definition tested (test : P → P → bool) m u v : Prop :=
  ∃ z0 z1, verts m !! u = Some z0 ∧ verts m !! v = Some z1 ∧ test (vpos z0) (vpos z1) = true.
Lemma candidate_ok test m ops iter h : WF m → covers ops (nverts m) → h < nhes m →
  ∃ cs, candidate test m ops iter h = Some cs ∧ (length cs ≤ 1)%nat ∧
    ∀ t, t ∈ cs → t = (h, tl m h, hd m h) ∧ L m h ∧ tested test m (tl m h) (hd m h).
Proof.
  intros HW Hc Hh. pose proof (wf_si _ HW) as HS. unfold candidate.
  apply (si_hb _ _ HS) in Hh as [x Hx]. assert (getH m h = Some x) as -> by exact Hx. cbn [mbind option_bind].
  assert (∃ c : list (N * N * N), Some [] = Some c ∧ (length c ≤ 1)%nat ∧ ∀ t, t ∈ c → t = (h, tl m h, hd m h) ∧ L m h ∧ tested test m (tl m h) (hd m h)) as Hnil.
  { exists []. split; [done|]. split; [cbn; lia|]. intros t []%elem_of_nil. }
  destruct (hrem x) eqn:Er; [done|]. assert (L m h) as HL by (by eapply L_intro).
  destruct (htwin x =? umax); [done|]. destruct (htwin x <=? h); [done|].
  rewrite (source_ok m HW) by done. cbn [mbind option_bind].
  assert (hv x = hd m h) as -> by (unfold hd, he; by rewrite Hx).
  destruct (live_ends m h HW HL) as [V0 V1].
  destruct (both_kept_ok m _ _ HW V0 V1) as (z0&z1&Z0&Z1&->). cbn [mbind option_bind].
  destruct (vrem z0 || vrem z1); [done|].
  destruct (recent_ok ops iter _ _ _ Hc V0 V1) as (b&->&_). cbn [mbind option_bind].
  destruct b; [done|]. eexists. split; [done|]. destruct (test (vpos z0) (vpos z1)) eqn:Et.
  - split; [done|]. intros t ->%elem_of_list_singleton. split; [done|]. split; [done|]. by exists z0, z1.
  - split; [cbn; lia|]. intros t []%elem_of_nil.
Qed.

Lemma candidates_ok test m ops iter l : WF m → covers ops (nverts m) → (∀ h, h ∈ l → h < nhes m) →
  ∃ cs, candidates test m ops iter l = Some cs ∧ (length cs ≤ length l)%nat ∧
    ∀ t, t ∈ cs → ∃ h, t = (h, tl m h, hd m h) ∧ L m h ∧ tested test m (tl m h) (hd m h).
Proof.
  intros HW Hc. induction l as [|h l IH]; intros Hl.
  - exists []. split; [done|]. split; [done|]. intros t []%elem_of_nil.
  - cbn [candidates]. destruct (candidate_ok test m ops iter h HW Hc) as (c1&->&Hlen1&Hc1); [apply Hl; left|].
    cbn [mbind option_bind]. destruct IH as (c2&->&Hlen2&Hc2); [intros; apply Hl; by right|].
    cbn [mbind option_bind]. eexists. split; [done|]. rewrite app_length. cbn [length]. split; [lia|].
    intros t [Ht|Ht]%elem_of_app; [|by apply Hc2]. exists h. by apply Hc1.
Qed.

(** ** The split pass *)
Section split.
Context (half : P → P → P) (found : N → option N) (iter : Z).

Definition keeps_positions m m' : Prop :=
  ∀ v z, verts m !! v = Some z → ∃ z', verts m' !! v = Some z' ∧ vpos z' = vpos z ∧ vrem z' = vrem z.
Lemma keeps_refl m : keeps_positions m m.
Proof. intros v z Hz. by exists z. Qed.
Lemma keeps_trans m1 m2 m3 : keeps_positions m1 m2 → keeps_positions m2 m3 → keeps_positions m1 m3.
Proof.
  intros H1 H2 v z Hz. destruct (H1 v z Hz) as (z'&Hz'&E1&E2). destruct (H2 v z' Hz') as (z''&?&?&?).
  exists z''. split_and!; congruence.
Qed.

Lemma split_step m h v : surf m → no_pillow m → L m h →
  nverts m < umax → nhes m + 8 ≤ umax → nfaces m + 4 ≤ umax →
  ∀ p, ∃ m' r, split_edge m (found v) h p = Some (m', r) ∧ surf m' ∧ no_pillow m' ∧ keeps_positions m m' ∧
    nhes m ≤ nhes m' ≤ nhes m + 8 ∧ nverts m ≤ nverts m' ≤ nverts m + 1 ∧ nfaces m ≤ nfaces m' ≤ nfaces m + 4 ∧
    (∀ k, L m' k → k < nhes m → L m k ∧ hd m' k = hd m k ∧ tl m' k = tl m k) ∧
    ∀ u, nverts m ≤ u < nverts m' → u = nverts m ∧ ∃ z, verts m' !! u = Some z ∧ vpos z = p.
Proof.
  intros [HW HC HR HU] HN HL B1 B2 B3 p. pose proof (wf_si _ HW) as HS.
  destruct (found v) as [w|].
  - exists m, (NoSplit w). split; [by apply split_edge_found|]. split; [done|]. split; [done|]. split; [apply keeps_refl|].
    split_and!; try lia; by auto.
  - destruct (closed_face m h HW HC HL) as [f1 Hf1].
    destruct (closed_face m (tw m h) HW HC (tw_L m HS h HL)) as [f2 Hf2].
    pose proof (cycle_face_side m f1 h HW HL Hf1) as C1.
    pose proof (cycle_face_side m f2 (tw m h) HW (tw_L m HS h HL) Hf2) as C2.
    assert (tl m (tw m h) = hd m h) as Et by (unfold tl; by destruct (si_tw _ _ HS h HL) as (_&->&_)).
    rewrite Et in C2. change (hd m (tw m h)) with (tl m h) in C2.
    set (b := hd m (nx m h)) in *. set (d := hd m (nx m (tw m h))) in *.
    assert (b ≠ d) as Dbd.
    { intros E. apply (HN (tl m h) (hd m h) b); [by exists f1|]. exists f2. by rewrite E. }
    destruct (split_edge_ok m h f1 f2 p (hd m h) b (tl m h) d HW) as (m'&Es&Hs); try done.
    { by apply runs_WF. }
    exists m', (SplitEdge (nverts m) [nfaces m; nfaces m + 1; nfaces m + 2; nfaces m + 3]).
    split; [done|].
    split; [by apply (split_surf m f1 f2 p (hd m h) b (tl m h) d (nverts m) m')|].
    split; [by apply (split_pillow m f1 f2 p (hd m h) b (tl m h) d (nverts m) m')|].
    destruct Hs as [_ [_ Hnv] Hnew Hold _ _ _ _ _ _ _ [Hnf Hnh] Hends]. split_and!; try lia; [|done|].
    2: { destruct Hnew as [Hnew _]. intros u Hu. split; [lia|]. replace u with (nverts m) by lia.
         destruct (verts m' !! nverts m) as [z|]; [|done]. exists z. split; [done|]. by injection Hnew. }
    intros u z Hz. assert (u ≠ nverts m) as Nu.
    { intros ->. assert (nverts m < nverts m); [|lia]. apply (si_vb _ _ HS). by exists z. }
    destruct (Hold u Nu) as [E1 E2]. rewrite Hz in E1, E2. destruct (verts m' !! u) as [z'|]; [|done].
    exists z'. cbn in E1, E2. split_and!; congruence.
Qed.

(** every vertex from [n] on was put half-way between the end points given by [g];
    these end points are accepted by [E], not on cooldown, and each is used once *)
Definition born (E : N → N → Prop) m m' ops (g : N → N * N) : Prop :=
  ∀ v, nverts m ≤ v < nverts m' →
    E (fst (g v)) (snd (g v)) ∧
    (∃ z0 z1 z, verts m !! fst (g v) = Some z0 ∧ verts m !! snd (g v) = Some z1 ∧ verts m' !! v = Some z ∧
       vpos z = half (vpos z0) (vpos z1)) ∧
    (¬ stamped ops iter (fst (g v)) ∧ ¬ stamped ops iter (snd (g v))) ∧
    ∀ v', nverts m ≤ v' < nverts m' → v ≠ v' →
      fst (g v) ≠ fst (g v') ∧ fst (g v) ≠ snd (g v') ∧ snd (g v) ≠ fst (g v') ∧ snd (g v) ≠ snd (g v').
Lemma born_step (E : N → N → Prop) m m1 m' ops ops2 (g : N → N * N) u0 u1 z0 z1 : keeps_positions m m1 → keeps_positions m1 m' →
  nverts m1 ≤ nverts m' → nverts m ≤ nverts m1 →
  E u0 u1 → verts m !! u0 = Some z0 → verts m !! u1 = Some z1 →
  ¬ stamped ops iter u0 → ¬ stamped ops iter u1 → stamped ops2 iter u0 → stamped ops2 iter u1 →
  (∀ w, stamped ops iter w → stamped ops2 iter w) →
  (∀ x y, E x y → is_Some (verts m !! x) ∧ is_Some (verts m !! y)) →
  (∀ u, nverts m ≤ u < nverts m1 → u = nverts m ∧ ∃ z, verts m1 !! u = Some z ∧ vpos z = half (vpos z0) (vpos z1)) →
  born E m1 m' ops2 g → born E m m' ops (λ v, if v <? nverts m1 then (u0, u1) else g v).
Proof.
  intros K1 K2 B1 B2 HE Z0 Z1 N0 N1 S0 S1 Hst HEv Hnew Hg v Hv. cbn beta.
  destruct (N.ltb_spec v (nverts m1)) as [Hlt|Hge]; cbn [fst snd].
  - destruct (Hnew v ltac:(lia)) as [Ev (z&Hz&Ez)]. split; [done|]. split.
    { destruct (K2 v z Hz) as (z'&Hz'&Ez'&_). exists z0, z1, z'. split_and!; congruence. }
    split; [done|]. intros v' Hv' D. destruct (N.ltb_spec v' (nverts m1)) as [Hlt'|Hge']; cbn [fst snd].
    + destruct (Hnew v' ltac:(lia)) as [Ev' _]. congruence.
    + destruct (Hg v' ltac:(lia)) as (_&_&[A0 A1]&_). split_and!; intros ->; done.
  - destruct (Hg v ltac:(lia)) as (HE1&(y0&y1&z&Y0&Y1&Hz&Ez)&[A0 A1]&Hd). split; [done|].
    destruct (HEv _ _ HE1) as [[x0 X0] [x1 X1]]. split.
    { destruct (K1 _ _ X0) as (x0'&X0'&E0&_), (K1 _ _ X1) as (x1'&X1'&E1&_).
      exists x0, x1, z. split_and!; congruence. }
    split; [split; intros X%Hst; done|]. intros v' Hv' D. destruct (N.ltb_spec v' (nverts m1)) as [Hlt'|Hge']; cbn [fst snd].
    + split_and!; intros EE; rewrite EE in *; done.
    + apply Hd; [lia|done].
Qed.

Lemma split_each_ok (E : N → N → Prop) n0 l : (∀ x y, E x y → x < n0 ∧ y < n0) → ∀ m ops, surf m → no_pillow m → covers ops n0 → n0 ≤ nverts m →
  (∀ h, h ∈ l → h < nhes m) → (∀ h, h ∈ l → L m h → E (tl m h) (hd m h)) →
  nverts m + N.of_nat (length l) ≤ umax → nhes m + 8 * N.of_nat (length l) ≤ umax →
  nfaces m + 4 * N.of_nat (length l) ≤ umax →
  ∃ m' ops' n, split_each half found iter l m ops = Some (m', ops', n) ∧ surf m' ∧ no_pillow m' ∧ keeps_positions m m' ∧ (∃ r, born E m m' ops r) ∧
    nhes m ≤ nhes m' ≤ nhes m + 8 * N.of_nat (length l) ∧
    nverts m ≤ nverts m' ≤ nverts m + N.of_nat (length l) ∧
    nfaces m ≤ nfaces m' ≤ nfaces m + 4 * N.of_nat (length l).
Proof.
  intros HEn. induction l as [|h l IH]; intros m ops Hsf HN Hc Hn0 Hl Hends B1 B2 B3.
  - exists m, ops, 0%nat. split; [done|]. split; [done|]. split; [done|]. split; [apply keeps_refl|].
    split; [exists (λ v, (v, v)); intros v Hv; lia|]. cbn. lia.
  - assert (N.of_nat (length (h :: l)) = N.of_nat (length l) + 1) as El by (cbn [length]; lia).
    rewrite El in B1, B2, B3 |- *. clear El.
    pose proof (sf_wf _ Hsf) as HW. pose proof (wf_si _ HW) as HS.
    assert (∃ m' ops' n, split_each half found iter l m ops = Some (m', ops', n) ∧ surf m' ∧ no_pillow m' ∧ keeps_positions m m' ∧ (∃ r, born E m m' ops r) ∧
      nhes m ≤ nhes m' ≤ nhes m + 8 * (N.of_nat (length l) + 1) ∧
      nverts m ≤ nverts m' ≤ nverts m + (N.of_nat (length l) + 1) ∧
      nfaces m ≤ nfaces m' ≤ nfaces m + 4 * (N.of_nat (length l) + 1)) as Hskip.
    { destruct (IH m ops) as (m'&ops'&n&EE&Q1&Q2&Q3&Q3'&Q4&Q5&Q6); try done; try lia.
      - intros; apply Hl; by right. - intros; apply Hends; [by right|done].
      - exists m', ops', n. split; [done|]. split; [done|]. split; [done|]. split; [done|]. split; [done|]. lia. }
    cbn [split_each]. destruct (N.leb_spec (nhes m) h) as [|Hh]; [done|].
    pose proof Hh as [x Hx]%(si_hb _ _ HS). assert (getH m h = Some x) as -> by exact Hx. cbn [mbind option_bind].
    destruct (hrem x) eqn:Er; [done|]. assert (L m h) as HL by (by eapply L_intro).
    rewrite (source_ok m HW) by done. cbn [mbind option_bind].
    assert (hv x = hd m h) as -> by (unfold hd, he; by rewrite Hx).
    destruct (live_ends m h HW HL) as [V0 V1].
    destruct (both_kept_ok m _ _ HW V0 V1) as (z0&z1&Z0&Z1&->). cbn [mbind option_bind].
    destruct (vrem z0 || vrem z1); [done|].
    pose proof (Hends h ltac:(left) HL) as HE. destruct (HEn _ _ HE) as [U0 U1].
    destruct (recent_ok ops iter _ _ _ Hc U0 U1) as (b&->&Hb). cbn [mbind option_bind].
    destruct b; [done|].
    destruct (split_step m h h Hsf HN HL ltac:(lia) ltac:(lia) ltac:(lia) (half (vpos z0) (vpos z1)))
      as (m1&r&->&S1&S2&S3&S4&S5&S6&S7&S8). cbn [mbind option_bind fst].
    destruct (stamp_ok ops iter n0 (tl m h) Hc U0) as (ops1&->&Hc1&St1&Kp1). cbn [mbind option_bind].
    destruct (stamp_ok ops1 iter n0 (hd m h) Hc1 U1) as (ops2&->&Hc2&St2&Kp2). cbn [mbind option_bind].
    destruct (IH m1 ops2) as (m'&ops'&n&EE&Q1&Q2&Q3&[g Q3']&Q4&Q5&Q6); try done; try lia.
    + intros k Hk. assert (k < nhes m) by (apply Hl; by right). lia.
    + intros k Hk HLk. destruct (S7 k HLk) as (HLk'&->&->); [apply Hl; by right|]. apply Hends; [by right|done].
    + rewrite EE. cbn [mbind option_bind]. exists m', ops', (S n). split; [done|]. split; [done|]. split; [done|].
      split; [by eapply keeps_trans|]. split; [|lia].
      eexists. eapply (born_step E m m1 m' ops ops2 g (tl m h) (hd m h) z0 z1); try done; try lia.
      * intros X. enough (false = true) by done. apply Hb. by left.
      * intros X. enough (false = true) by done. apply Hb. by right.
      * by apply Kp2.
      * intros w Hw. by apply Kp2, Kp1.
      * intros x0 y0 [A B]%HEn. split; apply (si_vb _ _ HS); lia.
Qed.

Lemma split_pass_ok long m ops : surf m → no_pillow m → covers ops (nverts m) →
  nverts m + nhes m ≤ umax → 9 * nhes m ≤ umax → nfaces m + 4 * nhes m ≤ umax →
  ∃ m' ops' n, split_long_edges half long found iter m ops = Some (m', ops', n) ∧ surf m' ∧ no_pillow m' ∧
    keeps_positions m m' ∧ (∃ r, born (λ u v, registered m u v ∧ tested long m u v) m m' ops r) ∧
    nhes m ≤ nhes m' ≤ 9 * nhes m ∧ nverts m ≤ nverts m' ≤ nverts m + nhes m ∧
    nfaces m ≤ nfaces m' ≤ nfaces m + 4 * nhes m.
Proof.
  intros Hsf HN Hc B1 B2 B3. unfold split_long_edges. pose proof (sf_wf _ Hsf) as HW. pose proof (wf_si _ HW) as HS.
  destruct (candidates_ok long m ops iter (below (nhes m)) HW Hc) as (cs&->&Hlen&Hcs); [intros h; apply below_lt|].
  cbn [mbind option_bind]. rewrite below_length in Hlen.
  assert (∀ h, h ∈ (fst ∘ fst <$> cs) → L m h ∧ tested long m (tl m h) (hd m h)) as HLc.
  { intros h (t&->&Ht)%elem_of_list_fmap. destruct (Hcs t Ht) as (k&->&HLk&?). done. }
  destruct (split_each_ok (λ u v, registered m u v ∧ tested long m u v) (nverts m) (fst ∘ fst <$> cs))
    with (m := m) (ops := ops) as (m'&ops'&n&E&Q1&Q2&Q3&Q3'&Q4&Q5&Q6); try done;
    try (rewrite fmap_length; lia).
  - intros x y (_&z0&z1&?&?&_). split; apply (si_vb _ _ HS); by eexists.
  - intros h [Hh _]%HLc. by apply (L_lt m HS).
  - intros h Hh HL. split; [exists h; by apply runs_WF|]. by apply HLc.
  - rewrite fmap_length in Q4, Q5, Q6. exists m', ops', n. split; [done|]. split; [done|]. split; [done|]. split; [done|]. split; [done|]. lia.
Qed.
End split.

(** ** The collapse pass *)
Section collapse.
Context (mid : P → P → P) (thin : P → P → P → bool) (o1 o2 : N * N → list bucket → list bucket) (iter : Z).
Context (Ho1 : ∀ e, lists_all (o1 e)) (Ho2 : ∀ e, lists_all (o2 e)).

Lemma side_faces m u v : surf m → side_used m u v → ∃ a b, F m u v a ∧ F m v u b.
Proof.
  intros [HW HC _ _] Hs. pose proof (HC _ _ Hs) as Hs'. apply F_side in Hs as [a Ha], Hs' as [b Hb]. by exists a, b.
Qed.

Lemma collapse_step m u v : surf m → side_used m u v →
  ∃ m' e, collapse_edge mid thin (o1 (u, v)) (o2 (u, v)) m u v = Some (m', e) ∧
    match e with Some _ => m' = m | None => surf m' ∧
      ∃ zu zv, verts m !! u = Some zu ∧ verts m !! v = Some zv ∧ collapsed m m' u v (mid (vpos zu) (vpos zv)) end.
Proof.
  intros Hsf Hs. pose proof Hsf as [HW HC HR HU]. destruct (side_faces m u v Hsf Hs) as (a&b&[fl Hl]&[fr Hr]).
  destruct (side_vert m u v HW Hs) as [zu Hzu]. destruct (side_vert m v u HW (HC _ _ Hs)) as [zv Hzv].
  destruct (C80_inner_edge_collapse mid thin (o1 (u, v)) (o2 (u, v)) m u v a b fl fr (vpos zu) (vpos zv))
    as (m'&e&E&Hacc&Hrej&Hcol); try done.
  - by apply WF_iff. - by apply flag_unused. - by apply surf_fan. - by apply surf_fan.
  - left. by apply surf_inner. - by exists zu. - by exists zv.
  - exists m', e. split; [done|]. destruct e as [e|]; [by apply Hrej|].
    destruct (proj1 Hacc eq_refl) as (_&Dab&_).
    assert (collapsed m m' u v (mid (vpos zu) (vpos zv))) as Hc by (by apply Hcol).
    split; [|by exists zu, zv]. apply (collapsed_surf m m' u v a b (mid (vpos zu) (vpos zv)) Hsf); [by exists fl|by exists fr|done|done].
Qed.

Section pass.
Context (short : P → P → bool).
(** what is known of a pair still to be handled *)
Definition pending m ops (e : N * N) : Prop :=
  fst e < nverts m ∧ snd e < nverts m ∧
  (side_used m (fst e) (snd e) ∧ (tested short m (fst e) (snd e) ∨ tested short m (snd e) (fst e)) ∨ stamped ops iter (fst e) ∨ stamped ops iter (snd e)).

Lemma pending_step m m' ops ops' u v p e : WF m → collapsed m m' u v p → u ≠ v →
  stamped ops' iter u → stamped ops' iter v → (∀ w, stamped ops iter w → stamped ops' iter w) →
  pending m ops e → pending m' ops' e.
Proof.
  intros HW Hc Duv Su Sv Hst (H1&H2&H3). pose proof Hc as (_&_&_&(Hn&_)&_). unfold pending. rewrite Hn.
  split; [done|]. split; [done|]. destruct H3 as [H3|[H3|H3]]; [|right; left; by apply Hst|right; right; by apply Hst].
  destruct (decide (fst e = u)) as [->|]; [by right; left|]. destruct (decide (fst e = v)) as [->|]; [by right; left|].
  destruct (decide (snd e = u)) as [->|]; [by right; right|]. destruct (decide (snd e = v)) as [->|]; [by right; right|].
  left. destruct H3 as [H3 H4]. split; [by eapply collapsed_side|].
  pose proof Hc as (_&_&_&_&Hvs).
  destruct H4 as [(z0&z1&Z0&Z1&Ht)|(z0&z1&Z0&Z1&Ht)]; [left|right];
  (destruct (Hvs _ _ Z0) as (z0'&Z0'&E0&_), (Hvs _ _ Z1) as (z1'&Z1'&E1&_); exists z0', z1';
   rewrite (proj2 (N.eqb_neq _ _)) in E0 by done; rewrite (proj2 (N.eqb_neq _ _)) in E1 by done;
   split; [done|]; split; [done|]; by rewrite E0, E1).
Qed.

(** one collapse of a short edge of the mesh *)
Definition collapses m m' : Prop := ∃ u v zu zv, side_used m u v ∧ verts m !! u = Some zu ∧ verts m !! v = Some zv ∧
  (short (vpos zu) (vpos zv) = true ∨ short (vpos zv) (vpos zu) = true) ∧ collapsed m m' u v (mid (vpos zu) (vpos zv)).

Lemma collapse_each_ok l : ∀ m ops, surf m → covers ops (nverts m) → (∀ e, e ∈ l → pending m ops e) →
  ∃ m' ops' n, collapse_each mid thin o1 o2 iter l m ops = Some (m', ops', n) ∧ surf m' ∧ nsteps collapses n m m' ∧
    nverts m' = nverts m ∧ nhes m' = nhes m ∧ nfaces m' = nfaces m.
Proof.
  induction l as [|[u v] l IH]; intros m ops Hsf Hc Hl.
  - exists m, ops, 0%nat. split_and!; try done. constructor.
  - pose proof (sf_wf _ Hsf) as HW. destruct (Hl (u, v) ltac:(left)) as (Hu&Hv&Huv). cbn [fst snd] in *.
    assert (∃ m' ops' n, collapse_each mid thin o1 o2 iter l m ops = Some (m', ops', n) ∧ surf m' ∧ nsteps collapses n m m' ∧
      nverts m' = nverts m ∧ nhes m' = nhes m ∧ nfaces m' = nfaces m) as Hskip.
    { apply IH; [done|done|]. intros. apply Hl. by right. }
    cbn [collapse_each]. destruct (both_kept_ok m u v HW Hu Hv) as (z0&z1&_&_&->). cbn [mbind option_bind].
    destruct (vrem z0 || vrem z1); [done|].
    destruct (recent_ok ops iter _ u v Hc Hu Hv) as (b&->&Hb). cbn [mbind option_bind].
    destruct b; [done|]. assert (side_used m u v ∧ (tested short m u v ∨ tested short m v u)) as [Hs Htest].
    { destruct Huv as [?|Huv]; [done|]. apply Hb in Huv. done. }
    destruct (collapse_step m u v Hsf Hs) as (m1&e&->&He). cbn [mbind option_bind].
    destruct e as [e|]; [by rewrite He|]. destruct He as (Hsf1&zu&zv&Zu&Zv&Hcol).
    destruct (stamp_ok ops iter _ u Hc Hu) as (ops1&->&Hc1&S1&K1). cbn [mbind option_bind].
    destruct (stamp_ok ops1 iter _ v Hc1 Hv) as (ops2&->&Hc2&S2&K2). cbn [mbind option_bind].
    pose proof Hcol as (_&_&_&(Hn&Hnh&Hnf)&_).
    destruct (IH m1 ops2) as (m'&ops'&n&->&Hsf'&Hst'&Hn'&Hnh'&Hnf'); [done|by rewrite Hn| |].
    + intros e He. apply (pending_step m m1 ops ops2 u v (mid (vpos zu) (vpos zv)) e); try done.
      * apply F_side in Hs as [z Hz]. by destruct (F_ne m _ _ _ HW Hz).
      * by apply K2. * intros w Hw. by apply K2, K1. * apply Hl. by right.
    + cbn [mbind option_bind]. exists m', ops', (S n). split; [done|]. split; [done|].
      split; [|split_and!; congruence]. apply (nsteps_l _ _ _ m1); [|done]. exists u, v, zu, zv. do 3 (split; [done|]).
      split; [|done]. destruct Htest as [(y0&y1&?&?&?)|(y0&y1&?&?&?)]; [left|right]; congruence.
Qed.

Lemma collapse_pass_ok order m ops : (∀ l e, e ∈ order l → e ∈ l) →
  surf m → covers ops (nverts m) →
  ∃ m' ops' n, collapse_short_edges mid thin short order o1 o2 iter m ops = Some (m', ops', n) ∧ surf m' ∧ nsteps collapses n m m' ∧
    nverts m' = nverts m ∧ nhes m' = nhes m ∧ nfaces m' = nfaces m.
Proof.
  intros Hord Hsf Hc. unfold collapse_short_edges. pose proof (sf_wf _ Hsf) as HW. pose proof (wf_si _ HW) as HS.
  destruct (candidates_ok short m ops iter (below (nhes m)) HW Hc) as (cs&->&_&Hcs); [intros h; apply below_lt|].
  cbn [mbind option_bind]. apply collapse_each_ok; [done|done|].
  intros e (t&->&Ht)%Hord%elem_of_list_fmap. destruct (Hcs t Ht) as (h&->&HL&Htest).
  destruct (live_ends m h HW HL) as [V0 V1].
  destruct (closed_face m h HW (sf_closed _ Hsf) HL) as [f Hf].
  pose proof (cycle_face_side m f h HW HL Hf) as Hcy.
  assert (side_used m (tl m h) (hd m h)) as Hs by (by exists f, (hd m (nx m h))).
  unfold pending. destruct (tl m h <? hd m h); cbn [fst snd]; (split; [done|]; split; [done|]; left); [by auto|].
  split; [by apply (sf_closed _ Hsf)|by right].
Qed.
End pass.
End collapse.

(** ** The flip pass *)
Section flip.
Context (better : P → P → P → P → option bool) (degen : P → P → P → P → bool).

Lemma valence_walk_ok m fuel start : WF m → ∀ cur l, L m start → L m cur →
  orbit fuel (out_step m) start cur = Some l → valence_walk fuel m start cur = Some (length l).
Proof.
  intros HW. pose proof (wf_si _ HW) as HS.
  induction fuel as [|fuel IH]; intros cur l HL0 HL E; [done|]. cbn [orbit valence_walk] in *.
  rewrite (out_step_ok m HW) in E by done. cbn [mbind option_bind] in E.
  rewrite (L_getH m cur HL). cbn [mbind option_bind]. rewrite (L_rem m cur HL). fold (tw m cur).
  pose proof (tw_L m HS cur HL) as HLt.
  rewrite (proj2 (N.eqb_neq _ _) (L_ne_umax m HS _ HLt)).
  rewrite (L_getH m _ HLt). cbn [mbind option_bind]. fold (nx m (tw m cur)). fold (cwn m cur).
  destruct (cwn m cur =? start).
  - by injection E as <-.
  - destruct (orbit fuel (out_step m) start (cwn m cur)) as [l'|] eqn:E'; [|done].
    cbn in E. injection E as <-. rewrite (IH _ l'); [done|done|by apply cwn_L|done].
Qed.
Lemma valence_ok m v : WF m → v < nverts m → ∃ n, vertex_valence m v = Some n.
Proof.
  intros HW Hv. pose proof (wf_si _ HW) as HS. apply (si_vb _ _ HS) in Hv as [x Hx].
  unfold vertex_valence, getV. rewrite Hx. cbn [mbind option_bind].
  destruct (vhe x) as [h0|] eqn:Hh; [|by eexists].
  destruct (anchor_L m HW v x h0 Hx Hh) as [HL0 Ht0].
  destruct (outgoing_ok m HW v x h0 Hx Hh) as (l&E&_).
  unfold outgoing_half_edges, getV in E. rewrite Hx in E. cbn [mbind option_bind] in E. rewrite Hh in E.
  eexists. by apply (valence_walk_ok m _ _ HW _ _ HL0 HL0 E).
Qed.

Lemma flip_candidates_ok m l : WF m → (∀ h, h ∈ l → h < nhes m) → ∃ l', flip_candidates m l = Some l' ∧ ∀ h, h ∈ l' → h ∈ l.
Proof.
  intros HW. pose proof (wf_si _ HW) as HS. induction l as [|h l IH]; intros Hl; [by exists []|].
  cbn [flip_candidates]. destruct IH as (l'&->&Hin); [intros; apply Hl; by right|].
  assert (∃ r, flip_candidate m h = Some r) as [r ->].
  { assert (h < nhes m) as [x Hx]%(si_hb _ _ HS) by (apply Hl; left). unfold flip_candidate. assert (getH m h = Some x) as -> by exact Hx.
    cbn [mbind option_bind]. destruct (hrem x) eqn:Er; [by eexists|].
    destruct (htwin x =? umax); [by eexists|]. destruct (htwin x <=? h); [by eexists|].
    destruct (is_none (hface x)); [by eexists|]. assert (L m h) as HL by (by eapply L_intro).
    assert (htwin x = tw m h) as -> by (unfold tw, he; by rewrite Hx).
    rewrite (L_getH m _ (tw_L m HS h HL)). by eexists. }
  cbn [mbind option_bind]. eexists. split; [done|]. destruct r.
  - intros k [->|Hk]%elem_of_cons; [left|right; by apply Hin].
  - intros k Hk. right. by apply Hin.
Qed.

Lemma should_flip_ok m h : WF m → L m h →
  match should_flip_edge better m h with
  | Some r => r = true → ∃ x0 x1 x2 x3, verts m !! tl m h = Some x0 ∧ verts m !! hd m h = Some x1 ∧
      verts m !! hd m (nx m h) = Some x2 ∧ verts m !! hd m (nx m (tw m h)) = Some x3 ∧
      better (vpos x0) (vpos x1) (vpos x2) (vpos x3) = Some true
  | None => ∃ p q r s, better p q r s = None
  end.
Proof.
  intros HW HL. pose proof (wf_si _ HW) as HS. unfold should_flip_edge.
  destruct (nhes m <=? h); [done|]. rewrite (L_getH m h HL). cbn [mbind option_bind]. rewrite (L_rem m h HL).
  fold (tw m h) (nx m h) (hd m h) (fc m h). destruct (_ || _); [done|].
  pose proof (tw_L m HS h HL) as HLt. rewrite (L_getH m _ HLt). cbn [mbind option_bind]. rewrite (L_rem m _ HLt).
  fold (nx m (tw m h)) (fc m (tw m h)). destruct (is_none (fc m h) || is_none (fc m (tw m h))); [done|].
  rewrite (source_ok m HW) by done. cbn [mbind option_bind].
  pose proof (proj1 (next_L m HW h HL)) as L1. pose proof (proj1 (next_L m HW (tw m h) HLt)) as L2.
  rewrite (L_getH m _ L1), (L_getH m _ L2). cbn [mbind option_bind].
  fold (hd m (nx m h)) (hd m (nx m (tw m h))).
  destruct (_ || _); [done|].
  destruct (live_ends m h HW HL) as [V0 V1]. destruct (live_ends m _ HW L1) as [_ V2]. destruct (live_ends m _ HW L2) as [_ V3].
  apply (si_vb _ _ HS) in V0 as [x0 E0], V1 as [x1 E1], V2 as [x2 E2], V3 as [x3 E3].
  unfold getV. rewrite E0, E1, E2, E3. cbn [mbind option_bind].
  destruct (better (vpos x0) (vpos x1) (vpos x2) (vpos x3)) eqn:Eb; [|by eauto].
  intros ->. by exists x0, x1, x2, x3.
Qed.

Definition improves m (a b c d : N) : Prop := ∃ x0 x1 x2 x3, verts m !! a = Some x0 ∧ verts m !! b = Some x1 ∧
  verts m !! c = Some x2 ∧ verts m !! d = Some x3 ∧ better (vpos x0) (vpos x1) (vpos x2) (vpos x3) = Some true.
(** an invariant kept by single flips is kept by the pass *)
Lemma flip_each_ok (Q : mesh P → Prop) l :
  (∀ m, Q m → WF m) →
  (∀ m m' h f0 f1 a b c d, Q m → flippable degen m h f0 f1 a b c d → improves m a b c d → Flipped m h f0 f1 a b c d m' → Q m') →
  ∀ m, Q m → match flip_each better degen l m with
    | Some (m', n) => Q m'
    | None => ∃ p q r s, better p q r s = None
    end.
Proof.
  intros HQ Hstep. induction l as [|h l IH]; intros m Hm; [done|].
  pose proof (HQ m Hm) as HW. pose proof (wf_si _ HW) as HS. cbn [flip_each].
  destruct (N.leb_spec (nhes m) h) as [|Hh]; [by apply IH|].
  pose proof Hh as [x Hx]%(si_hb _ _ HS). assert (getH m h = Some x) as -> by exact Hx. cbn [mbind option_bind].
  destruct (hrem x) eqn:Er; [by apply IH|]. assert (L m h) as HL by (by eapply L_intro).
  destruct (_ || _); [by apply IH|].
  assert (htwin x = tw m h) as -> by (unfold tw, he; by rewrite Hx).
  assert (hnext x = nx m h) as -> by (unfold nx, he; by rewrite Hx).
  assert (hv x = hd m h) as -> by (unfold hd, he; by rewrite Hx).
  pose proof (tw_L m HS h HL) as HLt. rewrite (L_getH m _ HLt). cbn [mbind option_bind]. rewrite (L_rem m _ HLt).
  rewrite (source_ok m HW) by done. cbn [mbind option_bind]. fold (nx m (tw m h)).
  pose proof (proj1 (next_L m HW h HL)) as L1. pose proof (proj1 (next_L m HW (tw m h) HLt)) as L2.
  rewrite (L_getH m _ L1), (L_getH m _ L2). cbn [mbind option_bind].
  fold (hd m (nx m h)) (hd m (nx m (tw m h))).
  pose proof (should_flip_ok m h HW HL) as Hsh. destruct (should_flip_edge better m h) as [s|]; [|done].
  cbn [mbind option_bind]. destruct s; cbn [negb]; [|by apply IH].
  destruct (flip_edge_ok degen m h HW) as (m1&r&->&Hr). cbn [mbind option_bind].
  destruct r; cbn [negb]; [|destruct Hr as [-> _]; by apply IH].
  destruct Hr as (f0&f1&a&b&c&d&Hf&Hfl). specialize (Hsh eq_refl).
  assert (improves m a b c d) as Himp.
  { pose proof Hf as (Hr&C0&C1&_). apply runs_WF in Hr as (_&Ea&Eb); [|done].
    apply cycle_face_inv in C0 as (e&He&_&Te&Hde&Hc); [|done]. apply cycle_face_inv in C1 as (t&Ht&_&Tt&Hdt&Hd); [|done].
    assert (e = h) as -> by (apply (em_inj m None); congruence).
    assert (t = tw m h) as ->.
    { destruct (si_tw _ _ HS h HL) as (_&E1&_). apply (em_inj m None); unfold tl in *; congruence. }
    unfold improves. rewrite <- Hc, <- Hd, <- Ea, <- Eb. exact Hsh. }
  pose proof (Hstep _ _ _ _ _ _ _ _ _ Hm Hf Himp Hfl) as Hm1.
  destruct (fl_pos _ _ _ _ _ _ _ _ _ Hfl) as [Hn _].
  destruct (live_ends m h HW HL) as [V0 V1]. destruct (live_ends m _ HW L1) as [_ V2]. destruct (live_ends m _ HW L2) as [_ V3].
  pose proof (HQ _ Hm1) as HW1. rewrite <- Hn in V0, V1, V2, V3.
  destruct (valence_ok m1 _ HW1 V0) as [n0 ->]. destruct (valence_ok m1 _ HW1 V1) as [n1 ->].
  destruct (valence_ok m1 _ HW1 V2) as [n2 ->]. destruct (valence_ok m1 _ HW1 V3) as [n3 ->]. cbn [mbind option_bind].
  pose proof (IH m1 Hm1) as Hrec. destruct (flip_each better degen l m1) as [[m' n]|]; done.
Qed.

Lemma flip_pass_ok (Q : mesh P → Prop) :
  (∀ m, Q m → WF m) →
  (∀ m m' h f0 f1 a b c d, Q m → flippable degen m h f0 f1 a b c d → improves m a b c d → Flipped m h f0 f1 a b c d m' → Q m') →
  ∀ m, Q m → match flip_edges better degen m with
    | Some (m', n) => Q m'
    | None => ∃ p q r s, better p q r s = None
    end.
Proof.
  intros HQ Hstep m Hm. unfold flip_edges.
  destruct (flip_candidates_ok m (below (nhes m)) (HQ m Hm)) as (l&->&_); [intros h; apply below_lt|].
  cbn [mbind option_bind]. by apply flip_each_ok.
Qed.
End flip.

(** ** The smoothing pass *)
(** only positions differ *)
Definition moved m m' : Prop :=
  ∃ vs, m' = set_verts vs m ∧
    ∀ v, vhe <$> vs !! v = vhe <$> verts m !! v ∧ vrem <$> vs !! v = vrem <$> verts m !! v.
Lemma moved_refl m : moved m m.
Proof. exists (verts m). by destruct m. Qed.
Lemma moved_trans m1 m2 m3 : moved m1 m2 → moved m2 m3 → moved m1 m3.
Proof.
  intros (v1&->&H1) (v2&->&H2). exists v2. split; [done|]. intros v. destruct (H1 v), (H2 v). cbn in *. split; congruence.
Qed.
Lemma spokes_verts m vs n k c : spokes m n k c → spokes (set_verts vs m) n k c.
Proof.
  induction 1 as [k Hk|n k c Hk Hs IH]; [exact (sp_stop (set_verts vs m) k Hk)|exact (sp_step (set_verts vs m) n k c Hk IH)].
Qed.
Lemma moved_WF m m' : moved m m' → WF m → WF m'.
Proof.
  intros (vs&->&H) [HS HF HB HV].
  assert (∀ v, is_Some (vs !! v) ↔ is_Some (verts m !! v)) as Hdom.
  { intros v. destruct (H v) as [E _]. destruct (vs !! v), (verts m !! v); try done; split; intros; eauto; by eexists. }
  split; [|exact HF| |].
  - destruct HS as [A1 A2 A3 A4 A5 A6 A7 A8 A9 A10 A11]. split; try assumption.
    intros v. cbn. rewrite Hdom. apply A5.
  - intros b HL Hb. destruct (HB b HL Hb) as ([n1 S1]&[n2 S2]&B3&B4).
    split; [exists n1; by apply spokes_verts|]. split; [exists n2; by apply spokes_verts|]. by split.
  - intros v x Hx. cbn in Hx. destruct (H v) as [E _]. rewrite Hx in E. destruct (verts m !! v) as [y|] eqn:Ey; [|done].
    cbn in E. injection E as E. specialize (HV v y Ey). rewrite E. exact HV.
Qed.
Lemma moved_F m m' x y z : moved m m' → F m' x y z ↔ F m x y z.
Proof. intros (vs&->&_). done. Qed.
Lemma moved_side m m' x y : moved m m' → side_used m' x y ↔ side_used m x y.
Proof. intros (vs&->&_). done. Qed.
Lemma moved_surf m m' : moved m m' → surf m → surf m'.
Proof.
  intros Hm [HW HC HR HU]. split; [by eapply moved_WF|..].
  - intros x y. rewrite !(moved_side m m') by done. apply HC.
  - destruct Hm as (vs&->&_). exact HR.
  - intros v x z Hs Hz. rewrite (moved_side m m') in Hs by done. destruct Hm as (vs&->&H). cbn in Hz.
    destruct (H v) as [_ E]. rewrite Hz in E. destruct (verts m !! v) as [y|] eqn:Ey; [|done]. cbn in E. injection E as ->.
    by apply (HU v x).
Qed.
Lemma moved_sizes m m' : moved m m' → nverts m' = nverts m ∧ nhes m' = nhes m ∧ nfaces m' = nfaces m.
Proof. intros (vs&->&_). done. Qed.

Section smooth.
Context (target_of : P → list (P * option P) → P) (far : P → P → bool).

Lemma ring_entry_ok m h : WF m → L m h → ring_entry m h = Some (is_none (fc m h),
    match verts m !! hd m h with Some y => if vrem y then None else Some (h, hd m h) | None => None end).
Proof.
  intros HW HL. pose proof (wf_si _ HW) as HS.
  unfold ring_entry. rewrite (proj2 (N.leb_gt _ _)) by (by apply (L_lt m HS)).
  rewrite (L_getH m h HL). cbn [mbind option_bind]. rewrite (L_rem m h HL). fold (hd m h) (fc m h).
  rewrite (proj2 (N.ltb_lt _ _)) by (by apply (si_hd _ _ HS)).
  destruct (live_ends m h HW HL) as [_ V1]. apply (si_vb _ _ HS) in V1 as [z Hz]. unfold getV. rewrite Hz. done.
Qed.
Lemma ring_entries_ok m l : WF m → (∀ h, h ∈ l → L m h) →
  ring_entries m l = Some ((λ h, (is_none (fc m h),
    match verts m !! hd m h with Some y => if vrem y then None else Some (h, hd m h) | None => None end)) <$> l).
Proof.
  intros HW Hl. unfold ring_entries. induction l as [|h l IH]; [done|].
  cbn [mapM fmap list_fmap]. rewrite ring_entry_ok; [|done|apply Hl; left].
  cbn [mbind option_bind]. rewrite IH by (intros; apply Hl; by right). done.
Qed.
Lemma spoke_positions_ok m h z : WF m → L m h → verts m !! hd m h = Some z →
  ∃ t, spoke_positions m (h, hd m h) = Some (vpos z, t).
Proof.
  intros HW HL Hz. pose proof (wf_si _ HW) as HS. unfold spoke_positions, getV. rewrite Hz. cbn [mbind option_bind].
  rewrite (L_getH m h HL). cbn [mbind option_bind]. destruct (is_none _); [by eexists|].
  fold (nx m h). destruct (nhes m <=? nx m h); [by eexists|]. pose proof (proj1 (next_L m HW h HL)) as L1.
  rewrite (L_getH m _ L1). cbn [mbind option_bind]. rewrite (L_rem m _ L1). fold (hd m (nx m h)).
  destruct (nverts m <=? hd m (nx m h)); [by eexists|].
  destruct (live_ends m _ HW L1) as [_ V1]. apply (si_vb _ _ HS) in V1 as [y Hy]. rewrite Hy. by eexists.
Qed.

(** one step: nothing happens, or the vertex has a closed ring of faces around it
    and moves to a place no neighbour is far from *)
Lemma smooth_ok m v : WF m → v < nverts m →
  ∃ m' (b : bool), smooth_tangential target_of far m v = Some (m', b) ∧
    if b then
      ∃ z p, verts m !! v = Some z ∧ vrem z = false ∧ m' = set_verts (<[v := mkVX p (vhe z) (vrem z)]> (verts m)) m ∧
        (∃ h0, L m h0 ∧ tl m h0 = v ∧ ∀ h, same_fan m h0 h → fc m h ≠ None ∧
           ∀ y, verts m !! hd m h = Some y → vrem y = false → far p (vpos y) = false)
    else m' = m.
Proof.
  intros HW Hv. pose proof (wf_si _ HW) as HS. unfold smooth_tangential.
  rewrite (proj2 (N.leb_gt _ _) Hv). pose proof Hv as [z Hz]%(si_vb _ _ HS). assert (getV m v = Some z) as -> by exact Hz.
  cbn [mbind option_bind]. destruct (vrem z) eqn:Er; [by exists m, false|].
  destruct (vhe z) as [h0|] eqn:Eh.
  2: { unfold vertex_ring_ccw, getV. rewrite Hz. cbn [mbind option_bind]. rewrite Eh. by exists m, false. }
  destruct (vertex_ring_ok m HW v z h0 Hz Eh) as (l&->&_&_&HLl&Hf). cbn [mbind option_bind ring_spokes].
  destruct (spoke m <$> l) as [|s ss] eqn:Es; [by exists m, false|]. rewrite <- Es. clear Es s ss.
  assert ((fst ∘ fst <$> (spoke m <$> l)) = l) as ->.
  { clear. induction l as [|h l IH]; [done|]. cbn. by f_equal. }
  rewrite ring_entries_ok; [|done|intros h Hh; by apply HLl]. cbn [mbind option_bind].
  set (g := λ h, (is_none (fc m h),
    match verts m !! hd m h with Some y => if vrem y then None else Some (h, hd m h) | None => None end)).
  destruct (existsb fst (g <$> l)) eqn:Eb; [by exists m, false|]. cbn [orb].
  destruct (length (omap snd (g <$> l)) <? 2)%nat; [by exists m, false|].
  assert (∀ e, e ∈ omap snd (g <$> l) ↔ ∃ h y, e = (h, hd m h) ∧ h ∈ l ∧ verts m !! hd m h = Some y ∧ vrem y = false) as Hns.
  { intros e. rewrite elem_of_list_omap. split.
    - intros (t&(h&->&Hh)%elem_of_list_fmap&E). unfold g in E. cbn in E.
      destruct (verts m !! hd m h) as [y|] eqn:Ey; [|done]. destruct (vrem y) eqn:Ery; [done|]. injection E as <-. eauto 10.
    - intros (h&y&->&Hh&Hy&Hr). exists (g h). split; [by apply elem_of_list_fmap_1|]. unfold g. cbn. by rewrite Hy, Hr. }
  assert (∃ ps, mapM (spoke_positions m) (omap snd (g <$> l)) = Some ps ∧
    ∀ e, e ∈ omap snd (g <$> l) → ∃ q, q ∈ ps ∧ spoke_positions m e = Some q) as (ps&->&Hps).
  { assert (∀ e, e ∈ omap snd (g <$> l) → is_Some (spoke_positions m e)) as Hall.
    { intros e (h&y&->&Hh&Hy&_)%Hns. destruct (spoke_positions_ok m h y HW) as [t ->]; [by apply HLl|done|by eexists]. }
    revert Hall. clear. generalize (omap snd (g <$> l)) as es. induction es as [|e es IH]; intros Hall.
    - exists []. split; [done|]. intros e []%elem_of_nil.
    - destruct (Hall e) as [q Hq]; [left|]. destruct IH as (ps&E&Hps); [intros; apply Hall; by right|].
      exists (q :: ps). split; [cbn [mapM]; by rewrite Hq; cbn [mbind option_bind]; rewrite E|].
      intros e' [->|He]%elem_of_cons; [exists q; split; [left|done]|].
      destruct (Hps e' He) as (q'&?&?). exists q'. split; [by right|done]. }
  cbn [mbind option_bind].
  set (p := target_of (vpos z) ps). destruct (existsb _ ps) eqn:Ex; [by exists m, false|].
  unfold updV, getV. rewrite Hz. cbn [mbind option_bind]. eexists _, true. split; [done|].
  exists z, p. split; [done|]. split; [done|]. split; [done|].
  destruct (anchor_L m HW v z h0 Hz Eh) as [HL0 Ht0]. exists h0. split; [done|]. split; [done|].
  intros h Hh%Hf. split.
  - intros E. assert (existsb fst (g <$> l) = true); [|congruence]. apply existsb_exists.
    exists (g h). split; [by apply elem_of_list_In, elem_of_list_fmap_1|]. unfold g. cbn. by rewrite E.
  - intros y Hy Hr. destruct (Hps (h, hd m h)) as (q&Hq&Eq).
    { apply Hns. eauto 10. }
    destruct (spoke_positions_ok m h y HW) as [t Et]; [by apply HLl|done|]. rewrite Et in Eq. injection Eq as <-.
    destruct (far p (vpos y)) eqn:Ef; [|done].
    assert (existsb (λ q : P * option P, far p q.1) ps = true); [|congruence].
    apply existsb_exists. exists (vpos y, t). split; [by apply elem_of_list_In|done].
Qed.

Lemma smooth_moved m v : WF m → v < nverts m →
  ∃ m' (b : bool), smooth_tangential target_of far m v = Some (m', b) ∧ moved m m'.
Proof.
  intros HW Hv. destruct (smooth_ok m v HW Hv) as (m'&b&E&H). exists m', b. split; [done|].
  destruct b; [|subst; apply moved_refl]. destruct H as (z&p&Hz&Hr&->&_).
  eexists. split; [done|]. intros w. destruct (decide (w = v)) as [->|].
  - by rewrite lookup_insert, Hz.
  - by rewrite lookup_insert_ne.
Qed.
Lemma smooth_each_moved l : ∀ m, WF m → (∀ v, v ∈ l → v < nverts m) →
  ∃ m' n, smooth_each target_of far l m = Some (m', n) ∧ moved m m'.
Proof.
  induction l as [|v l IH]; intros m HW Hl; [exists m, 0%nat; split; [done|apply moved_refl]|].
  pose proof (wf_si _ HW) as HS. assert (v < nverts m) as Hv by (apply Hl; left).
  cbn [smooth_each]. pose proof Hv as [z Hz]%(si_vb _ _ HS). assert (getV m v = Some z) as -> by exact Hz. cbn [mbind option_bind].
  destruct (vrem z); [apply IH; [done|intros; apply Hl; by right]|].
  destruct (smooth_moved m v HW Hv) as (m1&b&->&Hm1). cbn [mbind option_bind].
  destruct (IH m1) as (m'&n&->&Hm'); [by eapply moved_WF| |].
  - intros w Hw. destruct (moved_sizes _ _ Hm1) as (->&_). apply Hl. by right.
  - cbn [mbind option_bind]. eexists _, _. split; [done|]. by eapply moved_trans.
Qed.
Lemma smooth_pass_moved k : ∀ m, WF m → ∃ m' n, smooth_vertices target_of far k m = Some (m', n) ∧ moved m m'.
Proof.
  induction k as [|k IH]; intros m HW; [exists m, 0%nat; split; [done|apply moved_refl]|].
  cbn [smooth_vertices]. destruct (smooth_each_moved (below (nverts m)) m HW) as (m1&n&->&Hm1); [intros v; apply below_lt|].
  cbn [mbind option_bind]. destruct (IH m1) as (m'&n'&->&Hm'); [by eapply moved_WF|].
  cbn [mbind option_bind]. eexists _, _. split; [done|]. by eapply moved_trans.
Qed.
End smooth.
End passes.
