(** Repairing all the borders and anchors at once; add_triangles_deferred. *)
From Verif Require Export MeshBatch.
Local Open Scope N_scope.

Section batch.
Context {P : Type}.
Implicit Types (m : mesh P) (h k b c f g u v e t : N).

(** ** fix_vertices_outgoing_for *)
Section anchors.
Context m (HS : SI m None) (HB : BI m).

Lemma normalize_out h v : out m h v → normalize_to_outgoing m h v = Some (Some h).
Proof.
  intros Ho. unfold normalize_to_outgoing. pose proof Ho as [HL _]. unfold L in HL. rewrite HL. cbn [negb].
  destruct (is_outgoing_ok m HS HB h v) as (r & -> & Hr). cbn [mbind option_bind].
  by rewrite (proj2 Hr Ho).
Qed.

Lemma find_any_scan_ok v l : ∃ r, find_any_scan m v l = Some r ∧ (∀ h', r = Some h' → out m h' v) ∧
  (r = None → ∀ h, h ∈ l → ¬ out m h v).
Proof.
  induction l as [|s l IH]; cbn [find_any_scan].
  { exists None. split; [done|]. split; [done|]. intros _ h []%not_elem_of_nil. }
  destruct IH as (r & E & H1 & H2).
  destruct (is_live m s) eqn:EL; cbn [negb].
  2:{ exists r. split; [done|]. split; [done|]. intros Hr h [->|Hh]%elem_of_cons; [|by apply H2].
      intros [HL _]. unfold L in HL. congruence. }
  assert (L m s) as HL by done. rewrite (L_getH _ _ HL). cbn [mbind option_bind].
  assert (L m (tw m s)) as HLt by (by apply (si_tw _ _ HS)).
  fold (hd m s) (tw m s). rewrite (L_getH _ _ HLt). cbn [mbind option_bind]. fold (hd m (tw m s)). fold (tl m s).
  assert ((if hd m s =? v then Some true else Some (tl m s =? v)) = Some ((hd m s =? v) || (tl m s =? v))) as ->.
  { by destruct (hd m s =? v). }
  cbn [mbind option_bind].
  destruct ((hd m s =? v) || (tl m s =? v)) eqn:Et.
  - destruct (decide (tl m s = v)) as [Hs|Hs].
    + rewrite (normalize_out s v) by done. cbn [mbind option_bind]. exists (Some s). split; [done|].
      split; [|done]. intros h' [= <-]. done.
    + destruct (normalize_ok m HS HB s v) as (r' & -> & Hr'). cbn [mbind option_bind].
      destruct r' as [h|]; [exists (Some h); split; [done|]; split; [|done]; by apply Hr'|].
      exists r. split; [done|]. split; [done|]. intros Hr h [->|Hh]%elem_of_cons; [|by apply H2].
      intros [_ ?]. done.
  - exists r. split; [done|]. split; [done|]. intros Hr h [->|Hh]%elem_of_cons; [|by apply H2].
    intros [_ Ht]. apply orb_false_iff in Et as [_ Et]. apply N.eqb_neq in Et. done.
Qed.

Lemma fix_outgoing_one_ok v : v < nverts m →
  ∃ x x', verts m !! v = Some x ∧
    fix_outgoing_one m v = Some (set_verts (<[v := x']> (verts m)) m) ∧
    anch m x' v ∧ vpos x' = vpos x ∧ vrem x' = vrem x.
Proof.
  intros Hv. destruct (proj2 (si_vb _ _ HS v) Hv) as [x Hx]. exists x.
  unfold fix_outgoing_one, getV. rewrite Hx. cbn [mbind option_bind].
  assert (∃ r : bool, match vhe x with
          | Some h => o ← is_outgoing_from m h v; Some (negb o)
          | None => Some true
          end = Some r ∧ (r = false → anch m x v)) as (r & -> & Hr).
  { unfold anch. destruct (vhe x) as [h|]; [|by exists true].
    destruct (is_outgoing_ok m HS HB h v) as (r & -> & Hr). cbn [mbind option_bind].
    exists (negb r). split; [done|]. intros ?%negb_false_iff. by apply Hr. }
  cbn [mbind option_bind]. destruct r.
  - destruct (find_any_scan_ok v (range (nhes m))) as (r & -> & Hr1 & Hr2). cbn [mbind option_bind].
    eexists. split; [done|]. unfold updV, getV. rewrite Hx. cbn [mbind option_bind].
    split; [done|]. simpl. split; [|done]. unfold anch. cbn [vhe]. destruct r as [h|]; [by auto|].
    intros h Ho. apply (Hr2 eq_refl h); [|done]. apply range_spec, (L_lt m HS), Ho.
  - exists x. split; [done|]. rewrite insert_id by done. split; [by destruct m|]. auto.
Qed.
End anchors.

Lemma fix_outgoing_all_ok l : ∀ m, SI m None → BI m → (∀ v, v ∈ l → v < nverts m) →
  ∃ vs, fix_outgoing_all m l = Some (set_verts vs m) ∧ (∀ v, is_Some (vs !! v) ↔ v < nverts m) ∧
    (∀ v x, v ∈ l → vs !! v = Some x → anch m x v) ∧
    (∀ v, v ∉ l → vs !! v = verts m !! v) ∧
    (∀ v x, verts m !! v = Some x → ∃ x', vs !! v = Some x' ∧ vpos x' = vpos x ∧ vrem x' = vrem x).
Proof.
  induction l as [|u l IH]; intros m HS HB Hl; cbn [fix_outgoing_all].
  { exists (verts m). split; [by destruct m|]. split; [apply (si_vb _ _ HS)|]. split; [|by eauto].
    intros v x []%not_elem_of_nil. }
  destruct (fix_outgoing_one_ok m HS HB u) as (x & x' & Ex & -> & Ha & Hp & Hr); [apply Hl; by left|].
  cbn [mbind option_bind]. set (m1 := set_verts _ m).
  assert (∀ v, is_Some (verts m1 !! v) ↔ v < nverts m) as Vb1.
  { intros v. unfold m1. cbn [verts set_verts]. rewrite lookup_insert_is_Some', (si_vb _ _ HS).
    split; [|by auto]. intros [<-|?]; [|done]. apply Hl. by left. }
  assert (SI m1 None) as HS1 by (by apply set_verts_SI).
  assert (BI m1) as HB1 by (by apply (BI_hes m)).
  destruct (IH m1 HS1 HB1) as (vs & E & Hb & Hin & Hout & Hpos); [intros; apply Hl; by right|].
  exists vs. split; [done|]. split; [done|]. split; [|split].
  - intros v y Hv Ey. destruct (decide (v ∈ l)) as [Hvl|Hvl].
    + by apply (anch_hes m m1), Hin.
    + rewrite Hout in Ey by done. apply elem_of_cons in Hv as [->|?]; [|done].
      unfold m1 in Ey. cbn in Ey. rewrite lookup_insert in Ey. by injection Ey as <-.
  - intros v [Hu Hv]%not_elem_of_cons. rewrite Hout by done. unfold m1. cbn. by rewrite lookup_insert_ne.
  - intros v y Hy. destruct (decide (u = v)) as [<-|Hne].
    + destruct (Hpos u x') as (z & Ez & ? & ?); [unfold m1; cbn; by rewrite lookup_insert|].
      exists z. assert (y = x) as -> by congruence. split; [done|]. split; congruence.
    + apply Hpos. unfold m1. cbn. by rewrite lookup_insert_ne.
Qed.

(** ** Repairing the borders from a set of seeds that touches every damage *)
Definition undamaged m (S : list N) : Prop :=
  ∀ b c, L m b → fc m b = None → fan m b c → b ∉ S → c ∉ S → nx m b = c ∧ pv m c = b.

Lemma bsim_same_faces m m' : SI m None → FH m None → bsim m m' → same_faces m m'.
Proof.
  intros HS HF HB g. apply same_oriented_q; try done.
  - by apply (bsim_SI m).
  - by rewrite (bs_faces _ _ HB).
  - intros h HL Hf. unfold tl. rewrite (bs_L _ _ HB), (bs_fc _ _ HB), !(bs_hd _ _ HB), (bs_tw _ _ HB).
    rewrite (bsim_nx_in m m' h HB) by (by rewrite Hf). done.
Qed.

Lemma weld_repairs m S : SI m None → undamaged m S →
  ∃ m', weld_border_components_from m S = Some m' ∧ bsim m m' ∧ BI m'.
Proof.
  intros HS Hu. rewrite weld_border_components_eq.
  destruct (weld_ok S m ∅ HS) as (m' & V & E & HB & HC & _ & Hst & Hlk & Hfr).
  { intros x Hx. set_solver. }
  rewrite E. cbn [mbind option_bind fst]. exists m'. split; [done|]. split; [done|].
  intros x HLx Hfx. rewrite (bs_L _ _ HB) in HLx. rewrite (bs_fc _ _ HB) in Hfx.
  assert (linked m m' x) as (G1&G2&G3&G4).
  { destruct (decide (x ∈ V)) as [HV|HV]; [apply Hlk; [done|apply not_elem_of_empty]|].
    unfold linked. destruct (Hfr x) as [-> ->]; [by left|].
    destruct (F_ok m HS x HLx Hfx) as (_ & Hfan & HLc & Hfc).
    assert (F m x ∉ V) as HcV.
    { intros Hin. apply HV. destruct (HC _ Hin) as (_&_&_&H). by apply H. }
    destruct (border_pred m x HS HLx Hfx) as (a & HLa & Hfa & Hfana).
    assert (a ∉ V) as HaV.
    { intros Hin. apply HV. destruct (HC _ Hin) as (_&_&H&_). by apply H. }
    assert (∀ y, L m y → fc m y = None → y ∉ V → y ∉ S) as HnS.
    { intros y ?? Hy Hin. apply Hy. by apply Hst. }
    destruct (Hu x (F m x)) as [-> _]; auto.
    destruct (Hu a x) as [_ ->]; auto. }
  rewrite (bsim_fan m m') by (done || by apply (si_out _ _ HS)).
  rewrite (bsim_fan m m') by (done || by apply (si_out _ _ HS)).
  rewrite (bs_L _ _ HB), (bs_fc _ _ HB). done.
Qed.

Lemma repair_ok m (S A l : list N) : SI m None → FH m None → undamaged m S →
  (∀ v, v ∈ l ↔ v ∈ A) → (∀ v, v ∈ A → v < nverts m) →
  (∀ v x, verts m !! v = Some x → v ∉ A → anch m x v) →
  ∃ m1 m2, weld_border_components_from m S = Some m1 ∧ fix_outgoing_all m1 l = Some m2 ∧ WF m2 ∧
    same_faces m m2 ∧ same_positions m m2 ∧ nfaces m2 = nfaces m ∧ nhes m2 = nhes m.
Proof.
  intros HS HF Hu Hl HA Hanch.
  destruct (weld_repairs m S HS Hu) as (m1 & E1 & HB & HBI).
  pose proof (bsim_SI _ _ _ HB HS) as HS1. pose proof (bsim_FH _ _ _ HB HF) as HF1.
  destruct (fix_outgoing_all_ok l m1 HS1 HBI) as (vs & E2 & Hvs & Hin & Hout & Hpos).
  { intros v Hv. rewrite (bs_nverts _ _ HB). by apply HA, Hl. }
  exists m1, (set_verts vs m1). split; [done|]. split; [done|].
  assert (SI (set_verts vs m1) None) as HS2 by (by apply set_verts_SI).
  assert (∀ v x, anch m1 x v ↔ anch m x v) as Hanch1.
  { intros v x. unfold anch, out, tl. destruct (vhe x) as [h|].
    - by rewrite (bs_L _ _ HB), (bs_tw _ _ HB), (bs_hd _ _ HB).
    - split; intros H h Ho; apply (H h); revert Ho; by rewrite (bs_L _ _ HB), (bs_tw _ _ HB), (bs_hd _ _ HB). }
  split; [|split; [|split; [|split]]].
  - split; [done|exact HF1|by apply (BI_hes m1)|]. apply VI_anch. intros v x Ex. cbn in Ex.
    apply (anch_hes m1); [done|]. destruct (decide (v ∈ l)) as [Hv|Hv]; [by apply Hin|].
    rewrite Hout in Ex by done. rewrite (bs_verts _ _ HB) in Ex. apply Hanch1, Hanch; [done|]. by rewrite <- Hl.
  - intros g a b c. etrans; [|by apply (bsim_same_faces m m1)]. done.
  - apply same_positions_intro; try done; [cbn; by rewrite (bs_nverts _ _ HB)|].
    intros v x Hx. cbn. apply Hpos. by rewrite (bs_verts _ _ HB).
  - cbn. apply HB.
  - cbn. apply HB.
Qed.

(** ** add_triangles_deferred *)
Record DInv m (S A : list N) : Prop := {
  di_si : SI m None;
  di_fh : FH m None;
  di_ring : ring_ok m;
  di_links : ∀ b c, L m b → fc m b = None → fan m b c → b ∉ S ∨ c ∉ S → nx m b = c;
  di_A : ∀ v, v ∈ A → v < nverts m;
  di_anch : ∀ v x, verts m !! v = Some x → v ∉ A → anch m x v
}.

Lemma DInv_init m : WF m → DInv m [] [].
Proof.
  intros HW. pose proof (wf_si _ HW) as HS. split; try done.
  - apply HW. - by apply BI_ring, HW.
  - intros b c HL Hf Hfan _. apply (fan_fun m b); [|done]. by apply (wf_bi _ HW).
  - intros v []%not_elem_of_nil.
  - intros v x Hx _. by apply VI_anch; [apply HW|].
Qed.

Lemma DInv_step m S A a b c m' f st : DInv m S A → Pasted m a b c m' f st →
  a < nverts m → b < nverts m → c < nverts m → DInv m' (S ++ st) (A ++ [a; b; c]).
Proof.
  intros [HS HF HR HK HA Hanch] [HS' HF' HR' _ _ _ Hnv Hv _ _ Hold Hnew Htw Hint Hbd] Va Vb Vc.
  split; try done.
  - intros x y HLx Hfx Hfan Hxy.
    destruct (fan_end m' HS' x y HLx Hfx Hfan) as (HLy&Hfy&_).
    destruct Hxy as [Hx|Hy].
    + apply not_elem_of_app in Hx as [HxS Hxst].
      destruct (Hbd x HLx Hfx Hxst) as (HLm&Hfm&En&Ep).
      destruct (F_ok m HS x HLm Hfm) as (_&Hfan0&_&_).
      assert (nx m x = F m x) as E0 by (apply HK; auto).
      destruct (HR' x HLx Hfx) as (_&Hfn&_). rewrite En, E0 in Hfn.
      rewrite En, E0. apply (fan_fun m' x); [|done].
      by apply (fan_mono m m').
    + apply not_elem_of_app in Hy as [HyS Hyst].
      destruct (Hbd y HLy Hfy Hyst) as (HLm&Hfm&En&Ep).
      destruct (border_pred m y HS HLm Hfm) as (z & HLz & Hfz & Hfan0).
      assert (nx m z = y) as E0 by (apply HK; auto).
      destruct (HR z HLz Hfz) as (_&_&Ez&_). rewrite E0 in Ez.
      destruct (HR' y HLy Hfy) as (_&_&_&HLp&Hfp&Enp). rewrite Ep, Ez in HLp, Hfp, Enp.
      assert (z = x) as ->; [|done].
      apply (fan_inj m' HS' z x y); try done.
      by apply (fan_mono m m').
  - intros v [?|Hin]%elem_of_app; [rewrite Hnv; by apply HA|]. rewrite Hnv.
    apply elem_of_cons in Hin as [->|Hin]; [done|]. apply elem_of_cons in Hin as [->|Hin]; [done|].
    apply elem_of_list_singleton in Hin as ->. done.
  - intros v x Hx [HvA Hvn]%not_elem_of_app. rewrite Hv in Hx. specialize (Hanch v x Hx HvA).
    unfold anch, out in *. destruct (vhe x) as [h|].
    + destruct Hanch as [HL Ht]. destruct (Hold h HL) as [? ->]. done.
    + intros h [HL Ht]. destruct (Hnew h HL) as [HLm|Hin].
      * apply (Hanch h). split; [done|]. by destruct (Hold h HLm) as [_ <-].
      * rewrite Ht in Hin. done.
Qed.

Lemma DInv_undamaged m S A : DInv m S A → undamaged m S.
Proof.
  intros [HS HF HR HK _ _] b c HL Hf Hfan Hb Hc.
  assert (nx m b = c) as E by (apply HK; auto). split; [done|].
  destruct (HR b HL Hf) as (_&_&<-&_). by rewrite E.
Qed.

(** one call, compared with add_triangle on a mesh with the same faces *)
Lemma no_weld_step m S A d v0 v1 v2 : WF m → DInv d S A → same_faces m d →
  nfaces d = nfaces m → nverts d = nverts m →
  v0 ≠ v1 → v1 ≠ v2 → v2 ≠ v0 → v0 < nverts m → v1 < nverts m → v2 < nverts m →
  nhes d + 6 ≤ umax → nhes m + 6 ≤ umax → nfaces m < umax →
  ∃ m' f d' st av, add_triangle m v0 v1 v2 = Some (m', f) ∧
    add_triangle_no_weld d v0 v1 v2 = Some (d', f, st, av) ∧
    WF m' ∧ DInv d' (S ++ st) (A ++ av) ∧ same_faces m' d' ∧ same_positions m m' ∧ verts d' = verts d ∧
    nfaces d' = nfaces m' ∧ nverts d' = nverts m' ∧
    nhes d' ≤ nhes d + 6 ∧ nhes m' ≤ nhes m + 6 ∧ nfaces m' ≤ nfaces m + 1.
Proof.
  intros HW HD Hsf Hnf Hnv N01 N12 N20 V0 V1 V2 Hhd Hhm Hfm.
  pose proof HD as [HSd HFd HRd _ _ _].
  destruct (add_triangle_ok m v0 v1 v2 HW) as (m' & f & E & Hp); try done. exists m', f.
  unfold add_triangle_no_weld.
  destruct (free3_ok d v0 v1 v1 v2 v2 v0 HSd) as (r & -> & Hr). cbn [mbind option_bind].
  destruct (free3_ok d v0 v2 v2 v1 v1 v0 HSd) as (r' & -> & Hr'). cbn [mbind option_bind].
  rewrite !(free_side_q d), !(same_faces_side m d Hsf) in Hr by done.
  rewrite !(free_side_q d), !(same_faces_side m d Hsf) in Hr' by done.
  assert (∀ a b c, a ≠ b → b ≠ c → c ≠ a → a < nverts m → b < nverts m → c < nverts m →
    ¬ side_used m a b → ¬ side_used m b c → ¬ side_used m c a → AddPost m a b c m' f →
    ∃ d' st, no_weld_oriented d a b c = Some (d', f, st) ∧
      WF m' ∧ DInv d' (S ++ st) (A ++ [a; b; c]) ∧ same_faces m' d' ∧ same_positions m m' ∧ verts d' = verts d ∧
      nfaces d' = nfaces m' ∧ nverts d' = nverts m' ∧
      nhes d' ≤ nhes d + 6 ∧ nhes m' ≤ nhes m + 6 ∧ nfaces m' ≤ nfaces m + 1) as Hgo.
  { intros a b c Nab Nbc Nca Va Vb Vc F1 F2 F3 HA.
    destruct (no_weld_oriented_ok d a b c) as (d' & f' & st & E' & HPa); try done; try lia.
    1-3: apply free_side_q; try done; by rewrite (same_faces_side m d Hsf).
    apply AddPost_Added in HA as [HW' [Hf Hn'] Hface Hrest Hpos Hsize]; [|done].
    assert (f' = f) as -> by (destruct HPa; congruence).
    exists d', st. split; [done|]. split; [done|].
    split; [apply (DInv_step d S A a b c d' f st); try done; lia|].
    destruct HPa as [? ? ? ? ? ? ? ? Hfd Hrd ? ? ? ? ?].
    split_and!; try done; try lia.
    - intros g x y z. destruct (decide (g = f)) as [->|Hg].
      + assert (∀ n : mesh P, SI n None → oriented_face n f a b c → oriented_face n f x y z ↔ x = a ∧ y = b ∧ z = c) as Hone.
        { intros n Hn Ho. split; [|by intros (->&->&->)]. intros Ho'.
          destruct (oriented_fun n f _ _ _ _ _ _ Hn Ho Ho') as (->&->&->). done. }
        rewrite (Hone d'), (Hone m') by (done || apply HW'). done.
      + rewrite (Hrd g x y z Hg), (Hrest g x y z Hg). apply Hsf.
    - destruct Hpos as [? _]. lia. }
  destruct Hp as [[Hc Hp]|[(Hc&Hc'&Hp)|(Hc&Hc'&->&->)]].
  - rewrite (proj2 Hr Hc). destruct Hc as (?&?&?).
    destruct (Hgo v0 v1 v2) as (d' & st & E' & ?); try done.
    exists d', st, [v0; v1; v2]. rewrite E'. cbn [mbind option_bind]. done.
  - destruct r; [by destruct Hc; apply Hr|]. rewrite (proj2 Hr' Hc'). destruct Hc' as (?&?&?).
    destruct (Hgo v0 v2 v1) as (d' & st & E' & ?); try done; try (by intros ->).
    exists d', st, [v0; v2; v1]. rewrite E'. cbn [mbind option_bind]. done.
  - destruct r; [by destruct Hc; apply Hr|]. destruct r'; [by destruct Hc'; apply Hr'|].
    exists d, [], []. rewrite !app_nil_r. split_and!; try done; lia.
Qed.

(** calling add_triangle on each element *)
Fixpoint add_each m (ts : list (N * N * N)) : option (mesh P * list N) :=
  match ts with
  | [] => Some (m, [])
  | (v0, v1, v2) :: ts =>
      '(m, f) ← add_triangle m v0 v1 v2;
      '(m, fs) ← add_each m ts;
      Some (m, f :: fs)
  end.

Lemma add_loop_ok (ts : list (N * N * N)) : ∀ m S A d, WF m → DInv d S A → same_faces m d →
  nfaces d = nfaces m → nverts d = nverts m → same_positions m d →
  Forall (λ t : N * N * N, t.1.1 ≠ t.1.2 ∧ t.1.2 ≠ t.2 ∧ t.2 ≠ t.1.1 ∧
               t.1.1 < nverts m ∧ t.1.2 < nverts m ∧ t.2 < nverts m) ts →
  nhes d + 6 * N.of_nat (length ts) ≤ umax → nhes m + 6 * N.of_nat (length ts) ≤ umax →
  nfaces m + N.of_nat (length ts) ≤ umax →
  ∃ m' fs d' st av, add_each m ts = Some (m', fs) ∧
    add_loop d ts = Some (d', filter (λ f, f ≠ umax) fs, st, av) ∧
    WF m' ∧ DInv d' (S ++ st) (A ++ av) ∧ same_faces m' d' ∧ same_positions m' d' ∧ same_positions m m' ∧
    nfaces d' = nfaces m'.
Proof.
  induction ts as [|[[v0 v1] v2] ts IH]; intros m S A d HW HD Hsf Hnf Hnv Hpos Hts Hs1 Hs2 Hs3.
  { exists m, [], d, [], []. rewrite !app_nil_r. done. }
  apply Forall_cons in Hts as [(N01&N12&N20&V0&V1&V2) Hts]. cbn [fst snd] in *. cbn [length] in *.
  destruct (no_weld_step m S A d v0 v1 v2) as (m1 & f & d1 & st & av & E & E' & HW1 & HD1 & Hsf1 & Hp1 & Hv1 & Hnf1 & Hnv1 & ? & ? & ?);
    try done; try lia.
  pose proof Hp1 as [Hnvm Hp1'].
  destruct (IH m1 (S ++ st) (A ++ av) d1) as (m2 & fs & d2 & sts & avs & E2 & E2' & HW2 & HD2 & Hsf2 & Hp2 & Hp3 & Hnf2);
    try done; try lia.
  { split; [done|]. intros v. rewrite Hv1. destruct Hpos as [_ Hpos], (Hpos v) as [-> ->], (Hp1' v) as [-> ->]. done. }
  { by rewrite Hnvm. }
  exists m2, (f :: fs), d2, (st ++ sts), (av ++ avs).
  cbn [add_each add_loop]. rewrite E, E'. cbn [mbind option_bind]. rewrite E2, E2'. cbn [mbind option_bind].
  split; [done|]. split.
  { rewrite filter_cons. destruct (N.eqb_spec f umax) as [->|Hf].
    - rewrite decide_False; [done|]. naive_solver.
    - rewrite decide_True by done. done. }
  rewrite !app_assoc. split_and!; try done.
  destruct Hp3 as [? Hp3]. split; [congruence|]. intros v. destruct (Hp3 v) as [-> ->], (Hp1' v) as [-> ->]. done.
Qed.

Lemma same_positions_trans m1 m2 m3 : same_positions m1 m2 → same_positions m2 m3 → same_positions m1 m3.
Proof. intros [? H1] [? H2]. split; [congruence|]. intros v. destruct (H1 v) as [<- <-], (H2 v) as [<- <-]. done. Qed.

Theorem add_deferred_ok (order : list N → list N) m (ts : list (N * N * N)) : (∀ l v, v ∈ order l ↔ v ∈ l) → WF m →
  Forall (λ t : N * N * N, t.1.1 ≠ t.1.2 ∧ t.1.2 ≠ t.2 ∧ t.2 ≠ t.1.1 ∧
               t.1.1 < nverts m ∧ t.1.2 < nverts m ∧ t.2 < nverts m) ts →
  nhes m + 6 * N.of_nat (length ts) ≤ umax → nfaces m + N.of_nat (length ts) ≤ umax →
  ∃ m' fs d', add_each m ts = Some (m', fs) ∧
    add_triangles_deferred order m ts = Some (d', filter (λ f, f ≠ umax) fs) ∧
    WF m' ∧ WF d' ∧ same_faces m' d' ∧ same_positions m' d' ∧ nfaces d' = nfaces m'.
Proof.
  intros Hord HW Hts Hs1 Hs2. unfold add_triangles_deferred.
  destruct (add_loop_ok ts m [] [] m) as (m' & fs & d & st & av & E & -> & HW' & HD & Hsf & Hp & _ & Hnf); try done.
  { by apply DInv_init. }
  cbn [app mbind option_bind] in *. exists m', fs.
  pose proof HD as [HS HF _ _ HA Hanch].
  destruct (repair_ok d st av (order av)) as (d1 & d2 & E1 & E2 & HW2 & Hsf2 & Hp2 & Hnf2 & _); try done.
  { by apply (DInv_undamaged d st av). }
  exists d2. split; [done|].
  assert ((match st with [] => Some d | _ => weld_border_components_from d st end) = Some d1) as ->.
  { by destruct st. }
  cbn [mbind option_bind]. unfold fix_vertices_outgoing_for.
  assert ((match av with [] => Some d1 | _ => fix_outgoing_all d1 (order av) end) = Some d2) as ->.
  { destruct av; [|done]. destruct (order []) as [|v l] eqn:Eo; [done|].
    exfalso. apply (not_elem_of_nil v), Hord. rewrite Eo. by left. }
  cbn [mbind option_bind]. split; [done|]. split_and!; try done.
  - intros g a b c. rewrite (Hsf2 g a b c). apply Hsf.
  - by apply (same_positions_trans _ d).
  - congruence.
Qed.
End batch.
