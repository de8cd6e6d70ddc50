(** Proofs about the triangulation jobs of plane meshes. *)
From Coq Require Import QArith Qabs Lqa Lia.
From Verif Require Import MeshInv MeshWF MeshOps MeshQuery MeshQuery2 MeshCompact RayProofs PslgFloat BoolPslg BoolPslgChain.
From Verif Require Import PslgPlaneSpec.
Local Open Scope N_scope.
Local Opaque on_edge_with_t param_t_uv on_segment_uv_fast same_uv feps fcross.

(** ** The pairs of each face *)
Section pairs.
Implicit Types (l : list (gseg p2)) (f : N) (pr : N * N) (t : gmap N (list (N * N))).
Context (m : mesh p2) (HU : nverts m ≤ umax).
(** segment s gives face f this pair *)
Definition gives (s : gseg p2) f pr : Prop := ∃ a b, uses s a b ∧
  (g_face s = f ∧ pr = (a, b) ∨ g_face s ≠ f ∧ (pr = (a, umax) ∧ beside (g_a s) f ∨ pr = (b, umax) ∧ beside (g_b s) f)).
Lemma pairs_2_ok l : segs_in_2 m l → ∀ t, filled t → ∃ t', pairs_by_face_2 l t = Some t' ∧ filled t' ∧
  ∀ f pr, pr ∈ of_face t' f ↔ pr ∈ of_face t f ∨ ∃ s, s ∈ l ∧ gives s f pr.
Proof using HU.
  induction l as [|s l IH]; intros Hl t Ht.
  { exists t. split; [done|]. split; [done|]. intros f pr. split; [by left|]. intros [?|(s&[]%elem_of_nil&_)]. done. }
  assert (segs_in_2 m l) as Hl' by (intros s' Hs'; apply Hl; by right). cbn [pairs_by_face_2].
  assert (∀ f pr, (∃ s', s' ∈ s :: l ∧ gives s' f pr) ↔ (∃ s', s' ∈ l ∧ gives s' f pr) ∨ gives s f pr) as Hg.
  { intros f pr. split.
    - intros (s'&[->|Hs]%elem_of_cons&G); [by right|left; eauto].
    - intros [(s'&Hs&G)|G]; [exists s'; split; [by right|done]|exists s; split; [left|done]]. }
  setoid_rewrite Hg. clear Hg. destruct (g_inv s) eqn:Ei.
  { destruct (IH Hl' t Ht) as (t'&E&F&H). exists t'. split; [done|]. split; [done|]. intros f pr. rewrite H.
    split; [tauto|]. intros [?|[?|(a&b&(Hi&_)&_)]]; [tauto|tauto|congruence]. }
  destruct (Hl s ltac:(left) Ei) as (a&b&(_&Ea&Eb)&La&Lb&_&_). rewrite Ea, Eb. cbn [mbind option_bind].
  unfold add_end_2. rewrite (proj2 (N.eqb_neq a umax)), (proj2 (N.eqb_neq b umax)) by lia. cbn [andb].
  destruct (IH Hl' (add_end (g_face s) b (g_b s) (add_end (g_face s) a (g_a s) (add_pair (g_face s) (a, b) t)))) as (t'&E&F&H).
  { by do 2 apply filled_add_end; apply filled_add. }
  exists t'. split; [done|]. split; [done|]. intros f pr. rewrite H, !in_add_end, in_add.
  assert (gives s f pr ↔ (g_face s = f ∧ pr = (a, b) ∨ g_face s ≠ f ∧ (pr = (a, umax) ∧ beside (g_a s) f ∨ pr = (b, umax) ∧ beside (g_b s) f))) as ->.
  { split; [|intros HQ; by exists a, b]. intros (a'&b'&(_&Ea'&Eb')&HQ). rewrite Ea in Ea'. rewrite Eb in Eb'. injection Ea' as <-. injection Eb' as <-. done. }
  clear. split.
  - intros [[[[?|[-> ->]]|(?&?&->)]|(?&?&->)]|?]; [by left|right; right; by left|right; right; right; split; [congruence|tauto]|right; right; right; split; [congruence|tauto]|tauto].
  - intros [?|[?|[[<- ->]|(?&[[-> ?]|[-> ?]])]]]; [tauto|tauto|left; left; left; by right|left; left; right|left; right]; (split; [done|]; split; [congruence|done]).
Qed.
Lemma gives_holds l f v : segs_in_2 m l → holds l f v ↔ v ≠ umax ∧ ∃ s pr, s ∈ l ∧ gives s f pr ∧ (v = pr.1 ∨ v = pr.2).
Proof using HU.
  intros Hl. split.
  - intros (s&a&b&Hs&Hu&Hv). destruct (Hl s Hs (proj1 Hu)) as (a'&b'&(_&Ea'&Eb')&La&Lb&_). destruct Hu as (Hi&Ea&Eb). rewrite Ea in Ea'. rewrite Eb in Eb'. injection Ea' as <-. injection Eb' as <-.
    split; [destruct Hv as [[-> _]|[-> _]]; lia|]. exists s. destruct (decide (g_face s = f)) as [Ef|Nf].
    + exists (a, b). split; [done|]. split; [exists a, b; split; [done|by left]|]. destruct Hv as [[-> _]|[-> _]]; cbn; tauto.
    + destruct Hv as [[-> [?|Hb]]|[-> [?|Hb]]]; [done| |done|]; [exists (a, umax)|exists (b, umax)]; (split; [done|]; split; [|by left]); exists a, b; (split; [done|right; split; [done|]]); tauto.
  - intros (Hv&s&pr&Hs&(a&b&Hu&HQ)&Hp). exists s, a, b. split; [done|]. split; [done|].
    destruct HQ as [[Ef ->]|[Nf [[-> Hb]|[-> Hb]]]]; cbn in Hp; destruct Hp as [->| ->]; tauto.
Qed.
End pairs.

(** ** The vertices of a job *)
Section verts.
Context (m : mesh p2) (HW : WellFormed m) (HU : nverts m ≤ umax) (f : N) (ia ib ic : N) (Ho : oriented_face m f ia ib ic).
Local Notation bv := [ia; ib; ic].

Lemma corner_bv_2 v : corner m f v ↔ v ∈ bv.
Proof.
  rewrite !elem_of_cons, elem_of_nil. split.
  - intros (a&b&[H1|[H1|H1]]); destruct (MeshOps.oriented_fun m f _ _ _ _ _ _ (wf_si m (proj2 (WF_iff m) HW)) Ho H1) as (->&->&->); tauto.
  - intros [->|[->|[->|[]]]]; unfold corner, cycle_face; eauto 6.
Qed.
Definition loc_ok_2 (st : local) : Prop := NoDup (l_verts st) ∧ Forall2 (λ v x, position m v x) (l_verts st) (l_uv st).
Lemma loc_len_2 st : loc_ok_2 st → length (l_uv st) = length (l_verts st).
Proof. intros [_ F]. symmetry. by eapply Forall2_length. Qed.
Lemma push_2_ok st v : loc_ok_2 st → v < nverts m → ∃ st', push_vertex_2 m st v = Some st' ∧ loc_ok_2 st' ∧
  l_verts st `prefix_of` l_verts st' ∧ (∀ w, w ∈ l_verts st' ↔ w ∈ l_verts st ∨ w = v) ∧ (v ∉ l_verts st → l_verts st' = l_verts st ++ [v]).
Proof.
  intros [Hn HF] Hv. unfold push_vertex_2. destruct (index_of v (l_verts st)) as [i|] eqn:E.
  - apply index_of_some, elem_of_list_lookup_2 in E. exists st. split; [done|]. split; [done|]. split; [done|]. split; [|done]. intros w. split; [by left|]. intros [?| ->]; done.
  - apply index_of_none in E. apply (wfs_verts m HW) in Hv as [y Hy]. assert (position m v (vpos y)) as Py by (by exists y). apply pos_ok in Py as Ey. rewrite Ey. cbn [mbind option_bind].
    eexists. split; [reflexivity|]. unfold loc_ok_2. cbn [l_verts l_uv]. split; [split|split; [|split]].
    + apply NoDup_app. split; [done|]. split; [|by apply NoDup_singleton]. intros w Hw ->%elem_of_list_singleton. done.
    + apply Forall2_app; [done|]. by constructor.
    + by apply prefix_app_r.
    + intros w. by rewrite elem_of_app, elem_of_list_singleton.
    + done.
Qed.
Definition fit_2 v : Prop := v < nverts m ∨ v = umax.
Lemma add_2_ok st v : fit_2 v → loc_ok_2 st → bv `prefix_of` l_verts st → ∃ st', add_vertex_2 m bv st v = Some st' ∧ loc_ok_2 st' ∧
  l_verts st `prefix_of` l_verts st' ∧ ∀ w, w ∈ l_verts st' ↔ w ∈ l_verts st ∨ v ≠ umax ∧ w = v.
Proof.
  intros Fv Hst Hbv. unfold add_vertex_2. destruct (N.eqb_spec v umax) as [->|Hv]; cbn [negb andb].
  { exists st. split; [done|]. split; [done|]. split; [done|]. intros w. tauto. }
  destruct Fv as [Fv|]; [|done]. case_bool_decide as Hb; cbn [negb].
  - exists st. split; [done|]. split; [done|]. split; [done|]. intros w. split; [by left|]. intros [?|[_ ->]]; [done|]. by eapply elem_of_prefix.
  - destruct (push_2_ok st v Hst Fv) as (st'&E&H1&H2&H3&_). exists st'. split; [done|]. split; [done|]. split; [done|]. intros w. rewrite H3. tauto.
Qed.
Definition real (pr : N * N) : Prop := pr.1 ≠ umax ∧ pr.2 ≠ umax ∧ pr.1 ≠ pr.2.
Lemma resolve_2_ok prs : ∀ st, Forall (λ pr, fit_2 pr.1 ∧ fit_2 pr.2) prs → loc_ok_2 st → bv `prefix_of` l_verts st →
  ∃ st' prs', resolve_2 m bv st prs = Some (st', prs') ∧ loc_ok_2 st' ∧ l_verts st `prefix_of` l_verts st' ∧
    (∀ x, x ∈ l_verts st' ↔ x ∈ l_verts st ∨ x ≠ umax ∧ ∃ pr, pr ∈ prs ∧ (x = pr.1 ∨ x = pr.2)) ∧
    ∀ pr, pr ∈ prs' ↔ pr ∈ prs ∧ real pr.
Proof.
  induction prs as [|[v w] prs IH]; intros st HF Hst Hbv.
  { exists st, []. split; [done|]. split; [done|]. split; [done|]. split; [|intros pr; rewrite elem_of_nil; tauto].
    intros x. split; [by left|]. intros [?|(_&pr&[]%elem_of_nil&_)]. done. }
  apply Forall_cons in HF as [[Fv Fw] HF]. cbn [fst snd] in Fv, Fw. cbn [resolve_2].
  destruct (add_2_ok st v Fv Hst Hbv) as (st1&E1&H1&P1&I1). rewrite E1. cbn [mbind option_bind].
  destruct (add_2_ok st1 w Fw H1) as (st2&E2&H2&P2&I2); [by etrans|]. rewrite E2. cbn [mbind option_bind].
  destruct (IH st2 HF H2) as (st3&prs'&E3&H3&P3&I3&R3); [by etrans; [|etrans]|]. rewrite E3. cbn [mbind option_bind fst snd].
  eexists st3, _. split; [done|]. split; [done|]. split; [by etrans; [|etrans]|]. split.
  - intros x. rewrite I3, I2, I1. split.
    + intros [[[?|[? ->]]|[? ->]]|(?&pr&Hp&Hx)]; [by left|right; split; [done|]..].
      * exists (v, w). split; [left|by left].
      * exists (v, w). split; [left|by right].
      * exists pr. split; [by right|done].
    + intros [?|(Hx&pr&[->|Hp]%elem_of_cons&Hpr)]; [tauto| |right; eauto]. cbn [fst snd] in Hpr. destruct Hpr as [->| ->]; tauto.
  - intros pr. assert (real (v, w) ↔ negb (v =? umax) && negb (w =? umax) && negb (v =? w) = true) as Hr.
    { unfold real. cbn [fst snd]. rewrite !andb_true_iff, !negb_true_iff, !N.eqb_neq. tauto. }
    destruct (negb (v =? umax) && negb (w =? umax) && negb (v =? w)); rewrite ?elem_of_cons, R3.
    + split; [intros [->|[? ?]]; [split; [by left|by apply Hr]|tauto]|tauto].
    + split; [tauto|]. intros [[->|?] Hx]; [apply Hr in Hx; done|tauto].
Qed.
End verts.

(** ** The job of a face *)
Lemma outer_lt_2 i k : outer i k → (i < 3 ∧ k < 3 ∧ i ≠ k)%nat.
Proof. unfold outer. rewrite !elem_of_cons, elem_of_nil. intros [[= -> ->]|[[= -> ->]|[[= -> ->]|[]]]]; lia. Qed.
Section job.
Context (m : mesh p2) (HW : WellFormed m) (HU : nverts m ≤ umax) (f : N) (ia ib ic : N) (Ho : oriented_face m f ia ib ic).
Local Notation bv := [ia; ib; ic].
(** everything the job is made of *)
Record parts (prs : list (N * N)) (st : local) (prs' : list (N * N)) (s0 s1 s2 : list (nat * nat)) (c0 c1 c2 : list nat) (ss : list (list (nat * nat))) : Prop := {
  p_loc : loc_ok_2 m st;
  p_bv : bv `prefix_of` l_verts st;
  p_in : ∀ x, x ∈ l_verts st ↔ x ∈ bv ∨ x ≠ umax ∧ ∃ pr, pr ∈ prs ∧ (x = pr.1 ∨ x = pr.2);
  p_prs : ∀ pr, pr ∈ prs' ↔ pr ∈ prs ∧ real pr;
  p_s0 : add_split_or_chain (l_uv st) 0 1 = Some s0;
  p_s1 : add_split_or_chain (l_uv st) 1 2 = Some s1;
  p_s2 : add_split_or_chain (l_uv st) 2 0 = Some s2;
  p_c0 : chain_on_edge (l_uv st) 0 1 = Some c0;
  p_c1 : chain_on_edge (l_uv st) 1 2 = Some c1;
  p_c2 : chain_on_edge (l_uv st) 2 0 = Some c2;
  p_ss : mapM (chain_of st) prs' = Some ss;
}.
Lemma chain_of_some st pr : loc_ok_2 m st → ∃ S, chain_of st pr = Some S ∧
  ∀ i k, (i, k) ∈ S → i ≠ k ∧ (i < length (l_uv st))%nat ∧ (k < length (l_uv st))%nat.
Proof.
  intros Hst. unfold chain_of. destruct (_ || _); [eexists; split; [done|]; by intros i k ?%elem_of_nil|].
  destruct (index_of pr.1 (l_verts st)) as [la|] eqn:Ea; [|eexists; split; [done|]; by intros i k ?%elem_of_nil].
  destruct (index_of pr.2 (l_verts st)) as [lb|] eqn:Eb; [|eexists; split; [done|]; by intros i k ?%elem_of_nil].
  apply index_of_some, lookup_lt_Some in Ea, Eb. rewrite <- (loc_len_2 m) in Ea, Eb by done. by apply add_split_or_chain_ok.
Qed.
Lemma face_job_2_ok prs : Forall (λ pr, fit_2 m pr.1 ∧ fit_2 m pr.2) prs → ∃ st prs' s0 s1 s2 c0 c1 c2 ss, parts prs st prs' s0 s1 s2 c0 c1 c2 ss ∧
  face_job_2 m f prs = Some (mkJob f (l_verts st) (l_uv st)
    (filter (λ s, Is_true (BoolPslgModel.keep (l_uv st) (forced_of c0 c1 c2) s)) (dedupe ∅ (s0 ++ s1 ++ s2 ++ concat ss)))).
Proof.
  intros HF. apply WF_iff in HW as W. destruct (oriented_distinct m f ia ib ic (wf_si m W) Ho) as (D1&D2&D3&La&Lb&Lc).
  unfold face_job_2. rewrite (face_vertices_ok m f ia ib ic W Ho). cbn [mbind option_bind].
  destruct (push_2_ok m HW (mkLoc [] []) ia) as (st1&P1&O1&_&_&I1); [split; constructor|done|]. rewrite P1. cbn [mbind option_bind].
  destruct (push_2_ok m HW st1 ib O1) as (st2&P2&O2&_&_&I2); [done|]. rewrite P2. cbn [mbind option_bind].
  destruct (push_2_ok m HW st2 ic O2) as (st3&P3&O3&_&_&I3); [done|]. rewrite P3. cbn [mbind option_bind].
  cbn [l_verts app] in I1. rewrite I1 in I2 by apply not_elem_of_nil. rewrite I2 in I3 by (rewrite elem_of_list_singleton; congruence). cbn [app] in I3.
  assert (l_verts st3 = bv) as Hbv by (apply I3; rewrite !elem_of_cons, elem_of_nil; intros [?|[?|[]]]; congruence). clear I1 I2 I3 P1 P2 P3 O1 O2.
  destruct (resolve_2_ok m HW ia ib ic prs st3 HF O3) as (st&prs'&E3&Ost&Xst&Ist&Rst); [by rewrite Hbv|]. rewrite E3. cbn [mbind option_bind fst snd].
  rewrite Hbv in Xst, Ist. assert (3 ≤ length (l_uv st))%nat as Hlen.
  { rewrite (loc_len_2 m) by done. destruct Xst as [rest ->]. cbn. lia. }
  destruct (add_split_or_chain_ok (l_uv st) 0 1) as (s0&S0&_); [lia..|]. destruct (add_split_or_chain_ok (l_uv st) 1 2) as (s1&S1&_); [lia..|]. destruct (add_split_or_chain_ok (l_uv st) 2 0) as (s2&S2&_); [lia..|].
  destruct (chain_on_edge_some (l_uv st) 0 1) as (c0&C0); [lia..|]. destruct (chain_on_edge_some (l_uv st) 1 2) as (c1&C1); [lia..|]. destruct (chain_on_edge_some (l_uv st) 2 0) as (c2&C2); [lia..|].
  rewrite S0. cbn [mbind option_bind]. rewrite S1. cbn [mbind option_bind]. rewrite S2. cbn [mbind option_bind].
  rewrite C0. cbn [mbind option_bind]. rewrite C1. cbn [mbind option_bind]. rewrite C2. cbn [mbind option_bind].
  assert (is_Some (mapM (chain_of st) prs')) as [ss Ess].
  { apply mapM_is_Some_2, Forall_forall. intros pr _. unfold compose. destruct (chain_of_some st pr Ost) as (S&ES&_). eauto. }
  rewrite Ess. cbn [mbind option_bind]. exists st, prs', s0, s1, s2, c0, c1, c2, ss. split; [|done]. by constructor.
Qed.
Lemma segs_from prs st prs' s0 s1 s2 c0 c1 c2 ss e : parts prs st prs' s0 s1 s2 c0 c1 c2 ss → e ∈ s0 ++ s1 ++ s2 ++ concat ss →
  (∃ i k S, outer i k ∧ add_split_or_chain (l_uv st) i k = Some S ∧ e ∈ S) ∨ ∃ pr S, pr ∈ prs' ∧ chain_of st pr = Some S ∧ e ∈ S.
Proof.
  intros J. rewrite !elem_of_app. intros [Hx|[Hx|[Hx|Hx]]].
  - left. exists 0%nat, 1%nat, s0. split; [left|]. split; [apply J|done].
  - left. exists 1%nat, 2%nat, s1. split; [right; left|]. split; [apply J|done].
  - left. exists 2%nat, 0%nat, s2. split; [right; right; left|]. split; [apply J|done].
  - right. apply elem_of_list_In, in_concat in Hx as (S&HS&Hx). apply elem_of_list_In in HS, Hx.
    pose proof (p_ss _ _ _ _ _ _ _ _ _ _ J) as E. apply mapM_Some_1 in E. apply elem_of_list_lookup in HS as [n Hn].
    destruct (Forall2_lookup_r _ _ _ _ _ E Hn) as (pr&Hpr&Epr). exists pr, S. split; [by eapply elem_of_list_lookup_2|done].
Qed.
Lemma segs_range prs st prs' s0 s1 s2 c0 c1 c2 ss i k : parts prs st prs' s0 s1 s2 c0 c1 c2 ss → (i, k) ∈ s0 ++ s1 ++ s2 ++ concat ss →
  i ≠ k ∧ (i < length (l_verts st))%nat ∧ (k < length (l_verts st))%nat.
Proof.
  intros J Hin. pose proof (p_loc _ _ _ _ _ _ _ _ _ _ J) as Hst. rewrite <- (loc_len_2 m) by done. assert (3 ≤ length (l_uv st))%nat as Hlen.
  { rewrite (loc_len_2 m) by done. destruct (p_bv _ _ _ _ _ _ _ _ _ _ J) as [rest ->]. cbn. lia. }
  destruct (segs_from _ _ _ _ _ _ _ _ _ _ _ J Hin) as [(a&b&S&Hout&E&HS)|(pr&S&_&E&HS)].
  - destruct (outer_lt_2 a b Hout) as (La&Lb&_). destruct (add_split_or_chain_ok (l_uv st) a b) as (S'&E'&H); [lia..|]. rewrite E in E'. injection E' as <-. by apply H.
  - destruct (chain_of_some st pr Hst) as (S'&E'&H). rewrite E in E'. injection E' as <-. by apply H.
Qed.
End job.

(** ** All jobs *)
Section jobs.
Context (order : ∀ A : Type, list A → list A) (Hord : ∀ A l, order A l ≡ₚ l).
Context (m : mesh p2) (HW : WellFormed m) (HU : nverts m ≤ umax).
Definition made_2 (l : list (gseg p2)) (j : fjob) : Prop := ∃ prs ia ib ic st prs' s0 s1 s2 c0 c1 c2 ss,
  oriented_face m (j_face j) ia ib ic ∧
  (∀ pr, pr ∈ prs ↔ ∃ s, s ∈ l ∧ gives s (j_face j) pr) ∧
  parts m ia ib ic prs st prs' s0 s1 s2 c0 c1 c2 ss ∧
  j_verts j = l_verts st ∧ j_uv j = l_uv st ∧
  j_segs j = filter (λ s, Is_true (BoolPslgModel.keep (l_uv st) (forced_of c0 c1 c2) s)) (dedupe ∅ (s0 ++ s1 ++ s2 ++ concat ss)).
Lemma gives_fit l s f pr : segs_in_2 m l → s ∈ l → gives s f pr → f < nfaces m ∧ pr.1 < nverts m ∧ fit_2 m pr.1 ∧ fit_2 m pr.2.
Proof.
  intros Hl Hs (a&b&Hu&HQ). destruct (Hl s Hs (proj1 Hu)) as (a'&b'&(_&Ea'&Eb')&La&Lb&Lf&HB). destruct Hu as (Hi&Ea&Eb). rewrite Ea in Ea'. rewrite Eb in Eb'. injection Ea' as <-. injection Eb' as <-.
  unfold fit_2. destruct HQ as [[<- ->]|[Nf [[-> Hb]|[-> Hb]]]]; cbn; (split; [by auto|tauto]).
Qed.
Lemma jobs_made_2 l : segs_in_2 m l → ∃ js, build_face_pslgs_2 order m l = Some js ∧
  NoDup (j_face <$> js) ∧ (∀ f, f ∈ j_face <$> js ↔ live_face m f ∧ reached l f) ∧ ∀ j, j ∈ js → made_2 l j.
Proof using Hord HW HU.
  intros Hl. destruct (pairs_2_ok m HU l Hl ∅) as (t&Et&Hfill&Hin); [intros f; by rewrite lookup_empty|].
  unfold build_face_pslgs_2. rewrite Et. cbn [mbind option_bind].
  assert (∀ f pr, pr ∈ of_face t f ↔ ∃ s, s ∈ l ∧ gives s f pr) as Hg.
  { intros f pr. rewrite Hin. unfold of_face at 1. rewrite lookup_empty. cbn. rewrite elem_of_nil. tauto. }
  assert (∀ f, is_Some (t !! f) ↔ reached l f) as Htf.
  { intros f. rewrite filled_some by done. setoid_rewrite Hg. unfold reached. setoid_rewrite (gives_holds m HU l f _ Hl). split.
    - intros (pr&s&Hs&Hp). destruct (gives_fit l s f pr Hl Hs Hp) as (_&Hlt&_). exists pr.1. split; [lia|]. exists s, pr. auto.
    - intros (v&_&s&pr&Hs&Hp&_). eauto. }
  set (L := order _ (map_to_list t)). assert (∀ f prs, (f, prs) ∈ L ↔ t !! f = Some prs) as HL.
  { intros f prs. unfold L. rewrite Hord. apply elem_of_map_to_list. }
  assert (NoDup L.*1) as HnL.
  { unfold L. rewrite Hord. apply NoDup_fst_map_to_list. }
  clearbody L.
  assert (∀ f prs, t !! f = Some prs → ∃ jl, job_of_2 m (f, prs) = Some jl ∧ (jl = [] ∧ ¬ live_face m f ∨ ∃ j, jl = [j] ∧ j_face j = f ∧ live_face m f ∧ made_2 l j)) as Hjob.
  { intros f prs Ef. assert (∀ pr, pr ∈ prs ↔ ∃ s, s ∈ l ∧ gives s f pr) as Hprs.
    { intros pr. rewrite <- Hg. unfold of_face. by rewrite Ef. }
    assert (f < nfaces m) as Lf.
    { destruct (proj1 (filled_some t f Hfill)) as (pr&Hp); [eauto|]. apply Hg in Hp as (s&Hs&Hp). by eapply gives_fit. }
    unfold job_of_2. cbn [fst snd]. assert (is_Some (faces m !! f)) as [x Ex] by (by apply (wfs_faces m HW)).
    unfold getF. rewrite Ex. cbn [mbind option_bind]. destruct (frem x) eqn:Er.
    { eexists. split; [done|]. left. split; [done|]. intros (y&Ey&Hy). congruence. }
    assert (live_face m f) as Hlive by (exists x; done). destruct (wfs_face m HW f Hlive) as (ia&ib&ic&Ho).
    destruct (face_job_2_ok m HW HU f ia ib ic Ho prs) as (st&prs'&s0&s1&s2&c0&c1&c2&ss&J&E).
    { apply Forall_forall. intros pr (s&Hs&Hp)%Hprs. by destruct (gives_fit l s f pr Hl Hs Hp) as (_&_&?&?). }
    rewrite E. cbn [mbind option_bind]. eexists. split; [done|]. right. eexists. split; [done|]. split; [done|]. split; [done|].
    exists prs, ia, ib, ic, st, prs', s0, s1, s2, c0, c1, c2, ss. cbn [j_face j_verts j_uv j_segs]. done. }
  assert (∀ f, f ∈ L.*1 ↔ reached l f) as HLf.
  { intros f. rewrite <- Htf, elem_of_list_fmap. split.
    - intros ([f' prs]&->&Hp%HL). eauto.
    - intros (prs&Hp%HL). by exists (f, prs). }
  assert (∀ f prs, (f, prs) ∈ L → t !! f = Some prs) as HL' by apply HL. clear HL Hin Hg Et.
  assert (∃ jss, mapM (job_of_2 m) L = Some jss ∧ NoDup (j_face <$> concat jss) ∧ (∀ f, f ∈ j_face <$> concat jss ↔ live_face m f ∧ f ∈ L.*1) ∧ ∀ j, j ∈ concat jss → made_2 l j) as (jss&E&H1&H2&H3).
  { clear HLf. induction L as [|[f prs] L IH].
    { exists []. split; [done|]. split; [constructor|]. split; [|by intros j ?%elem_of_nil]. intros f. cbn. rewrite elem_of_nil. tauto. }
    apply NoDup_cons in HnL as [Hnf HnL]. destruct IH as (jss&E&H1&H2&H3); [done|intros f' prs' Hin'; apply HL'; by right|].
    destruct (Hjob f prs) as (jl&Ej&Hjl); [apply HL'; left|]. cbn [mapM]. unfold mapM in E. rewrite Ej. cbn [mbind option_bind]. fold (mapM (M := option) (job_of_2 m)) in E. rewrite E. cbn [mbind option_bind].
    eexists. split; [done|]. cbn [concat]. destruct Hjl as [[-> Hnl]|(j&->&Hjf&Hlive&Hm)].
    - cbn [app]. split; [done|]. split; [|done]. intros f'. rewrite H2, fmap_cons, elem_of_cons. cbn. naive_solver.
    - cbn [app]. rewrite fmap_cons, NoDup_cons, Hjf. split; [split; [|done]; rewrite H2; intros [_ ?]; done|]. split.
      + intros f'. rewrite elem_of_cons, H2, fmap_cons, elem_of_cons. cbn. naive_solver.
      + intros j' [->|?]%elem_of_cons; [done|by apply H3]. }
  rewrite E. cbn [mbind option_bind]. eexists. split; [done|]. split; [done|]. split; [|done]. intros f. by rewrite H2, HLf.
Qed.
Lemma made_shape_2 l j : segs_in_2 m l → live_face m (j_face j) → reached l (j_face j) → made_2 l j → job_shape_2 m l j.
Proof using HW HU.
  intros Hl Hlive Htch (prs&ia&ib&ic&st&prs'&s0&s1&s2&c0&c1&c2&ss&Ho&Hprs&J&Ev&Eu&Es).
  destruct (p_loc _ _ _ _ _ _ _ _ _ _ _ _ _ _ J) as [Hnd HF].
  constructor.
  - done.
  - destruct (p_bv _ _ _ _ _ _ _ _ _ _ _ _ _ _ J) as [rest Er]. exists ia, ib, ic, rest. by rewrite Ev.
  - by rewrite Ev.
  - intros v. rewrite Ev, (p_in _ _ _ _ _ _ _ _ _ _ _ _ _ _ J), <- (corner_bv_2 m HW (j_face j) ia ib ic Ho), (gives_holds m HU l _ _ Hl).
    setoid_rewrite Hprs. clear. naive_solver.
  - rewrite Eu, Ev. by apply (loc_len_2 m), J.
  - intros i v x Hi Hx. rewrite Ev in Hi. rewrite Eu in Hx. by apply (Forall2_lookup_lr _ _ _ _ _ _ HF Hi Hx).
  - intros i k. rewrite Es, Ev, elem_of_list_filter. intros [_ Hin%dedupe_in]. by eapply segs_range.
  - rewrite Es. intros n n' i k. apply once.
Qed.
End jobs.
