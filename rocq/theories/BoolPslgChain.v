(** Proofs about the segments of the triangulation jobs, for vertices that lie on the faces
    they are given to. *)
From Coq Require Import QArith Qabs Rdefinitions Lqa Lia Sorting.Sorted.
From Verif Require Import MeshInv MeshWF MeshOps MeshQuery MeshQuery2 MeshCompact RayProofs PslgBary PslgFloat BoolPslg.
From Verif Require Import BoolPslgSpec.
From Verif Require GeomSpec TriSpec.
Local Open Scope N_scope.
Local Opaque on_edge_with_t param_t_uv on_segment_uv_fast same_uv feps fcross.

(** ** One chain *)
Lemma emit_strung S la ms lb : NoDup (la :: ms ++ [lb]) → (∀ i k, (i, k) ∈ emit la ms lb → pair_in S i k) → strung S (la :: ms ++ [lb]).
Proof.
  revert la. induction ms as [|n ms IH]; intros la Hnd HS; cbn [app strung].
  - split; [|done]. apply HS. cbn. apply NoDup_cons in Hnd as [Hn _]. destruct (Nat.eqb_spec la lb) as [->|_]; [|left]. destruct Hn. left.
  - apply NoDup_cons in Hnd as [Hn Hnd]. cbn [emit] in HS. split.
    + apply HS. apply elem_of_app. left. destruct (Nat.eqb_spec la n) as [->|_]; [|left]. destruct Hn. left.
    + apply IH; [done|]. intros i k Hik. apply HS. apply elem_of_app. by right.
Qed.
Lemma at_uv_some pts n z : pts !! n = Some z → at_uv pts n = z.
Proof. unfold at_uv. by intros ->. Qed.
Lemma on_uv_ends d x y : (0 <= d)%Q → on_uv d x y x ∧ on_uv d x y y.
Proof.
  intros Hd. assert (∀ p q, between d p q p ∧ between d p q q) as B by (intros p q; unfold between; destruct (Qlt_le_dec p q); split; lra).
  assert (Qabs (turn x y x) <= d)%Q by (setoid_replace (turn x y x) with 0%Q by (unfold turn; ring); done).
  assert (Qabs (turn x y y) <= d)%Q by (setoid_replace (turn x y y) with 0%Q by (unfold turn; ring); done).
  split; (split; [done|split; apply B]).
Qed.
Section chain.
Context (j : fjob) (Hsq : ∀ n z, j_uv j !! n = Some z → sq z).
Lemma chain_ok i k x y E : i ≠ k → j_uv j !! i = Some x → j_uv j !! k = Some y → same_uv x y = false →
  add_split_or_chain (j_uv j) i k = Some E → (∀ a b, (a, b) ∈ E → pair_in (j_segs j) a b) → chain j i k.
Proof.
  intros Hn Hx Hy Hs. unfold add_split_or_chain. rewrite (proj2 (Nat.eqb_neq i k)), Hx, Hy by done. cbn [mbind option_bind]. rewrite Hs. intros [= <-] HE.
  set (key := λ n, param_t_uv x y (at_uv (j_uv j) n)) in *. set (ms := by_key key (mids (j_uv j) i k x y)) in *.
  assert (∀ n, n ∈ ms ↔ n ∈ mids (j_uv j) i k x y) as Hms by (intros n; unfold ms; by rewrite by_key_perm).
  exists x, y, ms. split; [done|]. split; [done|].
  assert (NoDup (i :: ms ++ [k])) as Hnd.
  { apply NoDup_cons. split.
    - rewrite elem_of_app, elem_of_list_singleton, Hms, mids_in. intros [(?&_)|?]; done.
    - apply NoDup_app. split; [unfold ms; rewrite by_key_perm; apply NoDup_filter, NoDup_seq|]. split; [|apply NoDup_singleton].
      intros n Hin ->%elem_of_list_singleton. apply Hms, mids_in in Hin as (_&?&_). done. }
  split; [by apply emit_strung|]. split; [done|]. split; [|split].
  - intros n z Hz Hi Hk Hon. apply Hms, mids_in. split; [done|]. split; [done|]. split; [|by eapply lookup_lt_Some].
    rewrite (at_uv_some _ _ z) by done. apply on_segment_complete; eauto.
  - intros n (_&_&Hon&Hlt)%Hms%mids_in. destruct (lookup_lt_is_Some_2 _ _ Hlt) as [z Hz]. exists z. split; [done|].
    rewrite (at_uv_some _ _ z) in Hon by done. apply on_segment_sound; eauto.
  - assert (StronglySorted (λ n n', (Binary.B2R 53 1024 (key n) <= Binary.B2R 53 1024 (key n'))%R) ms) as HS.
    { apply by_key_sorted. intros n (_&_&_&Hlt)%mids_in. destruct (lookup_lt_is_Some_2 _ _ Hlt) as [z Hz]. unfold key. rewrite (at_uv_some _ _ z) by done.
      apply (param_near x y z); eauto. }
    clear -HS Hsq Hx Hy. induction HS as [|n ms HS IH HF]; constructor; [done|]. rewrite Forall_forall in *. intros n' Hn' z z' Hz Hz'. apply HF in Hn'.
    unfold key in Hn'. rewrite (at_uv_some _ _ z), (at_uv_some _ _ z') in Hn' by done. apply along_ordered; eauto.
Qed.
(** what its segments are close to *)
Lemma chain_near i k x y E a b : j_uv j !! i = Some x → j_uv j !! k = Some y → add_split_or_chain (j_uv j) i k = Some E → (a, b) ∈ E → i ≠ k ∧ near_line j i k (a, b).
Proof.
  intros Hx Hy. unfold add_split_or_chain. destruct (Nat.eqb_spec i k) as [->|Hn]; [intros [= <-] []%elem_of_nil|]. rewrite Hx, Hy. cbn [mbind option_bind].
  destruct (same_uv x y); [intros [= <-] []%elem_of_nil|]. intros [= <-] (_&Ha&Hb)%emit_in. split; [done|].
  assert (∀ n, n = i ∨ n = k ∨ n ∈ mids (j_uv j) i k x y → ∃ z, j_uv j !! n = Some z ∧ on_uv loose x y z) as Hall.
  { intros n [->|[->|(_&_&Hon&Hlt)%mids_in]].
    - exists x. split; [done|]. by apply on_uv_ends.
    - exists y. split; [done|]. by apply on_uv_ends.
    - destruct (lookup_lt_is_Some_2 _ _ Hlt) as [z Hz]. exists z. split; [done|]. rewrite (at_uv_some _ _ z) in Hon by done. apply on_segment_sound; eauto. }
  destruct (Hall a) as (z&Hz&Oz). { apply elem_of_cons in Ha as [->|Ha]; [by left|]. rewrite by_key_perm in Ha. tauto. }
  destruct (Hall b) as (z'&Hz'&Oz'). { apply elem_of_app in Hb as [Hb| ->%elem_of_list_singleton]; [|by right; left]. rewrite by_key_perm in Hb. tauto. }
  exists x, y, z, z'. done.
Qed.
End chain.

(** ** The points of a face *)
Section face.
Context (m : mesh p3) (HW : WellFormed m) (p q r : p3) (T : TriSpec.thick p q r).
Lemma bary_weights v x y a b c : position m v y → bary m v (p, q, r) = Some x → (a + b + c == 1)%Q → GeomSpec.eq3 y (GeomSpec.comb3 a b c p q r) → (x.1 == a)%Q ∧ (x.2 == b)%Q.
Proof.
  intros Hv. apply pos_ok in Hv. unfold bary. rewrite Hv. cbn [mbind option_bind fst snd]. change BoolAllocModel.coords with c3.
  destruct (bary3_ok p q r y T) as (u&v'&w&E&_&_&_&U). rewrite E. cbn. intros [= <-] Hs He. cbn. by apply (U a b c).
Qed.
Lemma bary_unit v x y : position m v y → bary m v (p, q, r) = Some x → TriSpec.in_tri p q r y → in_unit x.
Proof.
  intros Hv Hx (a&b&c&Ha&Hb&Hc&Hs&He). destruct (bary_weights v x y a b c Hv Hx Hs He) as [E1 E2]. unfold in_unit. rewrite E1, E2. repeat split; lra.
Qed.
Lemma bary_corner v x y n : position m v y → bary m v (p, q, r) = Some x → [p; q; r] !! n = Some y →
  (x.1 == if Nat.eqb n 0 then 1 else 0)%Q ∧ (x.2 == if Nat.eqb n 1 then 1 else 0)%Q.
Proof.
  intros Hv Hx. destruct p as [[p1 p2] p3] eqn:Ep, q as [[q1 q2] q3] eqn:Eq, r as [[r1 r2] r3] eqn:Er. rewrite <- Ep, <- Eq, <- Er in *.
  destruct n as [|[|[|n]]]; cbn [lookup list_lookup Nat.eqb]; intros [= <-];
    [apply (bary_weights v x _ 1 0 0 Hv Hx)|apply (bary_weights v x _ 0 1 0 Hv Hx)|apply (bary_weights v x _ 0 0 1 Hv Hx)]; try lra;
    rewrite Ep, Eq, Er; cbn; repeat split; ring.
Qed.
End face.

(** ** The sides of the face *)
(** the corners in the plane of the face *)
Definition corner_uv (n : nat) : uv := ((if Nat.eqb n 0 then 1 else 0)%Q, (if Nat.eqb n 1 then 1 else 0)%Q).
Section sides.
Context (pts : list uv) (Hu : ∀ n z, pts !! n = Some z → in_unit z).
Context (Hc : ∀ n, (n < 3)%nat → ∃ z, pts !! n = Some z ∧ (z.1 == (corner_uv n).1)%Q ∧ (z.2 == (corner_uv n).2)%Q).
Lemma side_facts i k x y z : outer i k → pts !! i = Some x → pts !! k = Some y → in_unit z →
  (1 <= along x y y)%Q ∧ (0 <= along x y z <= along x y y)%Q ∧ ((1 # 2 <= Qabs (x.1 - y.1))%Q ∨ (1 # 2 <= Qabs (x.2 - y.2))%Q) ∧
  ((Qabs (turn x y z) <= loose)%Q → on_uv loose x y z).
Proof.
  intros Ho Hx Hy (Z1&Z2&Z3). unfold outer in Ho. assert (i < 3 ∧ k < 3)%nat as [Li Lk].
  { rewrite !elem_of_cons, elem_of_nil in Ho. destruct Ho as [[= -> ->]|[[= -> ->]|[[= -> ->]|[]]]]; lia. }
  destruct (Hc i Li) as (x'&Ex&X1&X2). rewrite Hx in Ex. injection Ex as <-. destruct (Hc k Lk) as (y'&Ey&Y1&Y2). rewrite Hy in Ey. injection Ey as <-.
  assert (∀ t : Q, (t == 1 ∨ t == -1)%Q → (1 # 2 <= Qabs t)%Q) as HA by (intros t [->| ->]; by apply Qle_bool_iff).
  unfold on_uv, between, along, turn. unfold loose. rewrite !X1, !X2, !Y1, !Y2. clear X1 X2 Y1 Y2 Hx Hy.
  rewrite !elem_of_cons, elem_of_nil in Ho. destruct Ho as [[= -> ->]|[[= -> ->]|[[= -> ->]|[]]]]; cbn [corner_uv Nat.eqb fst snd].
  - split; [lra|]. split; [split; lra|]. split; [left; apply HA; lra|]. intros Ht. split; [done|]. split; [right|left]; lra.
  - split; [lra|]. split; [split; lra|]. split; [right; apply HA; lra|]. intros Ht. split; [done|]. apply Qabs_Qle_condition in Ht. split; [left|right]; lra.
  - split; [lra|]. split; [split; lra|]. split; [left; apply HA; lra|]. intros Ht. split; [done|]. apply Qabs_Qle_condition in Ht. split; [left|left]; lra.
Qed.
Lemma hit_on_edge i k x y n z : outer i k → pts !! i = Some x → pts !! k = Some y → pts !! n = Some z → passes x y z = true →
  (on_edge_with_t (at_uv pts i) (at_uv pts k) (at_uv pts n)).1 = true.
Proof.
  intros Ho Hx Hy Hz Hp. rewrite (at_uv_some _ _ x), (at_uv_some _ _ y), (at_uv_some _ _ z) by done.
  destruct (side_facts i k x y z Ho Hx Hy) as (H1&H2&_); [by eapply Hu|]. apply on_edge_complete; eauto using unit_sq.
Qed.
Lemma edge_hit i k x y n z : outer i k → pts !! i = Some x → pts !! k = Some y → pts !! n = Some z →
  (on_edge_with_t (at_uv pts i) (at_uv pts k) (at_uv pts n)).1 = true → on_uv loose x y z.
Proof.
  intros Ho Hx Hy Hz. rewrite (at_uv_some _ _ x), (at_uv_some _ _ y), (at_uv_some _ _ z) by done. intros He. apply on_edge_sound in He.
  apply passes_sound in He; eauto using unit_sq. destruct (side_facts i k x y z Ho Hx Hy) as (_&_&_&H3); [by eapply Hu|]. apply H3.
  apply abs_R. by rewrite turn_R, Q2R_small.
Qed.
(** the segments of a side are kept *)
Lemma side_kept i k x y S forced a b : outer i k → pts !! i = Some x → pts !! k = Some y → add_split_or_chain pts i k = Some S → (a, b) ∈ S →
  a ≠ b ∧ BoolPslgModel.keep pts forced (a, b) = true ∧ BoolPslgModel.keep pts forced (b, a) = true.
Proof.
  intros Ho Hx Hy. unfold add_split_or_chain. destruct (Nat.eqb_spec i k) as [->|Hn]; [intros [= <-] []%elem_of_nil|]. rewrite Hx, Hy. cbn [mbind option_bind].
  destruct (same_uv x y); [intros [= <-] []%elem_of_nil|]. intros [= <-] (Hab&Ha&Hb)%emit_in. split; [done|].
  assert (∀ n, n = i ∨ n = k ∨ n ∈ mids pts i k x y → (on_edge_with_t (at_uv pts i) (at_uv pts k) (at_uv pts n)).1 = true) as Hall.
  { intros n [->|[->|(_&_&Hon&Hlt)%mids_in]].
    - eapply hit_on_edge; [done..|]. apply passes_exact; [eauto using unit_sq..|]. rewrite <- turn_R. 
      rewrite <- Q2R_0. apply Qreals.Qeq_eqR. unfold turn. ring.
    - eapply hit_on_edge; [done..|]. apply passes_exact; [eauto using unit_sq..|]. rewrite <- turn_R. 
      rewrite <- Q2R_0. apply Qreals.Qeq_eqR. unfold turn. ring.
    - destruct (lookup_lt_is_Some_2 _ _ Hlt) as [z Hz]. eapply hit_on_edge; [done..|]. rewrite (at_uv_some _ _ z) in Hon by done. by apply on_segment_passes. }
  assert (on_outer pts a b (i, k) = true ∧ on_outer pts b a (i, k) = true) as [O1 O2].
  { unfold on_outer. cbn [fst snd]. rewrite !Hall; [done|..].
    - apply elem_of_app in Hb as [Hb| ->%elem_of_list_singleton]; [|by right; left]. rewrite by_key_perm in Hb. tauto.
    - apply elem_of_cons in Ha as [->|Ha]; [by left|]. rewrite by_key_perm in Ha. tauto. }
  assert (∀ c d, c ≠ d → on_outer pts c d (i, k) = true → BoolPslgModel.keep pts forced (c, d) = true) as HK.
  { intros c d Hcd HO. unfold BoolPslgModel.keep. rewrite (proj2 (Nat.eqb_neq c d)) by done. case_bool_decide; [done|]. destruct (_ || _); [|done].
    unfold seg_on_any_outer_edge. apply existsb_exists. exists (i, k). split; [by apply elem_of_list_In|done]. }
  split; apply HK; [exact Hab|exact O1|by apply not_eq_sym|exact O2].
Qed.
End sides.
Lemma windows_in l a b : (a, b) ∈ windows l → a ∈ l ∧ b ∈ l.
Proof.
  induction l as [|c [|d l] IH]; cbn [windows]; [intros []%elem_of_nil..|]. intros [[= -> ->]|Hin]%elem_of_cons.
  - split; [left|right; left].
  - destruct (IH Hin). split; by right.
Qed.
Lemma chain_on_edge_in pts i k c n : chain_on_edge pts i k = Some c → n ∈ c → (n < length pts)%nat ∧ (on_edge_with_t (at_uv pts i) (at_uv pts k) (at_uv pts n)).1 = true.
Proof.
  unfold chain_on_edge. destruct (pts !! i) as [x|] eqn:Hx; [|done]. destruct (pts !! k) as [y|] eqn:Hy; [|done]. cbn [mbind option_bind]. intros [= <-].
  rewrite (at_uv_some _ _ x), (at_uv_some _ _ y) by done. rewrite by_key_perm, elem_of_list_filter, elem_of_seq. intros [Hon ?]. split; [lia|]. by apply Is_true_true in Hon.
Qed.

(** ** Jobs *)
Section jobs.
Context (m : mesh p3) (HW : WellFormed m) (HU : nverts m ≤ umax) (l : list (gseg p3)) (Hl : segs_in m l) (Hp : placed m l).
Context (j : fjob) (prs : list (N * N)) (ia ib ic : N) (p q r : p3) (st : local) (s0 s1 s2 : list (nat * nat)) (c0 c1 c2 : list nat) (ss : list (list (nat * nat))).
Context (Ho : oriented_face m (j_face j) ia ib ic) (Pa : position m ia p) (Pb : position m ib q) (Pc : position m ic r) (T : TriSpec.thick p q r).
Context (Hprs : ∀ pr, pr ∈ prs ↔ given l (j_face j) pr) (J : job_parts m ia ib ic p q r prs st s0 s1 s2 c0 c1 c2 ss).
Context (Ev : j_verts j = l_verts st) (Eu : j_uv j = l_uv st).
Context (Es : j_segs j = filter (λ s, Is_true (BoolPslgModel.keep (l_uv st) (forced_of c0 c1 c2) s)) (dedupe ∅ (s0 ++ s1 ++ s2 ++ concat ss))).

Lemma at_face : corners_at m (j_face j) p q r.
Proof. by exists ia, ib, ic. Qed.
Lemma uv_of n z : l_uv st !! n = Some z → ∃ v, l_verts st !! n = Some v ∧ bary m v (p, q, r) = Some z.
Proof.
  intros Hz. destruct (jp_loc _ _ _ _ _ _ _ _ _ _ _ _ _ _ _ _ J) as [_ F]. destruct (Forall2_lookup_r _ _ _ _ _ F Hz) as (v&?&?). eauto.
Qed.
Lemma uv_at n v : l_verts st !! n = Some v → ∃ z, l_uv st !! n = Some z ∧ bary m v (p, q, r) = Some z.
Proof.
  intros Hv. destruct (jp_loc _ _ _ _ _ _ _ _ _ _ _ _ _ _ _ _ J) as [_ F]. destruct (Forall2_lookup_l _ _ _ _ _ F Hv) as (z&?&?). eauto.
Qed.
Lemma verts_named v : v ∈ l_verts st → v ∈ [ia; ib; ic] ∨ named l (j_face j) v.
Proof.
  rewrite (jp_in _ _ _ _ _ _ _ _ _ _ _ _ _ _ _ _ J). intros [?|([a b]&Hpr%Hprs&Hv)]; [by left|]. destruct (given_fit m HU l _ _ Hl Hpr) as [_ Hx]. cbn [fst snd] in Hx, Hv.
  assert (named l (j_face j) a) as Na by (apply named_given; exists (a, b); split; [done|by left]).
  assert (b ≠ umax → named l (j_face j) b) as Nb by (intros Hb; apply named_given; exists (a, b); split; [done|right; split; [by apply Hx|done]]).
  unfold resolved, BoolPslg.pick in Hv. cbn [fst snd] in Hv. destruct Hv as [->|[Hb ->]].
  - case_bool_decide; [by left|]. case_bool_decide; [by left|]. by right.
  - rewrite (proj2 (N.eqb_neq b umax)) by done. case_bool_decide; [by left|]. case_bool_decide; [by left|]. right. auto.
Qed.
Lemma first_three n v : (n < 3)%nat → l_verts st !! n = Some v ↔ [ia; ib; ic] !! n = Some v.
Proof.
  intros Hn. destruct (jp_bv _ _ _ _ _ _ _ _ _ _ _ _ _ _ _ _ J) as [rest ->]. by rewrite lookup_app_l.
Qed.
Lemma corner_place n v : [ia; ib; ic] !! n = Some v → ∃ y, position m v y ∧ [p; q; r] !! n = Some y.
Proof. destruct n as [|[|[|n]]]; cbn; intros [= <-]; eauto. Qed.
Lemma points_unit n z : l_uv st !! n = Some z → in_unit z.
Proof.
  intros Hz. destruct (uv_of n z Hz) as (v&Hv&Hb). destruct (verts_named v) as [Hc|Hc]; [by eapply elem_of_list_lookup_2|..].
  - apply elem_of_list_lookup in Hc as [i Hi]. destruct (corner_place i v Hi) as (y&Hy&Hy'). destruct (bary_corner m p q r T v z y i Hy Hb Hy') as [E1 E2].
    unfold in_unit. rewrite E1, E2. destruct i as [|[|i]]; cbn; repeat split; lra.
  - unfold bary in Hb. destruct (pos m v) as [y|] eqn:Ey; [|done]. apply pos_ok in Ey. apply (bary_unit m p q r T v z y Ey).
    + unfold bary. apply pos_ok in Ey. by rewrite Ey.
    + eapply Hp; [done|apply at_face|done].
Qed.
Lemma points_corner n : (n < 3)%nat → ∃ z, l_uv st !! n = Some z ∧ (z.1 == (corner_uv n).1)%Q ∧ (z.2 == (corner_uv n).2)%Q.
Proof.
  intros Hn. destruct (lookup_lt_is_Some_2 [ia; ib; ic] n Hn) as [v Hv]. destruct (corner_place n v Hv) as (y&Hy&Hy'). apply first_three in Hv; [|done].
  destruct (uv_at n v Hv) as (z&Hz&Hb). exists z. split; [done|]. by apply (bary_corner m p q r T v z y n).
Qed.
Lemma points_sq n z : j_uv j !! n = Some z → sq z.
Proof. rewrite Eu. intros Hz. by eapply unit_sq, points_unit. Qed.
Lemma outer_lt i k : outer i k → (i < 3 ∧ k < 3 ∧ i ≠ k)%nat.
Proof. unfold outer. rewrite !elem_of_cons, elem_of_nil. intros [[= -> ->]|[[= -> ->]|[[= -> ->]|[]]]]; lia. Qed.
Lemma outer_side i k : outer i k → ∃ S, add_split_or_chain (l_uv st) i k = Some S ∧ ∀ e, e ∈ S → e ∈ s0 ++ s1 ++ s2 ++ concat ss.
Proof.
  unfold outer. rewrite !elem_of_cons, elem_of_nil. intros [[= -> ->]|[[= -> ->]|[[= -> ->]|[]]]];
    [exists s0; split; [apply J|]|exists s1; split; [apply J|]|exists s2; split; [apply J|]]; intros e He; rewrite !elem_of_app; tauto.
Qed.
Lemma kept_in a b : (a, b) ∈ s0 ++ s1 ++ s2 ++ concat ss → a ≠ b →
  BoolPslgModel.keep (l_uv st) (forced_of c0 c1 c2) (a, b) = true → BoolPslgModel.keep (l_uv st) (forced_of c0 c1 c2) (b, a) = true → pair_in (j_segs j) a b.
Proof.
  intros Hin Hn K1 K2. rewrite Es. apply keep_in; [|by apply Is_true_true..]. destruct (dedupe_all _ ∅ a b Hin Hn) as [?|?]; [set_solver|done].
Qed.
Lemma sides_ok i k : outer i k → chain j i k.
Proof.
  intros Hout. destruct (outer_lt i k Hout) as (Li&Lk&Hn). destruct (points_corner i Li) as (x&Hx&_), (points_corner k Lk) as (y&Hy&_).
  destruct (outer_side i k Hout) as (S&ES&HS). destruct (side_facts (l_uv st) points_corner i k x y x Hout Hx Hy) as (_&_&Hf&_); [by eapply points_unit|].
  rewrite <- Eu in Hx, Hy, ES. apply (chain_ok j points_sq i k x y S); try done.
  - apply same_uv_far; [by eapply points_sq..|done].
  - intros a b Hab. rewrite Eu in Hx, Hy, ES. destruct (side_kept (l_uv st) points_unit points_corner i k x y S (forced_of c0 c1 c2) a b Hout Hx Hy ES Hab) as (Hne&K1&K2).
    apply kept_in; try done. by apply HS.
Qed.
Lemma not_corner i a : (3 ≤ i)%nat → l_verts st !! i = Some a → a ∉ [ia; ib; ic].
Proof.
  intros Hi Ha [k Hk]%elem_of_list_lookup. pose proof (lookup_lt_Some _ _ _ Hk) as Lk. cbn in Lk. apply first_three in Hk; [|done].
  destruct (jp_loc _ _ _ _ _ _ _ _ _ _ _ _ _ _ _ _ J) as [Hnd _]. pose proof (NoDup_lookup _ _ _ _ Hnd Ha Hk). lia.
Qed.
Lemma resolved_free a b : a ∉ [ia; ib; ic] → b ∉ [ia; ib; ic] → b ≠ umax → resolved ia ib ic (a, b) = (a, b).
Proof.
  intros Na Nb Hb. unfold resolved, BoolPslg.pick. cbn [fst snd]. rewrite (proj2 (N.eqb_neq b umax)) by done. by rewrite !(bool_decide_eq_false_2 (a ∈ _)), !(bool_decide_eq_false_2 (b ∈ _)).
Qed.
Lemma asked_ok i k x y : asked l j i k → (3 ≤ i)%nat → (3 ≤ k)%nat → j_uv j !! i = Some x → j_uv j !! k = Some y →
  close_uv loose x y ∨ (∃ c z, (c < 3)%nat ∧ j_uv j !! c = Some z ∧ on_uv loose x y z) ∨ chain j i k.
Proof.
  intros (a&b&Ha&Hb&Hac) Hi Hk Hx Hy. rewrite Ev in Ha, Hb. assert ((a, b) ∈ prs) as Hin by (apply Hprs; by left).
  destruct (given_fit m HU l _ (a, b) Hl (or_introl Hac)) as [[[La _] _] Hum]. cbn [fst snd] in Hum, La. assert (b ≠ umax) as Hbu by (by apply Hum).
  pose proof (not_corner i a Hi Ha) as Na. pose proof (not_corner k b Hk Hb) as Nb.
  destruct (jp_loc _ _ _ _ _ _ _ _ _ _ _ _ _ _ _ _ J) as [Hnd _].
  assert (∃ S, add_split_or_chain (l_uv st) i k = Some S ∧ ∀ e, e ∈ S → e ∈ s0 ++ s1 ++ s2 ++ concat ss) as (S&ES&HS).
  { pose proof (jp_ss _ _ _ _ _ _ _ _ _ _ _ _ _ _ _ _ J) as E. apply mapM_Some_1 in E. apply (elem_of_list_fmap_1 (resolved ia ib ic)) in Hin. rewrite resolved_free in Hin by done.
    apply elem_of_list_lookup in Hin as [n Hn]. destruct (Forall2_lookup_l _ _ _ _ _ E Hn) as (S&HSn&HS). unfold chain_of in HS. cbn [fst snd] in HS.
    rewrite (proj2 (N.eqb_neq a umax)), (proj2 (N.eqb_neq b umax)) in HS by (done || lia). cbn [orb] in HS.
    rewrite (index_of_nodup a _ i), (index_of_nodup b _ k) in HS by done. exists S. split; [done|]. intros e He. rewrite !elem_of_app. do 3 right.
    apply elem_of_list_In, in_concat. exists S. split; apply elem_of_list_In; [by eapply elem_of_list_lookup_2|done]. }
  assert (i ≠ k) as Hne.
  { intros ->. destruct Hac as (s&_&(_&_&_&Hn)&_). congruence. }
  destruct (same_uv x y) eqn:Hs; [left; apply same_uv_close; [by eapply points_sq..|done]|]. right.
  destruct (decide (Exists (λ c, c ∈ mids (l_uv st) i k x y) [0; 1; 2]%nat)) as [(c&Hc&(_&_&Hon&Hlt)%mids_in)%Exists_exists|Hno].
  { left. destruct (lookup_lt_is_Some_2 _ _ Hlt) as [z Hz]. exists c, z. rewrite (at_uv_some _ _ z) in Hon by done. rewrite Eu. split; [|split; [done|]].
    - rewrite !elem_of_cons, elem_of_nil in Hc. destruct Hc as [->|[->|[->|[]]]]; lia.
    - apply on_segment_sound; [exact (points_sq i x Hx)|exact (points_sq k y Hy)|apply (points_sq c z); by rewrite Eu|done]. }
  right. rewrite <- Eu in ES. apply (chain_ok j points_sq i k x y S); try done. intros c d Hcd. rewrite Eu in Hx, Hy, ES.
  assert (∀ n, (n < 3)%nat → n ∉ mids (l_uv st) i k x y) as Hfree.
  { intros n Hn Hm. apply Hno. apply Exists_exists. exists n. split; [|done]. rewrite !elem_of_cons. lia. }
  pose proof ES as ES'. unfold add_split_or_chain in ES'. rewrite (proj2 (Nat.eqb_neq i k)), Hx, Hy in ES' by done. cbn [mbind option_bind] in ES'. rewrite Hs in ES'. injection ES' as ES'.
  pose proof Hcd as Hcd'. rewrite <- ES' in Hcd'. apply emit_in in Hcd' as (Hne'&Hc&Hd).
  assert (3 ≤ c ∧ 3 ≤ d)%nat as [Lc Ld].
  { apply elem_of_app in Hd. rewrite elem_of_list_singleton, by_key_perm in Hd. rewrite elem_of_cons, by_key_perm in Hc.
    assert (∀ n, n ∈ mids (l_uv st) i k x y → (3 ≤ n)%nat) as H3 by (intros n Hm; destruct (decide (n < 3)%nat) as [Hlt|Hlt]; [by apply Hfree in Hm|lia]).
    split; [destruct Hc as [->|Hc]|destruct Hd as [Hd| ->]]; auto. }
  assert (∀ e f, (3 ≤ e)%nat → (3 ≤ f)%nat → e ≠ f → BoolPslgModel.keep (l_uv st) (forced_of c0 c1 c2) (e, f) = true) as HK.
  { intros e f He Hf Hef. unfold BoolPslgModel.keep. rewrite (proj2 (Nat.eqb_neq e f)) by done. case_bool_decide; [done|].
    by rewrite (proj2 (Nat.ltb_ge e 3)), (proj2 (Nat.ltb_ge f 3)). }
  apply kept_in; [by apply HS|done|by apply HK|by apply HK].
Qed.
Lemma seg_near e : e ∈ j_segs j → ∃ i k, (outer i k ∨ asked l j i k) ∧ near_line j i k e.
Proof.
  rewrite Es, elem_of_list_filter. intros [_ Hin%dedupe_in]. destruct e as [a b]. rewrite !elem_of_app in Hin.
  assert (∀ i k S, outer i k → add_split_or_chain (l_uv st) i k = Some S → (a, b) ∈ S → ∃ i k, (outer i k ∨ asked l j i k) ∧ near_line j i k (a, b)) as Hside.
  { intros i k S Hout ES Hab. exists i, k. split; [by left|]. destruct (outer_lt i k Hout) as (Li&Lk&Hn). destruct (points_corner i Li) as (x&Hx&_), (points_corner k Lk) as (y&Hy&_).
    rewrite <- Eu in *. by eapply (chain_near j points_sq). }
  destruct Hin as [Hin|[Hin|[Hin|Hin]]].
  1: eapply (Hside 0 1)%nat; [left|apply J|done]. 1: eapply (Hside 1 2)%nat; [right; left|apply J|done]. 1: eapply (Hside 2 0)%nat; [right; right; left|apply J|done].
  apply elem_of_list_In, in_concat in Hin as (S&HS&Hin). apply elem_of_list_In in HS, Hin.
  pose proof (jp_ss _ _ _ _ _ _ _ _ _ _ _ _ _ _ _ _ J) as E. apply mapM_Some_1 in E. apply elem_of_list_lookup in HS as [n Hn].
  destruct (Forall2_lookup_r _ _ _ _ _ E Hn) as (pr&Hpr&Epr). apply elem_of_list_lookup_2, elem_of_list_fmap in Hpr as ([c d]&->&Hcd%Hprs).
  unfold chain_of in Epr. destruct (((resolved ia ib ic (c, d)).1 =? umax) || ((resolved ia ib ic (c, d)).2 =? umax)) eqn:Eum; [injection Epr as <-; by apply elem_of_nil in Hin|].
  apply orb_false_iff in Eum as [_ Eum%N.eqb_neq].
  destruct (index_of (resolved ia ib ic (c, d)).1 (l_verts st)) as [i|] eqn:Ei; [|injection Epr as <-; by apply elem_of_nil in Hin].
  destruct (index_of (resolved ia ib ic (c, d)).2 (l_verts st)) as [k|] eqn:Ek; [|injection Epr as <-; by apply elem_of_nil in Hin].
  assert (i ≠ k) as Hne.
  { intros ->. unfold add_split_or_chain in Epr. rewrite Nat.eqb_refl in Epr. injection Epr as <-. by apply elem_of_nil in Hin. }
  apply index_of_some in Ei, Ek. destruct (uv_at _ _ Ei) as (x&Hx&_), (uv_at _ _ Ek) as (y&Hy&_).
  exists i, k. split.
  - right. destruct (given_fit m HU l _ _ Hl Hcd) as [_ Hum]. cbn [fst snd] in Hum. 
    assert (d ≠ umax) as Hd by (intros ->; unfold resolved in Eum; cbn [fst snd] in Eum; rewrite N.eqb_refl in Eum; done).
    unfold resolved, BoolPslg.pick in Ei, Ek. cbn [fst snd] in Ei, Ek. rewrite (proj2 (N.eqb_neq d umax)) in Ek by done.
    exists c, d. rewrite Ev. apply Hum in Hd. destruct (jp_loc _ _ _ _ _ _ _ _ _ _ _ _ _ _ _ _ J) as [Hnd _]. revert Ei Ek.
    repeat case_bool_decide; intros Ei Ek; first [done|destruct (Hne (NoDup_lookup _ _ _ _ Hnd Ei Ek))].
  - rewrite <- Eu in *. by eapply (chain_near j points_sq).
Qed.
Lemma corner_seg e : e ∈ j_segs j → (e.1 < 3 ∨ e.2 < 3)%nat → ∃ i k, outer i k ∧ near_line j i k e.
Proof.
  intros He Hlt. assert (e ∈ j_segs j) as He' by done. rewrite Es, elem_of_list_filter in He. destruct e as [a b]. cbn [fst snd] in Hlt. destruct He as [Hk%Is_true_true Hin%dedupe_in].
  destruct (job_segs m HU ia ib ic p q r prs st s0 s1 s2 c0 c1 c2 ss a b J Hin) as (Hne&La&Lb). rewrite <- (loc_len m p q r) in La, Lb by apply J.
  destruct (lookup_lt_is_Some_2 _ _ La) as [z Hz], (lookup_lt_is_Some_2 _ _ Lb) as [z' Hz'].
  assert (∃ i k, outer i k ∧ (on_edge_with_t (at_uv (l_uv st) i) (at_uv (l_uv st) k) (at_uv (l_uv st) a)).1 = true ∧ (on_edge_with_t (at_uv (l_uv st) i) (at_uv (l_uv st) k) (at_uv (l_uv st) b)).1 = true) as (i&k&Hout&H1&H2).
  { unfold BoolPslgModel.keep in Hk. rewrite (proj2 (Nat.eqb_neq a b)) in Hk by done. case_bool_decide as Hf.
    - unfold forced_of in Hf. apply elem_of_list_to_set, elem_of_list_fmap in Hf as ([a' b']&Hund&Hw).
      assert (∃ i k c, outer i k ∧ chain_on_edge (l_uv st) i k = Some c ∧ a' ∈ c ∧ b' ∈ c) as (i&k&c&Hout&Ec&Ha&Hb).
      { rewrite !elem_of_app in Hw. destruct Hw as [Hw|[Hw|Hw]]; apply windows_in in Hw; [exists 0%nat, 1%nat, c0|exists 1%nat, 2%nat, c1|exists 2%nat, 0%nat, c2].
        - split; [left|]. split; [apply J|done].
        - split; [right; left|]. split; [apply J|done].
        - split; [right; right; left|]. split; [apply J|done]. }
      apply (chain_on_edge_in _ _ _ _ _ Ec) in Ha as [_ Ha], Hb as [_ Hb]. exists i, k. split; [done|]. cbn [fst snd] in Hund.
      apply und_inv in Hund as [[-> ->]|[-> ->]]; split; assumption.
    - rewrite (proj2 (orb_true_iff _ _)) in Hk by (rewrite !Nat.ltb_lt; done). unfold seg_on_any_outer_edge in Hk. apply existsb_exists in Hk as ([i k]&Hin'&Hon).
      exists i, k. split; [by apply elem_of_list_In|]. unfold on_outer in Hon. by apply andb_true_iff in Hon. }
  exists i, k. split; [done|]. destruct (outer_lt i k Hout) as (Li&Lk&_). destruct (points_corner i Li) as (x&Hx&_), (points_corner k Lk) as (y&Hy&_).
  exists x, y, z, z'. rewrite Eu. cbn [fst snd]. do 4 (split; [done|]).
  split; [eapply (edge_hit (l_uv st) points_unit points_corner i k x y a)|eapply (edge_hit (l_uv st) points_unit points_corner i k x y b)]; eassumption.
Qed.
End jobs.
