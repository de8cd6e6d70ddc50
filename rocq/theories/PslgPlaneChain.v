(** Proofs about the segments of the triangulation jobs of plane meshes. *)
From Coq Require Import QArith Qabs Reals Qreals Lra Lqa Lia.
From Flocq Require Import Core.
From Verif Require Import F64Model F64Base F64Arith F64Rat DelaunayFloatProofs MeshInv MeshWF PslgFloat BoolPslg BoolPslgChain PslgPlane.
From Verif Require Import PslgPlaneSpec.
Local Open Scope R_scope.

(** ** The test for a side of length a tenth or more *)
Section float.
Context (a b p : uv) (Sa : sq a) (Sb : sq b) (Sp : sq p).
Local Notation X x := (Q2R x.1).
Local Notation Y x := (Q2R x.2).
Local Notation alongR a b p := ((X p - X a) * (X b - X a) + (Y p - Y a) * (Y b - Y a)).
Lemma on_edge_wide : passes a b p = true → (1 # 100 <= along a b b)%Q → (0 <= along a b p <= along a b b)%Q → (on_edge_with_t a b p).1 = true.
Proof.
  intros Hp Hl [H0 H1]. apply Qle_Rle in Hl, H0, H1. rewrite Q2R_0 in H0. replace (Q2R (1 # 100)) with (1 / 100) in Hl by (unfold Q2R; cbn; Lra.lra). rewrite !along_R in *.
  unfold on_edge_with_t, ctr. unfold passes in Hp. destruct (fgt _ _); [discriminate Hp|].
  destruct (diffs a b p Sa Sb Sp) as (D1 & D2 & D3 & D4). destruct (near_diff a b Sa Sb) as [N1 N2], (near_diff a p Sa Sp) as [N3 N4]. pose proof u_val.
  set (dot := fadd (fmul _ (fsub (Q_to_f64 p.1) _)) _). set (len2 := fadd _ _).
  assert (near dot (alongR a b p) (17 * u)) as Nd.
  { pose proof (abs_prod _ _ D1 D3) as P1. pose proof (abs_prod _ _ D2 D4) as P2. apply Rabs_le_inv in P1, P2.
    replace (alongR a b p) with ((X b - X a) * (X p - X a) + (Y b - Y a) * (Y p - Y a)) by ring.
    assert (Rabs ((X b - X a) * (X p - X a) + (Y b - Y a) * (Y p - Y a)) <= 2) by (apply Rabs_le; Lra.lra).
    eapply near_weak; [apply near_add; [apply near_prod; eassumption..|Lra.lra]|Lra.lra]. }
  assert (near len2 (alongR a b b) (17 * u) ∧ alongR a b b <= 2) as [Nl Hl2].
  { pose proof (abs_prod _ _ D1 D1) as P1. pose proof (abs_prod _ _ D2 D2) as P2. apply Rabs_le_inv in P1, P2. split; [|Lra.lra].
    assert (Rabs (alongR a b b) <= 2) by (apply Rabs_le; Lra.lra).
    eapply near_weak; [apply near_add; [apply near_prod; eassumption..|Lra.lra]|Lra.lra]. }
  clearbody dot len2. pose proof (near_bounds _ _ _ Nd) as Bd. pose proof (near_bounds _ _ _ Nl) as Bl.
  assert (fle len2 fzero = false) as -> by (apply fle_f; [apply Nl|exact fin_fzero|]; rewrite val_fzero; Lra.lra).
  assert (1 / 200 < val len2) as Lp by Lra.lra. assert (- (8000 * u) <= val dot / val len2 <= 1 + 8000 * u) as Bt.
  { split; (apply Rmult_le_reg_r with (val len2); [Lra.lra|]); unfold Rdiv; rewrite Rmult_assoc, Rinv_l, Rmult_1_r by Lra.lra.
    - assert (- (8000 * u) * val len2 <= - (8000 * u) * (1 / 200)) by (rewrite <- !Ropp_mult_distr_l; apply Ropp_le_contravar, Rmult_le_compat_l; Lra.lra). Lra.lra.
    - assert (8000 * u * (1 / 200) <= 8000 * u * val len2) by (apply Rmult_le_compat_l; Lra.lra). Lra.lra. }
  assert (near (fdiv dot len2) (val dot / val len2) u) as Nt.
  { apply fdiv_near; [apply Nd|apply Nl|Lra.lra|]. apply Rabs_le. Lra.lra. }
  pose proof (near_bounds _ _ _ Nt) as Bt'. destruct Nt as [Ft _]. pose proof EPS_val. destruct (fneg_fin _ fin_EPS) as [Fn Vn]. destruct one_val as [F1 V1].
  assert (near (fadd fone F64Model.EPS) (1 + val F64Model.EPS) u) as Ne.
  { eapply near_weak; [apply (near_add _ _ _ _ 0 0)|Lra.lra].
    - split; [exact F1|]. rewrite V1, Rminus_diag_eq, Rabs_R0 by reflexivity. Lra.lra.
    - split; [exact fin_EPS|]. rewrite Rminus_diag_eq, Rabs_R0 by reflexivity. Lra.lra.
    - rewrite Rabs_pos_eq; Lra.lra. }
  pose proof (near_bounds _ _ _ Ne) as Be. cbn [fst]. unfold fge. rewrite andb_true_iff, !fle_t by first [exact Ft|exact Fn|apply Ne]. rewrite Vn. Lra.lra.
Qed.
End float.
Local Open Scope N_scope.
Local Opaque on_edge_with_t param_t_uv on_segment_uv_fast same_uv feps fcross.
Lemma on_along x y z : on_uv 0 x y z → (0 <= along x y z <= along x y y)%Q.
Proof.
  intros (_&H1&H2). unfold BoolPslgSpec.between, along in *.
  assert (∀ p q r : Q, (p - 0 <= r ∧ r <= q + 0) ∨ (q - 0 <= r ∧ r <= p + 0) → 0 <= (r - p) * (q - p) ∧ (r - p) * (q - p) <= (q - p) * (q - p))%Q as B.
  { intros p q r [[A1 A2]|[A1 A2]]; split; Lqa.nra. }
  apply B in H1, H2. Lqa.lra.
Qed.
Lemma wide_far x y : sq x → sq y → (1 # 100 <= along x y y)%Q → same_uv x y = false.
Proof.
  intros Sx Sy H. destruct (same_uv x y) eqn:E; [|done]. exfalso. apply same_uv_close in E as [E1 E2]; [|done..].
  apply Qabs_Qle_condition in E1, E2. unfold along, loose in *. clear Sx Sy.
  assert (∀ d : Q, (- (1 # 1000000000) <= d ∧ d <= 1 # 1000000000) → d * d <= 1 # 1000)%Q as S by (intros d [? ?]; Lqa.nra).
  apply S in E1, E2. Lqa.lra.
Qed.
Lemma edge_ends x y : sq x → sq y → passes x y x = true ∧ passes x y y = true.
Proof.
  intros Sx Sy. split; (apply passes_exact; [done..|]; rewrite <- turn_R, <- Q2R_0; apply Qeq_eqR; unfold turn; ring).
Qed.

Section jobs.
Context (m : mesh p2) (HU : nverts m ≤ umax) (l : list (gseg p2)) (Hl : segs_in_2 m l).
Context (j : fjob) (prs : list (N * N)) (ia ib ic : N) (st : local) (prs' : list (N * N)) (s0 s1 s2 : list (nat * nat)) (c0 c1 c2 : list nat) (ss : list (list (nat * nat))).
Context (Ho : oriented_face m (j_face j) ia ib ic) (Hprs : ∀ pr, pr ∈ prs ↔ ∃ s, s ∈ l ∧ gives s (j_face j) pr).
Context (J : parts m ia ib ic prs st prs' s0 s1 s2 c0 c1 c2 ss).
Context (Ev : j_verts j = l_verts st) (Eu : j_uv j = l_uv st).
Context (Es : j_segs j = filter (λ s, Is_true (BoolPslgModel.keep (l_uv st) (forced_of c0 c1 c2) s)) (dedupe ∅ (s0 ++ s1 ++ s2 ++ concat ss))).
Context (Hs : in_square j).

Lemma all_sq n z : j_uv j !! n = Some z → sq z.
Proof using Hs. intros Hz. apply Hs. by eapply elem_of_list_lookup_2. Qed.
Lemma uv_at_2 n v : l_verts st !! n = Some v → ∃ z, l_uv st !! n = Some z.
Proof using J. intros Hv. destruct (p_loc _ _ _ _ _ _ _ _ _ _ _ _ _ _ J) as [_ F]. destruct (Forall2_lookup_l _ _ _ _ _ F Hv) as (z&?&?). eauto. Qed.
Lemma three : (3 ≤ length (l_uv st))%nat.
Proof using HU J. rewrite (loc_len_2 m) by apply J. destruct (p_bv _ _ _ _ _ _ _ _ _ _ _ _ _ _ J) as [rest ->]. cbn. lia. Qed.
Lemma kept_in_2 a b : (a, b) ∈ s0 ++ s1 ++ s2 ++ concat ss → a ≠ b →
  BoolPslgModel.keep (l_uv st) (forced_of c0 c1 c2) (a, b) = true → BoolPslgModel.keep (l_uv st) (forced_of c0 c1 c2) (b, a) = true → pair_in (j_segs j) a b.
Proof using Es.
  intros Hin Hn K1 K2. rewrite Es. apply keep_in; [|by apply Is_true_true..]. destruct (dedupe_all _ ∅ a b Hin Hn) as [H|?]; [by apply elem_of_empty in H|done].
Qed.
Lemma outer_side_2 i k : outer i k → ∃ S, add_split_or_chain (l_uv st) i k = Some S ∧ ∀ e, e ∈ S → e ∈ s0 ++ s1 ++ s2 ++ concat ss.
Proof using J.
  unfold outer. rewrite !elem_of_cons, elem_of_nil. intros [[= -> ->]|[[= -> ->]|[[= -> ->]|[]]]];
    [exists s0; split; [apply J|]|exists s1; split; [apply J|]|exists s2; split; [apply J|]]; intros e He; rewrite !elem_of_app; tauto.
Qed.
Lemma sides_ok_2 i k : wide j → clear_sides j → outer i k → chain j i k.
Proof using Es Eu HU Hs J.
  intros Hw Hc Hout. destruct (outer_lt_2 i k Hout) as (Li&Lk&Hn). pose proof three as H3. rewrite <- Eu in H3.
  destruct (lookup_lt_is_Some_2 (j_uv j) i) as [x Hx]; [lia|]. destruct (lookup_lt_is_Some_2 (j_uv j) k) as [y Hy]; [lia|].
  destruct (outer_side_2 i k Hout) as (S&ES&HS). pose proof (all_sq i x Hx) as Sx. pose proof (all_sq k y Hy) as Sy.
  pose proof (Hw i k x y Hout Hx Hy) as Hlen. pose proof (wide_far x y Sx Sy Hlen) as Hsame. rewrite <- Eu in ES.
  apply (chain_ok j all_sq i k x y S); try done. intros a b Hab. apply HS in Hab as Hin. revert ES Hab. unfold add_split_or_chain.
  rewrite (proj2 (Nat.eqb_neq i k)), Hx, Hy by done. cbn [mbind option_bind]. rewrite Hsame. intros [= <-] (Hne&Ha&Hb)%emit_in.
  assert (∀ n, n = i ∨ n = k ∨ n ∈ mids (j_uv j) i k x y → (on_edge_with_t (at_uv (j_uv j) i) (at_uv (j_uv j) k) (at_uv (j_uv j) n)).1 = true) as Hall.
  { intros n Hnn. destruct (edge_ends x y Sx Sy) as [P1 P2]. destruct (on_uv_ends 0 x y) as [O1 O2]; [done|].
    assert (∃ z, j_uv j !! n = Some z ∧ passes x y z = true ∧ on_uv 0 x y z) as (z&Hz&Hp&Hon).
    { destruct Hnn as [->|[->|(_&_&Hon&Hlt)%mids_in]]; [eauto|eauto|]. destruct (lookup_lt_is_Some_2 _ _ Hlt) as [z Hz]. exists z. rewrite (at_uv_some _ _ z) in Hon by done.
      split; [done|]. split; [by apply on_segment_passes|]. apply (Hc i k); [done..|by eapply elem_of_list_lookup_2|]. apply on_segment_sound; eauto using all_sq. }
    rewrite (at_uv_some _ _ x), (at_uv_some _ _ y), (at_uv_some _ _ z) by done. apply on_edge_wide; eauto using all_sq, on_along. }
  assert (on_outer (j_uv j) a b (i, k) = true ∧ on_outer (j_uv j) b a (i, k) = true) as [O1 O2].
  { unfold on_outer. cbn [fst snd]. rewrite !Hall; [done|..].
    - apply elem_of_app in Hb as [Hb| ->%elem_of_list_singleton]; [|by right; left]. rewrite by_key_perm in Hb. tauto.
    - apply elem_of_cons in Ha as [->|Ha]; [by left|]. rewrite by_key_perm in Ha. tauto. }
  rewrite Eu in O1, O2.
  assert (∀ c d, c ≠ d → on_outer (l_uv st) c d (i, k) = true → BoolPslgModel.keep (l_uv st) (forced_of c0 c1 c2) (c, d) = true) as HK.
  { intros c d Hcd HO. unfold BoolPslgModel.keep. rewrite (proj2 (Nat.eqb_neq c d)) by done. case_bool_decide; [done|]. destruct (_ || _); [|done].
    unfold seg_on_any_outer_edge. apply existsb_exists. exists (i, k). split; [by apply elem_of_list_In|done]. }
  apply kept_in_2; [exact Hin|exact Hne|exact (HK a b Hne O1)|exact (HK b a (not_eq_sym Hne) O2)].
Qed.
Lemma linked_ok i k x y : linked l j i k → (3 ≤ i)%nat → (3 ≤ k)%nat → j_uv j !! i = Some x → j_uv j !! k = Some y →
  chain j i k ∨ close_uv loose x y ∨ ∃ c z, (c < 3)%nat ∧ j_uv j !! c = Some z ∧ on_uv loose x y z.
Proof using Es Eu Ev HU Hl Hprs Hs J.
  intros (a&b&Ha&Hb&Hab&s&Hss&Hu&Hf) Hi Hk Hx Hy. rewrite Ev in Ha, Hb. destruct (Hl s Hss (proj1 Hu)) as (a'&b'&(_&Ea'&Eb')&La&Lb&_).
  assert (a = a' ∧ b = b') as [<- <-] by (destruct Hu as (_&Ea&Eb); split; congruence). clear Ea' Eb'.
  assert ((a, b) ∈ prs') as Hin.
  { apply (p_prs _ _ _ _ _ _ _ _ _ _ _ _ _ _ J). split; [|unfold real; cbn; lia]. apply Hprs. exists s. split; [done|]. exists a, b. split; [done|]. by left. }
  destruct (p_loc _ _ _ _ _ _ _ _ _ _ _ _ _ _ J) as [Hnd _].
  assert (∃ S, add_split_or_chain (l_uv st) i k = Some S ∧ ∀ e, e ∈ S → e ∈ s0 ++ s1 ++ s2 ++ concat ss) as (S&ES&HS).
  { pose proof (p_ss _ _ _ _ _ _ _ _ _ _ _ _ _ _ J) as E. apply mapM_Some_1 in E.
    apply elem_of_list_lookup in Hin as [n Hn]. destruct (Forall2_lookup_l _ _ _ _ _ E Hn) as (S&HSn&HS). unfold chain_of in HS. cbn [fst snd] in HS.
    rewrite (proj2 (N.eqb_neq a umax)), (proj2 (N.eqb_neq b umax)) in HS by lia. cbn [orb] in HS.
    rewrite (index_of_nodup a _ i), (index_of_nodup b _ k) in HS by done. exists S. split; [done|]. intros e He. rewrite !elem_of_app. do 3 right.
    apply elem_of_list_In, in_concat. exists S. split; apply elem_of_list_In; [by eapply elem_of_list_lookup_2|done]. }
  assert (i ≠ k) as Hne by congruence.
  destruct (same_uv x y) eqn:Hsm; [right; left; apply same_uv_close; [by eapply all_sq..|done]|].
  destruct (decide (Exists (λ c, c ∈ mids (l_uv st) i k x y) [0; 1; 2]%nat)) as [(c&Hc&(_&_&Hon&Hlt)%mids_in)%Exists_exists|Hno].
  { right. right. destruct (lookup_lt_is_Some_2 _ _ Hlt) as [z Hz]. exists c, z. rewrite (at_uv_some _ _ z) in Hon by done. rewrite Eu. split; [|split; [done|]].
    - rewrite !elem_of_cons, elem_of_nil in Hc. destruct Hc as [->|[->|[->|[]]]]; lia.
    - apply on_segment_sound; [exact (all_sq i x Hx)|exact (all_sq k y Hy)|apply (all_sq c z); by rewrite Eu|done]. }
  left. rewrite <- Eu in ES. apply (chain_ok j all_sq i k x y S); try done. intros c d Hcd. rewrite Eu in Hx, Hy, ES.
  pose proof ES as ES'. unfold add_split_or_chain in ES'. rewrite (proj2 (Nat.eqb_neq i k)), Hx, Hy in ES' by done. cbn [mbind option_bind] in ES'. rewrite Hsm in ES'. injection ES' as ES'.
  pose proof Hcd as Hcd'. rewrite <- ES' in Hcd'. apply emit_in in Hcd' as (Hne'&Hc&Hd).
  assert (3 ≤ c ∧ 3 ≤ d)%nat as [Lc Ld].
  { apply elem_of_app in Hd. rewrite elem_of_list_singleton, by_key_perm in Hd. rewrite elem_of_cons, by_key_perm in Hc.
    assert (∀ n, n ∈ mids (l_uv st) i k x y → (3 ≤ n)%nat) as H3.
    { intros n Hm. destruct (decide (n < 3)%nat) as [Hlt|Hlt]; [|lia]. destruct Hno. apply Exists_exists. exists n. split; [|done]. rewrite !elem_of_cons. lia. }
    split; [destruct Hc as [->|Hc]|destruct Hd as [Hd| ->]]; auto. }
  assert (∀ e f, (3 ≤ e)%nat → (3 ≤ f)%nat → e ≠ f → BoolPslgModel.keep (l_uv st) (forced_of c0 c1 c2) (e, f) = true) as HK.
  { intros e f He Hf' Hef. unfold BoolPslgModel.keep. rewrite (proj2 (Nat.eqb_neq e f)) by done. case_bool_decide; [done|].
    by rewrite (proj2 (Nat.ltb_ge e 3)), (proj2 (Nat.ltb_ge f 3)). }
  apply kept_in_2; [by apply HS|done|by apply HK|by apply HK].
Qed.
Lemma seg_near_2 e : e ∈ j_segs j → ∃ i k, (outer i k ∨ linked l j i k) ∧ near_line j i k e.
Proof using Es Eu Ev HU Hl Hprs Hs J.
  rewrite Es, elem_of_list_filter. intros [_ Hin%dedupe_in]. destruct e as [a b].
  destruct (segs_from _ _ _ _ _ _ _ _ _ _ _ _ _ _ _ J Hin) as [(i&k&S&Hout&E&HS)|(pr&S&Hpr&E&HS)].
  - exists i, k. split; [by left|]. destruct (outer_lt_2 i k Hout) as (Li&Lk&_). pose proof three as H3. rewrite <- Eu in *.
    destruct (lookup_lt_is_Some_2 (j_uv j) i) as [x Hx]; [lia|]. destruct (lookup_lt_is_Some_2 (j_uv j) k) as [y Hy]; [lia|]. by eapply (chain_near j all_sq).
  - destruct pr as [c d]. apply (p_prs _ _ _ _ _ _ _ _ _ _ _ _ _ _ J) in Hpr as [(s&Hss&Hg)%Hprs Hr]. unfold chain_of in E. cbn [fst snd] in E.
    destruct ((c =? umax) || (d =? umax)); [injection E as <-; by apply elem_of_nil in HS|].
    destruct (index_of c (l_verts st)) as [i|] eqn:Ei; [|injection E as <-; by apply elem_of_nil in HS].
    destruct (index_of d (l_verts st)) as [k|] eqn:Ek; [|injection E as <-; by apply elem_of_nil in HS].
    apply index_of_some in Ei, Ek. destruct (uv_at_2 _ _ Ei) as (x&Hx), (uv_at_2 _ _ Ek) as (y&Hy). exists i, k. split.
    + right. exists c, d. rewrite Ev. split; [done|]. split; [done|]. destruct Hr as (_&Hd&Hcd). cbn [fst snd] in Hd, Hcd. split; [done|]. exists s. split; [done|].
      destruct Hg as (c'&d'&Hu&[[Hf [= <- <-]]|(_&[[[= _ ?] _]|[[= _ ?] _]])]); done.
    + rewrite <- Eu in *. by eapply (chain_near j all_sq).
Qed.
End jobs.
