(** Edge collapse, part 6: the checks before the commit, on an inner edge. *)
From Verif Require Export MeshCollapse4 MeshQuery2 MeshCompact.
From Verif Require Import MeshBase.
Local Open Scope N_scope.

Section gate.
Context {P : Type} (mid : P → P → P) (thin : P → P → P → bool).
Context (m : mesh P) (HW : WF m).
Implicit Types (h k f w u v : N).
Let HS : SI m None := wf_si _ HW.

Lemma pos_of_ok h (l : list (N * N * option N)) i : (∃ t, t ∈ l ∧ fst (fst t) = h) →
  ∃ j t, pos_of h l i = Some (i + j)%nat ∧ l !! j = Some t ∧ fst (fst t) = h.
Proof.
  revert i. induction l as [|s l IH]; intros i (t&Ht&E); [by apply elem_of_nil in Ht|].
  cbn [pos_of]. destruct (N.eqb_spec (s.1.1) h) as [Es|Es].
  - exists 0%nat, s. split; [f_equal; lia|done].
  - apply elem_of_cons in Ht as [->|Ht]; [done|].
    destruct (IH (S i)) as (j&t'&E1&E2&E3); [by exists t|].
    exists (S j), t'. rewrite E1. split; [f_equal; lia|done].
Qed.

Lemma incident_faces_ok v x h0 : verts m !! v = Some x → vhe x = Some h0 → one_fan m v →
  ∃ l, incident_faces m v = Some l ∧ ∀ f, f ∈ l ↔ ∃ h, L m h ∧ tl m h = v ∧ fc m h = Some f.
Proof.
  intros Hx Hh Hone. destruct (ring_nb m HW v x h0 Hx Hh Hone) as (r&E&_&Hs&_).
  unfold incident_faces. rewrite E. cbn [mbind option_bind].
  assert (∀ f, f ∈ omap snd (ring_spokes r) ↔ ∃ h, L m h ∧ tl m h = v ∧ fc m h = Some f) as Hm.
  { intros f. rewrite elem_of_list_omap. split.
    - intros (t&(h&->&HL&Ht)%Hs&Ef). by exists h.
    - intros (h&HL&Ht&Ef). exists (spoke m h). split; [apply Hs; eauto|done]. }
  rewrite (mapM_ok _ Some).
  - cbn [mbind option_bind]. eexists. split; [done|]. intros f. rewrite <- Hm. rewrite elem_of_list_omap. split.
    + intros (y&(g&->&Hg)%elem_of_list_fmap&Ey). cbn in Ey. by injection Ey as <-.
    + intros Hf. exists (Some f). split; [|done]. apply elem_of_list_fmap. eauto.
  - intros f Hf. apply Hm in Hf as (h&HL&_&Ef).
    destruct (face_live m HW h f HL Ef) as (y&Hy&Ry).
    assert (getF m f = Some y) as -> by exact Hy. cbn [mbind option_bind]. by rewrite Ry.
Qed.

Lemma survivors_ok u v (l : list N) : (∀ f, f ∈ l → ∃ h, L m h ∧ fc m h = Some f) →
  ∃ l', survivors_of m u v l = Some l' ∧
    ∀ f, f ∈ l' ↔ f ∈ l ∧ ∃ x y z, oriented_face m f x y z ∧
      ¬ ((u = x ∨ u = y ∨ u = z) ∧ (v = x ∨ v = y ∨ v = z)).
Proof.
  induction l as [|f l IH]; intros Hl.
  { exists []. split; [done|]. intros f. split; [intros []%elem_of_nil|intros [[]%elem_of_nil _]]. }
  destruct IH as (l'&E&Hl'). { intros g Hg. apply Hl. by right. }
  destruct (Hl f) as (h&HL&Ef); [left|].
  destruct (face_live m HW h f HL Ef) as (z0&Hz0&Rz0).
  destruct (live_oriented m f HW (ex_intro _ z0 (conj Hz0 Rz0))) as (x&y&z&Ho).
  cbn [survivors_of]. rewrite (face_vertices_ok m f x y z HW Ho). cbn [mbind option_bind]. rewrite E. cbn [mbind option_bind].
  assert (∀ x' y' z', oriented_face m f x' y' z' → x' = x ∧ y' = y ∧ z' = z) as Hun.
  { intros x' y' z' Ho'. pose proof (face_vertices_ok m f x y z HW Ho) as E1.
    pose proof (face_vertices_ok m f x' y' z' HW Ho') as E2. rewrite E1 in E2. by injection E2 as <- <- <-. }
  set (c := ((x =? u) || (y =? u) || (z =? u)) && ((x =? v) || (y =? v) || (z =? v))).
  assert (c = true ↔ (u = x ∨ u = y ∨ u = z) ∧ (v = x ∨ v = y ∨ v = z)) as Hc.
  { unfold c. rewrite andb_true_iff, !orb_true_iff, !N.eqb_eq. split; intros [A B]; (split; [clear B|clear A]); intuition congruence. }
  eexists. split; [done|]. intros g. destruct c.
  - rewrite Hl', elem_of_cons. split; [intros [? ?]; auto|]. intros [[->|?] ?]; [|done].
    exfalso. destruct H as (x'&y'&z'&(->&->&->)%Hun&Hn). apply Hn, Hc. done.
  - rewrite !elem_of_cons, Hl'. split.
    + intros [->|[? ?]]; [|by auto]. split; [by left|]. exists x, y, z. split; [done|]. intros Hn%Hc. done.
    + intros [[->|?] ?]; auto.
Qed.

(** the position of a vertex after the move *)
Definition at_after u v (p : P) (w : N) (q : P) : Prop :=
  ((w = u ∨ w = v) ∧ q = p) ∨ (w ≠ u ∧ w ≠ v ∧ ∃ z, verts m !! w = Some z ∧ q = vpos z).

Lemma moved_pos_ok u v p w h : L m h → tl m h = w → ∃ q, moved_pos m u v p w = Some q ∧
  ∀ q', at_after u v p w q' ↔ q' = q.
Proof.
  intros HL Ht. unfold moved_pos, at_after.
  destruct (has_anchor m HW w h HL Ht) as (z&k&Hz&_).
  destruct (N.eqb_spec w u) as [E1|E1]; [|destruct (N.eqb_spec w v) as [E2|E2]]; cbn [orb].
  - exists p. split; [done|]. intros q'. split; [|by auto]. intros [[_ ?]|(?&?&?)]; done.
  - exists p. split; [done|]. intros q'. split; [|by auto]. intros [[_ ?]|(?&?&?)]; done.
  - exists (vpos z). assert (getV m w = Some z) as -> by exact Hz. split; [done|]. intros q'. split.
    + intros [[[?|?] _]|(_&_&z'&Hz'&->)]; [done|done|]. congruence.
    + intros ->. right. eauto.
Qed.

Lemma some_thin_ok u v p (l : list N) : (∀ f, f ∈ l → ∃ h, L m h ∧ fc m h = Some f) →
  ∃ r : bool, some_thin thin m u v p l = Some r ∧
    (r = true ↔ ∃ f x y z px py pz, f ∈ l ∧ oriented_face m f x y z ∧
       at_after u v p x px ∧ at_after u v p y py ∧ at_after u v p z pz ∧ thin px py pz = true).
Proof.
  induction l as [|f l IH]; intros Hl.
  { exists false. split; [done|]. split; [done|]. intros (f&?&?&?&?&?&?&Hin&_). by apply elem_of_nil in Hin. }
  destruct IH as (r&E&Hr). { intros g Hg. apply Hl. by right. }
  destruct (Hl f) as (h&HL&Ef); [left|].
  destruct (face_live m HW h f HL Ef) as (z0&Hz0&Rz0).
  destruct (live_oriented m f HW (ex_intro _ z0 (conj Hz0 Rz0))) as (x&y&z&Ho).
  pose proof Ho as Ho'. apply oriented_face_L in Ho' as (k&_&HLk&Fk&Tx&Ty&Tz); [|done].
  destruct (face3 m HS k f HLk Fk) as (L1&L2&_&_&_&_&_&_&T1&T2&_&_).
  destruct (moved_pos_ok u v p x k HLk Tx) as (px&Ex&Hpx).
  destruct (moved_pos_ok u v p y (nx m k) L1) as (py&Ey&Hpy); [congruence|].
  destruct (moved_pos_ok u v p z (pv m k) L2) as (pz&Ez&Hpz); [congruence|].
  assert (∀ x' y' z', oriented_face m f x' y' z' → x' = x ∧ y' = y ∧ z' = z) as Hun.
  { intros x' y' z' Ho'. pose proof (face_vertices_ok m f x y z HW Ho) as E1.
    pose proof (face_vertices_ok m f x' y' z' HW Ho') as E2. rewrite E1 in E2. by injection E2 as <- <- <-. }
  cbn [some_thin]. rewrite (face_vertices_ok m f x y z HW Ho). cbn [mbind option_bind].
  rewrite Ex. cbn [mbind option_bind]. rewrite Ey. cbn [mbind option_bind]. rewrite Ez. cbn [mbind option_bind].
  destruct (thin px py pz) eqn:Eth.
  - exists true. split; [done|]. split; [|done]. intros _. exists f, x, y, z, px, py, pz.
    split; [left|]. split; [done|]. split; [by apply Hpx|]. split; [by apply Hpy|]. split; [by apply Hpz|done].
  - exists r. split; [done|]. rewrite Hr. split.
    + intros (g&x'&y'&z'&qx&qy&qz&Hg&?). exists g, x', y', z', qx, qy, qz. split; [by right|done].
    + intros (g&x'&y'&z'&qx&qy&qz&[->|Hg]%elem_of_cons&Hog&Ax&Ay&Az&Hth).
      * exfalso. apply Hun in Hog as (->&->&->). apply Hpx in Ax as ->. apply Hpy in Ay as ->. apply Hpz in Az as ->. congruence.
      * exists g, x', y', z', qx, qy, qz. done.
Qed.

Section edge.
Context (u v e t a b fl fr : N).
Context (HLe : L m e) (Hte : tl m e = u) (Hhe : hd m e = v) (Ht : tw m e = t).
Context (Hfl : fc m e = Some fl) (Hfr : fc m t = Some fr).
Context (Ha : hd m (nx m e) = a) (Hb : hd m (nx m t) = b).
Context (Hfu : one_fan m u) (Hfv : one_fan m v).

Let HLt : L m t.
Proof. rewrite <- Ht. by apply (si_tw _ _ HS e HLe). Qed.
Let Htt : tl m t = v.
Proof. rewrite <- Ht. unfold tl. destruct (si_tw _ _ HS e HLe) as (_&E&_). by rewrite E. Qed.
Let Hht : hd m t = u.
Proof. rewrite <- Ht. exact Hte. Qed.
Let Huv : u ≠ v.
Proof. pose proof (hd_tl_ne m HS e HLe). congruence. Qed.

Lemma em_uv : emap m !! (u, v) = Some e.
Proof. apply (si_em _ _ HS). split; [done|]. split; [done|]. exact Hte. Qed.
Lemma em_vu : emap m !! (v, u) = Some t.
Proof. apply (si_em _ _ HS). split; [done|]. split; [done|]. exact Htt. Qed.

Lemma ring_pair_ok : ∃ pr, ring_pair_full m u v = Some (Some pr) ∧
  rings_adjacency_ok m pr u v = true ∧ pra pr = Some a ∧ prb pr = Some b ∧
  (∀ w, w ∈ common_of pr u v ↔ w ≠ u ∧ w ≠ v ∧ registered m u w ∧ registered m v w).
Proof.
  unfold ring_pair_full. rewrite (proj2 (N.eqb_neq _ _) Huv), em_uv, em_vu.
  destruct (has_anchor m HW u e HLe Hte) as (x0&k0&Hx0&Hk0).
  destruct (has_anchor m HW v t HLt Htt) as (x1&k1&Hx1&Hk1).
  destruct (ring_nb m HW u x0 k0 Hx0 Hk0 Hfu) as (r0&->&Hn0&Hs0&_).
  destruct (ring_nb m HW v x1 k1 Hx1 Hk1 Hfv) as (r1&->&Hn1&Hs1&_).
  cbn [mbind option_bind].
  destruct (pos_of_ok e (ring_spokes r0) 0) as (i0&s0&->&E0&F0).
  { exists (spoke m e). split; [|done]. apply Hs0. eauto. }
  destruct (pos_of_ok t (ring_spokes r1) 0) as (i1&s1&->&E1&F1).
  { exists (spoke m t). split; [|done]. apply Hs1. eauto. }
  cbn [plus]. rewrite E0, E1. cbn [mbind option_bind].
  pose proof (elem_of_list_lookup_2 _ _ _ E0) as I0. pose proof (elem_of_list_lookup_2 _ _ _ E1) as I1.
  apply Hs0 in I0 as (j0&->&_&_). apply Hs1 in I1 as (j1&->&_&_). cbn in F0, F1. subst j0 j1.
  cbn [spoke fst snd]. rewrite Hhe, Hht, !N.eqb_refl. cbn [mbind option_bind assertb].
  rewrite !(opposite_ok m HW) by done. rewrite Hfl, Hfr, Ha, Hb. cbn [mbind option_bind].
  eexists. split; [done|]. split_and!.
  - unfold rings_adjacency_ok. rewrite em_uv, em_vu. cbn [pr0 pr1 pi0 pi1]. rewrite E0, E1. cbn [spoke fst snd].
    by rewrite Hhe, Hht, !N.eqb_refl.
  - done.
  - done.
  - intros w. unfold common_of, nbrs_excluding. cbn [pr0 pr1].
    rewrite !elem_of_list_filter, Hn0, Hn1. tauto.
Qed.

(** the answer of the checks *)
Lemma gate_ok : ∃ g xu xv, verify_collapse_prereqs mid thin false m u v = Some g ∧
  (∃ pr, ring_pair_full m u v = Some (Some pr)) ∧
  verts m !! u = Some xu ∧ verts m !! v = Some xv ∧
  ((∃ p, g = inl p) ↔
     (∀ w, w ≠ u → w ≠ v → registered m u w → registered m v w → w = a ∨ w = b) ∧ a ≠ b ∧
     ∀ f x y z px py pz, oriented_face m f x y z →
       (u = x ∨ u = y ∨ u = z) ∨ (v = x ∨ v = y ∨ v = z) →
       ¬ ((u = x ∨ u = y ∨ u = z) ∧ (v = x ∨ v = y ∨ v = z)) →
       at_after u v (mid (vpos xu) (vpos xv)) x px → at_after u v (mid (vpos xu) (vpos xv)) y py →
       at_after u v (mid (vpos xu) (vpos xv)) z pz → thin px py pz = false) ∧
  (∀ p, g = inl p → p = mid (vpos xu) (vpos xv)).
Proof.
  destruct ring_pair_ok as (pr&Epr&Eadj&Epa&Epb&Hcom).
  destruct (has_anchor m HW u e HLe Hte) as (xu&k0&Hxu&Hk0).
  destruct (has_anchor m HW v t HLt Htt) as (xv&k1&Hxv&Hk1).
  assert (opp_list pr = [a; b]) as Eopp by (unfold opp_list; by rewrite Epa, Epb).
  destruct (face3 m HS e fl HLe Hfl) as (L1&L2&_&_&_&_&_&_&T1&T2&T3&_).
  destruct (face3 m HS t fr HLt Hfr) as (M1&M2&_&_&_&_&_&_&U1&U2&U3&_).
  assert (∀ h, L m h → registered m (tl m h) (hd m h) ∧ registered m (hd m h) (tl m h)) as Hreg.
  { intros h HL. split; [exists h; by apply runs_WF|]. exists (tw m h). apply runs_WF; [done|].
    destruct (si_tw _ _ HS h HL) as (HLh&E&_). split_and!; [done| |done]. unfold tl. by rewrite E. }
  assert (∀ x, x ∈ [a; b] → x ∈ common_of pr u v) as Hin.
  { pose proof (hd_tl_ne m HS _ L1). pose proof (hd_tl_ne m HS _ L2).
    pose proof (hd_tl_ne m HS _ M1). pose proof (hd_tl_ne m HS _ M2).
    intros x Hx. apply Hcom. apply elem_of_cons in Hx as [->|Hx]; [|apply elem_of_list_singleton in Hx as ->].
    - split_and!; [congruence|congruence| |].
      + assert (registered m (hd m (pv m e)) (tl m (pv m e))) as X by (by apply Hreg). congruence.
      + assert (registered m (tl m (nx m e)) (hd m (nx m e))) as X by (by apply Hreg). congruence.
    - split_and!; [congruence|congruence| |].
      + assert (registered m (tl m (nx m t)) (hd m (nx m t))) as X by (by apply Hreg). congruence.
      + assert (registered m (hd m (pv m t)) (tl m (pv m t))) as X by (by apply Hreg). congruence. }
  unfold verify_collapse_prereqs, check_link_condition_triangle, would_create_duplicate_edges, would_create_2gons.
  rewrite Epr. cbn [mbind option_bind]. rewrite Eadj. cbn [negb andb].
  unfold opposites_count. rewrite Eopp. cbn [length]. rewrite Epa, Epb.
  rewrite (bool_decide_true (Forall (λ x, x ∈ common_of pr u v) [a; b])) by (apply Forall_forall; exact Hin).
  rewrite andb_true_r.
  assert ((∀ w, w ≠ u → w ≠ v → registered m u w → registered m v w → w = a ∨ w = b) ↔
     Forall (λ x, x ∈ [a; b]) (common_of pr u v)) as Hlink.
  { rewrite Forall_forall. setoid_rewrite Hcom. split.
    - intros H w (?&?&?&?). rewrite !elem_of_cons. destruct (H w) as [?|?]; auto.
    - intros H w ????. pose proof (H w ltac:(done)) as X. rewrite !elem_of_cons in X.
      destruct X as [?|[?|X]]; auto. by apply elem_of_nil in X. }
  destruct (decide (Forall (λ x, x ∈ [a; b]) (common_of pr u v))) as [D|D].
  2: { rewrite bool_decide_false by done. cbn [mbind option_bind negb].
    exists (inr LinkCondition), xu, xv. split; [done|]. split; [by exists pr|]. split; [done|]. split; [done|]. split; [|done]. split; [by intros []|].
    intros [H%Hlink _]. done. }
  rewrite bool_decide_true by done. cbn [mbind option_bind negb].
  assert (filter (λ x, x ∉ [a; b]) (common_of pr u v) = []) as ->.
  { destruct (filter (λ x, x ∉ [a; b]) (common_of pr u v)) as [|y l] eqn:E; [done|].
    assert (y ∈ filter (λ x, x ∉ [a; b]) (common_of pr u v)) as Hy by (rewrite E; left).
    apply elem_of_list_filter in Hy as [Hy1 Hy2]. rewrite Forall_forall in D. by apply D in Hy2. }
  cbn [mbind option_bind].
  destruct (N.eqb_spec a b) as [Eab|Eab].
  { exists (inr TwoGon), xu, xv. split; [done|]. split; [by exists pr|]. split; [done|]. split; [done|]. split; [|done]. split; [by intros []|].
    intros (_&H&_). done. }
  assert (getV m u = Some xu) as -> by exact Hxu. assert (getV m v = Some xv) as -> by exact Hxv.
  cbn [mbind option_bind].
  destruct (incident_faces_ok u xu k0 Hxu Hk0 Hfu) as (l0&E0&Hl0).
  destruct (incident_faces_ok v xv k1 Hxv Hk1 Hfv) as (l1&E1&Hl1).
  unfold surviving_faces. rewrite E0. cbn [mbind option_bind]. rewrite E1. cbn [mbind option_bind].
  destruct (survivors_ok u v (l0 ++ l1)) as (l'&El'&Hl').
  { intros f. rewrite elem_of_app, Hl0, Hl1. intros [(h&?&_&?)|(h&?&_&?)]; eauto. }
  rewrite El'. cbn [mbind option_bind].
  destruct (some_thin_ok u v (mid (vpos xu) (vpos xv)) l') as (r&Er&Hr).
  { intros f [Hf _]%Hl'. revert Hf. rewrite elem_of_app, Hl0, Hl1. intros [(h&?&_&?)|(h&?&_&?)]; eauto. }
  rewrite Er. cbn [mbind option_bind].
  exists (if r then inr DegenerateFace else inl (mid (vpos xu) (vpos xv))), xu, xv.
  split; [done|]. split; [by exists pr|]. split; [done|]. split; [done|]. split.
  2: { intros p. destruct r; [done|]. by intros [= <-]. }
  assert (∀ f x y z w, oriented_face m f x y z → (w = x ∨ w = y ∨ w = z) ↔ ∃ h, L m h ∧ tl m h = w ∧ fc m h = Some f) as Htouch.
  { intros f x y z w Ho. pose proof Ho as Ho'. apply oriented_face_L in Ho' as (k&Hk&HLk&Fk&Tx&Ty&Tz); [|done].
    destruct (face3 m HS k f HLk Fk) as (K1&K2&G1&G2&_&_&_&_&V1&V2&V3&_). split.
    - intros [->|[->| ->]]; [exists k|exists (nx m k)|exists (pv m k)]; split_and!; try done; congruence.
    - intros (h&HLh&Hth&Fh).
      assert (corner m f w) as Hc by (apply (corner_spoke m HW); eauto).
      destruct Hc as (y0&z0&[Hc|[Hc|Hc]]);
        pose proof (face_vertices_ok m f _ _ _ HW Ho) as X1; pose proof (face_vertices_ok m f _ _ _ HW Hc) as X2;
        rewrite X1 in X2; injection X2 as <- <- <-; auto. }
  destruct r.
  - split; [by intros []|]. intros (_&_&H). exfalso.
    destruct (proj1 Hr eq_refl) as (f&x&y&z&px&py&pz&Hf&Ho&Ax&Ay&Az&Hth).
    apply Hl' in Hf as [Hf (x'&y'&z'&Ho'&Hn)].
    assert (x' = x ∧ y' = y ∧ z' = z) as (->&->&->).
    { pose proof (face_vertices_ok m f _ _ _ HW Ho) as X1. pose proof (face_vertices_ok m f _ _ _ HW Ho') as X2.
      rewrite X1 in X2. by injection X2 as <- <- <-. }
    rewrite (H f x y z px py pz) in Hth; [done|done| |done|done|done|done].
    rewrite !(Htouch f x y z) by done. apply elem_of_app in Hf as [Hf|Hf]; [left; by apply Hl0|right; by apply Hl1].
  - split; [|by eauto]. intros _. split; [by apply Hlink|]. split; [done|].
    intros f x y z px py pz Ho Hor Hn Ax Ay Az.
    destruct (thin px py pz) eqn:Eth; [|done]. exfalso.
    assert (false = true) as X; [|done]. apply Hr. exists f, x, y, z, px, py, pz.
    split; [|done]. apply Hl'. split; [|by exists x, y, z].
    rewrite elem_of_app, Hl0, Hl1. rewrite !(Htouch f x y z) in Hor by done. done.
Qed.
End edge.
End gate.
