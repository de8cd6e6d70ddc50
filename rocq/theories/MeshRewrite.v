(** rewrite_faces_from_cdt_batch (mesh_processing/boolean.rs 1609-1639) on a
    closed mesh: the new triangles fill the hole exactly. *)
From Verif Require Export MeshDefer.
Local Open Scope N_scope.

Section rewrite.
Context {P : Type}.
Implicit Types (m d : mesh P) (h k b c f g u v e t : N).

(** ** After the removal the borders are loops of one half-edge, all listed *)
Definition loops m (S : list N) : Prop :=
  ∀ b, L m b → fc m b = None → nx m b = b ∧ pv m b = b ∧ b ∈ S.

Lemma rmio_hes m h m' : remove_map_if_owner m h = Some m' → hes m' = hes m.
Proof.
  unfold remove_map_if_owner. destruct (nhes m <=? h); [by intros [= <-]|].
  destruct (getH m h) as [x|]; [|done]. cbn [mbind option_bind].
  destruct (nhes m <=? htwin x); [by intros [= <-]|].
  destruct (getH m (htwin x)) as [y|]; [|done]. cbn [mbind option_bind].
  destruct (emap m !! _) as [o|]; [|by intros [= <-]]. intros [= <-]. by destruct (o =? h).
Qed.

Lemma loops_hes m m' S : hes m' = hes m → loops m S → loops m' S.
Proof.
  intros E H b. unfold L, is_live, getH, fc, nx, pv, he. rewrite E. apply H.
Qed.

Lemma loops_app m S l : loops m S → loops m (S ++ l).
Proof. intros H b HL Hf. destruct (H b HL Hf) as (?&?&?). split_and!; try done. apply elem_of_app. by left. Qed.

Lemma loops_rem m h m' S : updH m h (with_rem true) = Some m' → loops m S → loops m' S.
Proof.
  intros [Hs ->]%updH_inv H b. unfold L, fc, nx, pv. rewrite live_putH, he_putH.
  destruct (N.eqb_spec b h); [done|]. apply H.
Qed.

Lemma spoke_loops m e m' l S : defer_spoke m e = Some (m', l) → loops m S → loops m' (S ++ l).
Proof.
  unfold defer_spoke. destruct (is_live m e); cbn [negb]; [|intros [= <- <-]; apply loops_app].
  destruct (getH m e) as [x|]; [|done]. cbn [mbind option_bind].
  destruct (getH m (htwin x)) as [t|]; [|done]. cbn [mbind option_bind].
  destruct (match hface t with Some _ => _ | None => _ end) as [[|]|]; [| |done]; cbn [mbind option_bind].
  - destruct (updH m e _) as [m1|] eqn:E; [|done]. cbn [mbind option_bind]. intros [= <- <-].
    apply updH_inv in E as [Hs ->]. intros H b. unfold L, fc, nx, pv. rewrite live_putH, he_putH.
    destruct (N.eqb_spec b e) as [->|].
    + intros _ _. split; [done|]. split; [done|]. apply elem_of_app. right. by apply elem_of_list_singleton.
    + intros HL Hf. by apply (loops_app m S [e] H).
  - destruct (if is_live m (htwin x) then _ else _) as [[m1 st]|] eqn:E; [|done]. cbn [mbind option_bind].
    destruct (remove_map_if_owner m1 e) as [m2|] eqn:E2; [|done]. cbn [mbind option_bind].
    destruct (updH m2 e _) as [m3|] eqn:E3; [|done]. cbn [mbind option_bind]. intros [= <- <-] H.
    apply loops_app. apply (loops_rem _ _ _ _ E3), (loops_hes m1); [by apply rmio_hes in E2|].
    destruct (is_live m (htwin x)); [|by injection E as <- <-].
    destruct (remove_map_if_owner m (htwin x)) as [m4|] eqn:E4; [|done]. cbn [mbind option_bind] in E.
    destruct (updH m4 _ _) as [m5|] eqn:E5; [|done]. cbn [mbind option_bind] in E.
    destruct (getH m5 _) as [y|]; [|done]. cbn [mbind option_bind] in E. injection E as <- <-.
    apply (loops_rem _ _ _ _ E5), (loops_hes m); [by apply rmio_hes in E4|done].
Qed.

Lemma updF_hes m f r m' : updF m f r = Some m' → hes m' = hes m.
Proof. unfold updF. destruct (getF m f) as [x|]; [|done]. cbn. by intros [= <-]. Qed.

Lemma face_loops m f m' st av S : defer_face m f = Some (m', st, av) → loops m S → loops m' (S ++ st).
Proof.
  unfold defer_face. destruct (nfaces m <=? f); [intros [= <- <- <-]; apply loops_app|].
  destruct (getF m f) as [fx|]; [|done]. cbn [mbind option_bind].
  destruct (frem fx); [intros [= <- <- <-]; apply loops_app|].
  destruct (getH m (fhe fx)) as [x0|]; [|done]. cbn [mbind option_bind].
  destruct (getH m (hnext x0)) as [x1|]; [|done]. cbn [mbind option_bind].
  destruct (getH m (hnext x1)) as [x2|]; [|done]. cbn [mbind option_bind].
  destruct (getH m (htwin x0)) as [t0|]; [|done]. cbn [mbind option_bind].
  destruct (getH m (htwin x1)) as [t1|]; [|done]. cbn [mbind option_bind].
  destruct (getH m (htwin x2)) as [t2|]; [|done]. cbn [mbind option_bind].
  destruct (updF m f _) as [m1|] eqn:E1; [|done]. cbn [mbind option_bind].
  destruct (defer_spoke m1 _) as [[m2 l0]|] eqn:E2; [|done]. cbn [mbind option_bind].
  destruct (defer_spoke m2 _) as [[m3 l1]|] eqn:E3; [|done]. cbn [mbind option_bind].
  destruct (defer_spoke m3 _) as [[m4 l2]|] eqn:E4; [|done]. cbn [mbind option_bind].
  destruct (updF m4 f _) as [m5|] eqn:E5; [|done]. cbn [mbind option_bind].
  intros [= <- <- <-] H. apply updF_hes in E5. apply (loops_hes m4); [done|]. rewrite !app_assoc.
  apply (spoke_loops _ _ _ _ _ E4), (spoke_loops _ _ _ _ _ E3), (spoke_loops _ _ _ _ _ E2).
  apply (loops_hes m); [by apply updF_hes in E1|done].
Qed.

Lemma loop_loops fs : ∀ m m' st av S, defer_loop m fs = Some (m', st, av) → loops m S → loops m' (S ++ st).
Proof.
  induction fs as [|f fs IH]; intros m m' st av S; cbn [defer_loop].
  { intros [= <- <- <-]. by rewrite app_nil_r. }
  destruct (defer_face m f) as [[[m1 s1] a1]|] eqn:E1; [|done]. cbn [mbind option_bind].
  destruct (defer_loop m1 fs) as [[[m2 s2] a2]|] eqn:E2; [|done]. cbn [mbind option_bind].
  intros [= <- <- <-] H. rewrite app_assoc. apply (IH _ _ _ _ _ E2), (face_loops _ _ _ _ _ _ E1), H.
Qed.

(** ** The affected vertices are corners of the removed faces *)
Lemma face_av m f m' st av : SI m None → FH m None → defer_face m f = Some (m', st, av) →
  ∀ v, v ∈ av → ∃ a b c, oriented_face m f a b c ∧ v ∈ [a; b; c].
Proof.
  intros HS HF. unfold defer_face. destruct (nfaces m <=? f); [intros [= <- <- <-] v []%not_elem_of_nil|].
  unfold getF at 1. destruct (faces m !! f) as [x|] eqn:Hx; [|done]. cbn [mbind option_bind].
  destruct (frem x) eqn:Hr; [intros [= <- <- <-] v []%not_elem_of_nil|].
  destruct (HF f x Hx Hr ltac:(done)) as (HL0&Hf0&Hcyc).
  set (h0 := fhe x) in *.
  destruct (face3 m HS h0 f HL0 Hf0) as (HL1&HL2&Hf1&Hf2&E12&E20&Ep1&Ep2&T1&T2&T3&_).
  rewrite (L_getH _ _ HL0). cbn [mbind option_bind]. fold (nx m h0).
  rewrite (L_getH _ _ HL1). cbn [mbind option_bind]. fold (nx m (nx m h0)). rewrite E12.
  rewrite (L_getH _ _ HL2). cbn [mbind option_bind].
  fold (tw m h0) (tw m (nx m h0)) (tw m (pv m h0)).
  rewrite !L_getH by (by apply (si_tw _ _ HS)). cbn [mbind option_bind].
  fold (hd m (tw m h0)) (hd m (tw m (nx m h0))) (hd m (tw m (pv m h0))).
  fold (tl m h0) (tl m (nx m h0)) (tl m (pv m h0)).
  destruct (updF m f _) as [m1|] eqn:E1; [|done]. cbn [mbind option_bind].
  destruct (defer_spoke m1 _) as [[m2 l0]|] eqn:E2; [|done]. cbn [mbind option_bind].
  destruct (defer_spoke m2 _) as [[m3 l1]|] eqn:E3; [|done]. cbn [mbind option_bind].
  destruct (defer_spoke m3 _) as [[m4 l2]|] eqn:E4; [|done]. cbn [mbind option_bind].
  destruct (updF m4 f _) as [m5|] eqn:E5; [|done]. cbn [mbind option_bind].
  intros [= <- <- <-] v Hv. exists (tl m h0), (tl m (nx m h0)), (tl m (pv m h0)). split; [|done].
  apply oriented_face_L; [done|]. exists h0. split_and!; try done.
  unfold h0. rewrite Hx. destruct x; simpl in *; by subst.
Qed.

Lemma loop_av fs : ∀ m S A m' st av, QInv m S A → defer_loop m fs = Some (m', st, av) →
  ∀ v, v ∈ av → ∃ f a b c, f ∈ fs ∧ oriented_face m f a b c ∧ v ∈ [a; b; c].
Proof.
  induction fs as [|f fs IH]; intros m S A m' st av HQ; cbn [defer_loop].
  { intros [= <- <- <-] v []%not_elem_of_nil. }
  destruct (defer_loop_ok [f] m S A HQ) as (m1' & st1 & av1 & E1 & HQ1 & _ & _ & _ & _ & _ & Ho).
  cbn [defer_loop] in E1.
  destruct (defer_face m f) as [[[m1 s1] a1]|] eqn:Ef; [|done]. cbn [mbind option_bind] in *.
  injection E1 as <- <- <-. rewrite !app_nil_r in HQ1.
  destruct (defer_loop m1 fs) as [[[m2 s2] a2]|] eqn:E2; [|done]. cbn [mbind option_bind].
  intros [= <- <- <-] v [Hv|Hv]%elem_of_app.
  - destruct (face_av _ _ _ _ _ (q_si _ _ _ HQ) (q_fh _ _ _ HQ) Ef v Hv) as (a&b&c&?&?).
    exists f, a, b, c. split; [by left|done].
  - destruct (IH _ _ _ _ _ _ HQ1 E2 v Hv) as (g&a&b&c&Hg&Hog&?). exists g, a, b, c.
    split; [by right|]. split; [|done]. by apply Ho in Hog as [? _].
Qed.

(** ** Pasting triangles whose sides are all free *)
Definition sides3 (t : N * N * N) : list (N * N) := [(t.1.1, t.1.2); (t.1.2, t.2); (t.2, t.1.1)].
Definition corners3 (t : N * N * N) : list N := [t.1.1; t.1.2; t.2].

Lemma side_used_sides m u v : side_used m u v ↔ ∃ g a b c, oriented_face m g a b c ∧ (u, v) ∈ sides3 (a, b, c).
Proof.
  unfold side_used, cycle_face, sides3. cbn [fst snd]. split.
  - intros (f&w&[H|[H|H]]); exists f; eexists _, _, _; (split; [exact H|]); set_solver.
  - intros (g&a&b&c&H&Hin).
    apply elem_of_cons in Hin as [[= -> ->]|Hin]; [exists g, c; by left|].
    apply elem_of_cons in Hin as [[= -> ->]|Hin]; [exists g, a; right; by right|].
    apply elem_of_list_singleton in Hin as [= -> ->]. exists g, b. right. by left.
Qed.

Definition faces_plus m m' (ts : list (N * N * N)) : Prop := ∀ g a b c,
  oriented_face m' g a b c ↔
  oriented_face m g a b c ∨ ∃ i : nat, g = nfaces m + N.of_nat i ∧ ts !! i = Some (a, b, c).

Lemma oriented_lt m g a b c : SI m None → oriented_face m g a b c → g < nfaces m.
Proof. intros HS (e0&e1&e2&x0&x1&x2&Hf&_). apply (si_fb _ _ HS). eauto. Qed.

Lemma paste_ok (ts : list (N * N * N)) : ∀ d S A, DInv d S A →
  Forall (λ t : N * N * N, t.1.1 ≠ t.1.2 ∧ t.1.2 ≠ t.2 ∧ t.2 ≠ t.1.1 ∧
               t.1.1 < nverts d ∧ t.1.2 < nverts d ∧ t.2 < nverts d) ts →
  NoDup (flat_map sides3 ts) → (∀ u v, (u, v) ∈ flat_map sides3 ts → ¬ side_used d u v) →
  nhes d + 6 * N.of_nat (length ts) ≤ umax → nfaces d + N.of_nat (length ts) ≤ umax →
  ∃ d' fs st, add_loop d ts = Some (d', fs, st, flat_map corners3 ts) ∧
    DInv d' (S ++ st) (A ++ flat_map corners3 ts) ∧
    nverts d' = nverts d ∧ verts d' = verts d ∧ nfaces d' = nfaces d + N.of_nat (length ts) ∧
    faces_plus d d' ts ∧
    (∀ h, L d h → L d' h ∧ tl d' h = tl d h ∧ tw d' h = tw d h) ∧
    (∀ x, L d' x → fc d' x = None → x ∉ st → L d x ∧ fc d x = None).
Proof.
  induction ts as [|[[a b] c] ts IH]; intros d S A HD Hts Hnd Hfree Hn Hf; cbn [add_loop].
  { exists d, [], []. cbn. rewrite !app_nil_r. split_and!; try done; [by rewrite N.add_0_r|].
    intros g a b c. split; [by left|]. intros [?|(i&_&?)]; [done|]. by rewrite lookup_nil in *. }
  apply Forall_cons in Hts as [(N1&N2&N3&V1&V2&V3) Hts]. cbn [fst snd] in *.
  cbn [flat_map] in Hnd, Hfree. apply NoDup_app in Hnd as (_&Hdis&Hnd).
  cbn [length] in Hn, Hf.
  pose proof HD as [HS HF HR _ _ _].
  assert (∀ u v, (u, v) ∈ sides3 (a, b, c) → free d u v) as Hfr.
  { intros u v Hin. apply free_side_q; [done..|]. apply Hfree, elem_of_app. by left. }
  assert (free d a b) as F1 by (apply Hfr; unfold sides3; cbn; set_solver).
  assert (free d b c) as F2 by (apply Hfr; unfold sides3; cbn; set_solver).
  assert (free d c a) as F3 by (apply Hfr; unfold sides3; cbn; set_solver).
  destruct (no_weld_oriented_ok d a b c) as (d1 & f & s1 & E1 & HP); try done; try lia.
  assert (add_triangle_no_weld d a b c = Some (d1, f, s1, [a; b; c])) as ->.
  { unfold add_triangle_no_weld.
    destruct (free3_ok d a b b c c a HS) as (r1 & -> & H1). cbn [mbind option_bind].
    destruct (free3_ok d a c c b b a HS) as (r2 & -> & _). cbn [mbind option_bind].
    rewrite (proj2 H1) by done. by rewrite E1. }
  cbn [mbind option_bind].
  pose proof (DInv_step _ _ _ _ _ _ _ _ _ HD HP V1 V2 V3) as HD1.
  destruct HP as [_ _ _ Pf Pnf Pnh Pnv Pv Pface Prest Pold Pnew Ptw Pint Pbd]. subst f.
  destruct (IH d1 (S ++ s1) (A ++ [a; b; c]) HD1) as (d2 & fs & s2 & -> & HD2 & M1 & M2 & M3 & M4 & M5 & M6); try done.
  { by rewrite Pnv. }
  { intros u v Hin Hu. apply side_used_sides in Hu as (g&a'&b'&c'&Ho&Hs).
    destruct (decide (g = nfaces d)) as [->|Hg].
    - destruct (oriented_fun d1 _ _ _ _ _ _ _ (di_si _ _ _ HD1) Ho Pface) as (->&->&->).
      by apply (Hdis (u, v)).
    - apply Prest in Ho; [|done]. apply (Hfree u v); [apply elem_of_app; by right|].
      apply side_used_sides. eauto 10. }
  { lia. } { lia. }
  cbn [mbind option_bind].
  eexists d2, _, (s1 ++ s2). split; [cbn [flat_map]; done|].
  change (flat_map corners3 ((a, b, c) :: ts)) with ([a; b; c] ++ flat_map corners3 ts).
  rewrite !app_assoc. split; [done|].
  split; [congruence|]. split; [congruence|]. split; [rewrite M3, Pnf; cbn [length]; lia|].
  split; [|split].
  - intros g a' b' c'. rewrite (M4 g a' b' c'). split.
    + intros [Ho|(i&->&Hi)].
      * destruct (decide (g = nfaces d)) as [->|Hg].
        { right. exists 0%nat. split; [lia|]. cbn.
          destruct (oriented_fun d1 _ _ _ _ _ _ _ (di_si _ _ _ HD1) Ho Pface) as (->&->&->). done. }
        left. by apply Prest.
      * right. exists (Datatypes.S i). rewrite Pnf. split; [lia|done].
    + intros [Ho|(i&->&Hi)].
      * left. apply Prest; [|done]. apply (oriented_lt d) in Ho; [|done]. lia.
      * destruct i as [|i]; cbn in Hi.
        -- injection Hi as <- <- <-. left. by rewrite N.add_0_r.
        -- right. exists i. rewrite Pnf. split; [lia|done].
  - intros h HLh. destruct (Pold h HLh) as [H1 H2]. destruct (M5 h H1) as (?&?&?).
    split; [done|]. split; [congruence|]. by rewrite <- (Ptw h HLh).
  - intros x HLx Hfx [Hx1 Hx2]%not_elem_of_app. destruct (M6 x HLx Hfx Hx2) as [H1 H2].
    by destruct (Pbd x H1 H2 Hx1) as (?&?&_).
Qed.

(** ** The whole rewrite *)
Definition shut m : Prop := ∀ u v, side_used m u v → side_used m v u.

Lemma shut_no_border m b : WF m → shut m → L m b → fc m b ≠ None.
Proof.
  intros HW HC HL Hb. pose proof (wf_si _ HW) as HS.
  destruct (si_tw _ _ HS b HL) as (HLt&Ett&_).
  destruct (fc m (tw m b)) as [g|] eqn:Eg; [|by apply (si_out _ _ HS b HL Hb)].
  assert (side_used m (hd m b) (tl m b)) as Hu.
  { exists g, (hd m (nx m (tw m b))). pose proof (cycle_face_side_q m g (tw m b) HS (wf_fh _ HW) HLt Eg) as H.
    unfold tl in H at 1. rewrite Ett in H. done. }
  apply HC in Hu. apply (free_side_q m (tl m b) (hd m b) HS (wf_fh _ HW)) in Hu; [done|].
  intros h Hh. assert (emap m !! (tl m b, hd m b) = Some b) by (by apply (si_em _ _ HS)). congruence.
Qed.

Theorem rewrite_ok debug (order : list N → list N) m jobs cdts (fs : list N) (ts : list (N * N * N)) :
  (∀ l v, v ∈ order l ↔ v ∈ l) → WF m → shut m →
  (debug = true → ∀ h, h < nhes m → tw m h < nhes m) →
  rewrite_jobs jobs cdts = Some (fs, ts) →
  Forall (λ t : N * N * N, t.1.1 ≠ t.1.2 ∧ t.1.2 ≠ t.2 ∧ t.2 ≠ t.1.1 ∧
               t.1.1 < nverts m ∧ t.1.2 < nverts m ∧ t.2 < nverts m) ts →
  nhes m + 6 * N.of_nat (length ts) ≤ umax → nfaces m + N.of_nat (length ts) ≤ umax →
  NoDup (flat_map sides3 ts) →
  (∀ u v g a b c, (u, v) ∈ flat_map sides3 ts → oriented_face m g a b c → g ∉ fs → (u, v) ∉ sides3 (a, b, c)) →
  (∀ f a b c u v, f ∈ fs → oriented_face m f a b c → (u, v) ∈ sides3 (a, b, c) →
     (∃ g a' b' c', g ∉ fs ∧ oriented_face m g a' b' c' ∧ (v, u) ∈ sides3 (a', b', c')) →
     (u, v) ∈ flat_map sides3 ts) →
  (∀ f a b c v, f ∈ fs → oriented_face m f a b c → v ∈ [a; b; c] → v ∈ flat_map corners3 ts) →
  ∃ m', rewrite_faces_from_cdt_batch order debug m jobs cdts = Some m' ∧ WF m' ∧
    (∀ g a b c, oriented_face m' g a b c ↔ (oriented_face m g a b c ∧ g ∉ fs) ∨
       ∃ i : nat, g = nfaces m + N.of_nat i ∧ ts !! i = Some (a, b, c)) ∧
    same_positions m m' ∧ nfaces m' = nfaces m + N.of_nat (length ts).
Proof.
  intros Hord HW HC Hdb Hj Hts Hn Hf Hnd Hfree Hside Hcor.
  unfold rewrite_faces_from_cdt_batch. rewrite Hj. cbn [mbind option_bind fst snd].
  unfold remove_triangles_deferred.
  pose proof (QInv_init m HW) as HQ0.
  destruct (defer_loop_ok fs m [] [] HQ0) as (m1 & st & av & E1 & HQ & N1 & N2 & N3 & N4 & N5 & Ho).
  rewrite E1. cbn [mbind option_bind]. cbn [app] in HQ. pose proof HQ as [HS HF HU HA Hanch].
  assert ((if debug then defer_check m1 (range (nhes m1)) else Some tt) = Some tt) as ->.
  { destruct debug; [|done]. apply defer_check_ok; [done| |intros h; apply range_spec].
    intros h. rewrite N4, N5. by apply Hdb. }
  cbn [mbind option_bind].
  assert (loops m1 st) as HL1.
  { apply (loop_loops fs m m1 st av [] E1). intros b HLb Hb. by destruct (shut_no_border m b HW HC HLb). }
  assert (DInv m1 st av) as HD1.
  { split; try done.
    - intros b HLb Hb. destruct (HL1 b HLb Hb) as (En & Ep & _). rewrite !En, !Ep. done.
    - intros b c HLb Hb Hfan [Hs|Hs]; exfalso; apply Hs; [by apply HL1|].
      destruct (fan_end m1 HS b c HLb Hb Hfan) as (HLc & Hc & _). by apply HL1. }
  assert (∀ u v, (u, v) ∈ flat_map sides3 ts → ¬ side_used m1 u v) as Hfree1.
  { intros u v Hin Hu. apply side_used_sides in Hu as (g&a&b&c&Hog&Hs). apply Ho in Hog as [Hog Hg].
    by apply (Hfree u v g a b c). }
  destruct (paste_ok ts m1 st av HD1) as (d & nf & st2 & E2 & HD2 & M1 & M2 & M3 & M4 & M5 & M6); try done.
  { by rewrite N2. } { by rewrite N4. } { by rewrite N1. }
  unfold add_triangles_deferred. rewrite E2. cbn [mbind option_bind].
  pose proof HD2 as [HS2 HF2 HR2 _ HA2 Hanch2].
  assert (∀ b, L d b → fc d b = None → b ∈ st2) as Hall.
  { intros b HLb Hb. destruct (decide (b ∈ st2)) as [|Hni]; [done|exfalso].
    destruct (M6 b HLb Hb Hni) as [HLb1 Hb1].
    destruct (M5 b HLb1) as (_&Etl&Etw).
    destruct (si_tw _ _ HS b HLb1) as (HLt&Ett&_).
    destruct (M5 _ HLt) as (_&Etl'&_).
    assert (hd d b = hd m1 b) as Ehd.
    { unfold tl in Etl'. rewrite Ett in Etl'.
      destruct (si_tw _ _ HS2 b HLb) as (_&Ett2&_). rewrite Etw in Ett2. congruence. }
    destruct (fc m1 (tw m1 b)) as [g|] eqn:Eg; [|by apply (si_out _ _ HS b HLb1 Hb1)].
    assert (side_used m1 (hd m1 b) (tl m1 b)) as Hu1.
    { exists g, (hd m1 (nx m1 (tw m1 b))). pose proof (cycle_face_side_q m1 g (tw m1 b) HS HF HLt Eg) as H.
      unfold tl in H at 1. rewrite Ett in H. done. }
    apply side_used_sides in Hu1 as (g1&a1&b1&c1&Ho1&Hs1). apply Ho in Ho1 as [Ho1 Hg1].
    assert (side_used m (tl m1 b) (hd m1 b)) as Hu.
    { apply HC. apply side_used_sides. eauto 10. }
    apply side_used_sides in Hu as (f&a&b'&c&Hof&Hsf).
    assert (side_used d (tl m1 b) (hd m1 b)) as Hud.
    { apply side_used_sides. destruct (decide (f ∈ fs)) as [Hin|Hni'].
      - assert ((tl m1 b, hd m1 b) ∈ flat_map sides3 ts) as Hin'.
        { apply (Hside f a b' c); try done. eauto 10. }
        apply elem_of_list_In, in_flat_map in Hin' as ([[ta tb] tc]&Ht&Hs).
        apply elem_of_list_In, elem_of_list_lookup in Ht as [i Hi].
        exists (nfaces m1 + N.of_nat i), ta, tb, tc. split; [|by apply elem_of_list_In].
        apply M4. right. eauto.
      - exists f, a, b', c. split; [|done]. apply M4. left. by apply Ho. }
    apply (free_side_q d _ _ HS2 HF2) in Hud; [done|]. intros h Hh.
    assert (emap d !! (tl m1 b, hd m1 b) = Some b).
    { apply (si_em _ _ HS2). split; [done|]. split; [done|]. fold (tl d b). congruence. }
    congruence. }
  assert (undamaged d st2) as HU2.
  { intros b c HLb Hb _ Hni. by destruct (Hni (Hall b HLb Hb)). }
  assert (∀ v, v ∈ av → v ∈ flat_map corners3 ts) as Hav.
  { intros v Hv. destruct (loop_av fs _ _ _ _ _ _ HQ0 E1 v Hv) as (f&a&b&c&?&?&?). by apply (Hcor f a b c). }
  destruct (repair_ok d st2 (flat_map corners3 ts) (order (flat_map corners3 ts)) HS2 HF2 HU2)
    as (m2 & m3 & E3 & E4 & HW3 & Hsf & Hp & Hnf & _); auto.
  { intros v Hv. apply HA2, elem_of_app. by right. }
  { intros v x Hx Hv. apply Hanch2; [done|]. apply not_elem_of_app. auto. }
  assert ((match st2 with [] => Some d | _ => weld_border_components_from d st2 end) = Some m2) as ->.
  { destruct st2; [|done]. rewrite <- E3. 
    unfold weld_border_components_from. done. }
  cbn [mbind option_bind].
  exists m3. split.
  { destruct (flat_map corners3 ts) eqn:Ec; [|by unfold fix_vertices_outgoing_for; rewrite E4].
    cbn [mbind option_bind]. 
    assert (order [] = []) as Eo.
    { destruct (order []) as [|v l] eqn:Eo; [done|]. exfalso.
      assert (v ∈ @nil N) as []%not_elem_of_nil. apply Hord. rewrite Eo. by left. }
    rewrite Eo in E4. cbn in E4. by injection E4 as ->. }
  split; [done|]. split; [|split].
  - intros g a b c. rewrite (Hsf g a b c), (M4 g a b c), (Ho g a b c), N1. done.
  - apply (same_positions_trans _ d); [|done]. split; [congruence|]. intros v. by rewrite M2, N3.
  - rewrite Hnf, M3, N1. done.
Qed.
End rewrite.
