(** Vertex lookup and insertion (mesh/core.rs get_or_insert_vertex, mesh/spatial_hash.rs): C22, C23, C64. *)
From Coq Require Import Reals Qreals Lra.
From Flocq Require Import Core.
From Verif Require Import F64Rat HashProofs HashSpec.
Open Scope Z_scope.
Local Opaque flt fabs fmul fsub fdiv fzero floor_sat_i64 pack_key3 offsets default_cell EPS f64_from_bits fone f1em6 Q_to_f64.

(** ** The rational scalar *)
Notation rthr := (Q_to_f64 (1 # 1000000)).
Notation rfar := (far rat_sub Q_to_f64 rthr).
Notation rapx := (apx rat_sub Q_to_f64 rthr).
Notation reqb := (HashProofs.eqb rat_sub rat_is_zero).
Lemma rfar_iff (a b : Q) : rfar a b = false ↔ (Rabs (val (Q_to_f64 (a - b))) <= val rthr)%R.
Proof.
  unfold far, fgt. rewrite (Q_to_f64_Qeq (rat_sub a b) (a - b)) by apply Qred_correct.
  destruct (fabs_fin (Q_to_f64 (a - b)) (proj1 (Q_to_f64_spec _))) as [F V]. rewrite <- V. apply flt_f; [apply Q_to_f64_spec|exact F].
Qed.
Lemma Q2R_abs q : Q2R (Qabs q) = Rabs (Q2R q).
Proof.
  apply Qabs_case; intros H; apply Qle_Rle in H; rewrite RMicromega.Q2R_0 in H.
  - rewrite Rabs_right by lra. reflexivity.
  - rewrite Rabs_left1 by lra. apply Q2R_opp.
Qed.
Lemma rthr_pos : (0 <= val rthr)%R.
Proof.
  rewrite <- val_fzero. apply (proj1 (fle_t fzero rthr fin_fzero (proj1 (Q_to_f64_spec _)))). vm_compute. reflexivity.
Qed.
Lemma rfar_close (a b : Q) : (Qabs (a - b) <= 1 # 1000000)%Q → rfar a b = false.
Proof.
  intros H. apply rfar_iff. rewrite <- (Rabs_right (val rthr)) by (apply Rle_ge, rthr_pos). apply to_f64_mono.
  rewrite <- !Q2R_abs. apply Qle_Rle. exact H.
Qed.
Definition bound : Q := ((1 # 1000000) * (1 + (1 # 2 ^ 52)))%Q.
Lemma rthr_next : ∃ x, fin x ∧ (val rthr < val x)%R ∧ (0 <= val x <= Q2R bound)%R.
Proof.
  destruct (f64_to_Q (f64_next_up rthr)) as [q|] eqn:E; [|exfalso; assert (H : match f64_to_Q (f64_next_up rthr) with None => False | _ => True end) by (vm_compute; exact I); rewrite E in H; exact H].
  exists (f64_next_up rthr). destruct (to_Q_val _ _ E) as [F V]. split; [exact F|].
  assert (H1 : (val rthr < val (f64_next_up rthr))%R) by (apply (proj1 (flt_t _ _ (proj1 (Q_to_f64_spec _)) F)); vm_compute; reflexivity).
  split; [exact H1|]. split; [pose proof rthr_pos; lra|]. rewrite <- V. apply Qle_Rle.
  assert (H2 : match f64_to_Q (f64_next_up rthr) with Some q => Qle_bool q bound = true | None => True end) by (vm_compute; reflexivity). rewrite E in H2. apply Qle_bool_iff. exact H2.
Qed.
Lemma rfar_near (a b : Q) : rfar a b = false → (Qabs (a - b) < bound)%Q.
Proof.
  intros H. apply rfar_iff in H. apply Rlt_Qlt. rewrite Q2R_abs. apply Rnot_le_lt. intros Hl.
  destruct rthr_next as (x & F & H1 & H2 & H3). pose proof (to_f64_ge x (a - b) F). lra.
Qed.
Lemma iz_eq (a b : Q) : rat_is_zero (rat_sub a b) = true → (a == b)%Q.
Proof.
  unfold rat_is_zero, rat_sub. intros H. apply Z.eqb_eq in H. assert (E : (Qred (a - b) == 0)%Q) by (unfold Qeq; rewrite H; reflexivity).
  rewrite Qred_correct in E. setoid_replace a with (a - b + b)%Q by ring. rewrite E. ring.
Qed.
Lemma rapx_near v p : length v = length p → rapx v p = true → nearly_within_threshold v p.
Proof.
  revert p. induction v as [|a v IH]; intros [|b p] H; [constructor|discriminate H|discriminate H|]. cbn [length] in H. apply Nat.succ_inj in H. cbn [apx HashProofs.eqb]. intros H1. destruct (rfar a b) eqn:E; [discriminate H1|]. constructor; [apply rfar_near, E|apply IH; assumption].
Qed.
Lemma reqb_near v p : length v = length p → reqb v p = true → nearly_within_threshold v p.
Proof.
  revert p. induction v as [|a v IH]; intros [|b p] H; [constructor|discriminate H|discriminate H|]. cbn [length] in H. apply Nat.succ_inj in H. cbn [apx HashProofs.eqb]. intros H1. destruct (rat_is_zero (rat_sub a b)) eqn:E; cbn [negb] in H1; [|discriminate H1]. constructor; [|apply IH; assumption].
  apply iz_eq in E. setoid_replace (a - b)%Q with 0%Q by (rewrite E; ring). reflexivity.
Qed.
Lemma rapx_refl p : rapx p p = true.
Proof.
  induction p as [|a p IH]; [reflexivity|]. cbn. rewrite rfar_close; [exact IH|]. setoid_replace (a - a)%Q with 0%Q by ring. discriminate.
Qed.
Lemma rapx_close v p : within_threshold v p → rapx v p = true.
Proof. induction 1 as [|a b v p H _ IH]; [reflexivity|]. cbn. rewrite rfar_close; assumption. Qed.
Lemma rkey inv a b : (a == b)%Q → floor_sat_i64 (fmul (Q_to_f64 a) inv) = floor_sat_i64 (fmul (Q_to_f64 b) inv).
Proof. intros H. rewrite (Q_to_f64_Qeq a b H). reflexivity. Qed.
Lemma rsub_eq v a b : (a == b)%Q → rat_sub v a = rat_sub v b.
Proof. intros H. unfold rat_sub. apply Qred_complete. rewrite H. reflexivity. Qed.
Lemma rfar_eq v a b : (a == b)%Q → rfar v a = rfar v b.
Proof. intros H. unfold far. rewrite (rsub_eq v a b H). reflexivity. Qed.
Lemma riz_eq v a b : (a == b)%Q → rat_is_zero (rat_sub v a) = rat_is_zero (rat_sub v b).
Proof. intros H. rewrite (rsub_eq v a b H). reflexivity. Qed.
Notation rat_run := (hrun rat_scalar (new_mesh rat_scalar) tt).
Notation lookup m p := (get_or_insert_vertex rat_scalar m tt p).

(** vertices are positions that were passed in *)
Lemma run_verts {T} (K : scalar unit T) ops m s m' l : hrun K m tt ops = Ok (s, (m', l)) →
  (∀ m o m1 a s, hstep K m tt o = Ok (s, (m1, a)) → m1 = m ∨ hverts m1 = hverts m ++ [hop_pos o]) →
  ∀ v, In v (hverts m') → In v (hverts m) ∨ ∃ o, In o ops ∧ hop_pos o = v.
Proof.
  intros H Hs. revert m l H. induction ops as [|o ops IH]; cbn; intros m l.
  - intros [= <- <- <-]. auto.
  - destruct (hstep K m tt o) as [[[] [m1 a]]| |] eqn:E; cbn; [|discriminate..].
    destruct (hrun K m1 tt ops) as [[[] [m2 l2]]| |] eqn:E2; cbn; [|discriminate..]. intros [= <- <- <-] v Hv.
    destruct (IH m1 l2 E2 v Hv) as [H|(o' & H1 & H2)]; [|right; eauto].
    destruct (Hs _ _ _ _ _ E) as [->|Ev]; [left; exact H|]. rewrite Ev in H. apply in_app_or in H. destruct H as [H|[<-|[]]]; [left; exact H|right; eauto].
Qed.
Lemma step_verts {T} (K : scalar unit T) m o m1 a s : hstep K m tt o = Ok (s, (m1, a)) → m1 = m ∨ hverts m1 = hverts m ++ [hop_pos o].
Proof.
  destruct o as [p|p]; cbn [hstep hop_pos].
  - unfold get_or_insert_vertex. destruct (position_to_packed_key K m tt p) as [[[] k]| |]; cbn [obind]; [|discriminate..].
    destruct (scan_key _ m tt k p) as [[[] [j|]]| |]; cbn [obind]; [|destruct (position_to_hash_key K m tt p) as [[[] k']| |]; cbn [obind]; [|discriminate..]|discriminate..].
    + intros [= <- <- <-]. auto.
    + destruct (scan_neighbours K m tt k' offsets p) as [[[] [j|]]| |]; cbn [obind]; [| |discriminate..]; intros [= <- <- <-]; auto.
  - unfold add_vertex. destruct (position_to_packed_key K m tt p) as [[[] k]| |]; cbn [obind]; [|discriminate..]. intros [= <- <- <-]. auto.
Qed.
Lemma dims {T} (K : scalar unit T) N ops s m l i v : Forall (λ o, length (hop_pos o) = N) ops → hrun K (new_mesh K) tt ops = Ok (s, (m, l)) →
  nth_error (hverts m) i = Some v → length v = N.
Proof.
  intros HN H Hv. destruct (run_verts K ops _ s m l H (step_verts K) v (nth_error_In _ _ Hv)) as [[]|(o & Ho & <-)]. rewrite Forall_forall in HN. auto.
Qed.

Lemma F2_length {A B} (P : A → B → Prop) l k : Forall2 P l k → length l = length k.
Proof. induction 1; cbn; congruence. Qed.
(** ** C22 and C64: a position that was passed in before is found again: no vertex is
    created, nothing panics, and the vertex returned is within the threshold *)
Theorem C64_no_duplicates N ops m answers o p :
  Forall (λ o, length (hop_pos o) = N) ops → rat_run ops = Ok (tt, (m, answers)) →
  In o ops → same_position p (hop_pos o) →
  ∃ i v, lookup m p = Ok (tt, (m, (i, true))) ∧ nth_error (hverts m) i = Some v ∧ nearly_within_threshold v p.
Proof.
  intros HN H Ho Hp.
  destruct (reinsert rat_scalar Q_to_f64 rat_sub rat_is_zero Q_to_f64 rthr (λ _ _, eq_refl) (λ _ _ _, eq_refl) (λ _ _, eq_refl) (λ _ _, eq_refl) eq_refl
    rapx_refl Qeq rkey rfar_eq riz_eq ops tt m answers o p H Ho Hp) as (i & v & E & Hv & Hb).
  exists i, v. split; [exact E|]. split; [exact Hv|].
  assert (L : length v = length p).
  { rewrite (dims _ N ops tt m answers i v HN H Hv). rewrite (F2_length _ _ _ Hp). rewrite Forall_forall in HN. symmetry. auto. }
  destruct Hb as [Hb|Hb]; [apply rapx_near|apply reqb_near]; assumption.
Qed.
(** Every answer is an existing vertex near the position, with the mesh unchanged, or
    a new vertex at exactly this position, appended at the end. *)
Theorem C64_answers N ops m answers p m' i b :
  Forall (λ o, length (hop_pos o) = N) ops → rat_run ops = Ok (tt, (m, answers)) → length p = N →
  lookup m p = Ok (tt, (m', (i, b))) →
  (b = true ∧ m' = m ∧ ∃ v, nth_error (hverts m) i = Some v ∧ nearly_within_threshold v p) ∨
  (b = false ∧ i = length (hverts m) ∧ hverts m' = hverts m ++ [p]).
Proof.
  intros HN H Hp Hl.
  destruct (run_good rat_scalar Q_to_f64 rat_sub rat_is_zero Q_to_f64 rthr (λ _ _, eq_refl) (λ _ _ _, eq_refl) (λ _ _, eq_refl) (λ _ _, eq_refl) eq_refl
    rapx_refl ops _ tt m answers (new_good _ _) H) as (G & _ & _).
  destruct (step_good rat_scalar Q_to_f64 rat_sub rat_is_zero Q_to_f64 rthr (λ _ _, eq_refl) (λ _ _ _, eq_refl) (λ _ _, eq_refl) (λ _ _, eq_refl) eq_refl
    rapx_refl m (GetOrInsert p) m' (i, b) tt G Hl) as (_ & _ & _ & _ & [(E1 & E2 & v & Hv & Hb)|(E1 & E2 & E3 & _)]); cbn [fst snd hop_pos] in *.
  - left. split; [exact E1|]. split; [exact E2|]. exists v. split; [exact Hv|]. assert (L : length v = length p) by (rewrite (dims _ N ops tt m answers i v HN H Hv); congruence).
    destruct Hb as [Hb|Hb]; [apply rapx_near|apply reqb_near]; assumption.
  - right. auto.
Qed.
(** After a history of get_or_insert_vertex calls no two vertices have the same position. *)
Theorem C64_distinct ps m answers i j v w :
  rat_run (map GetOrInsert ps) = Ok (tt, (m, answers)) → i ≠ j →
  nth_error (hverts m) i = Some v → nth_error (hverts m) j = Some w → ¬ same_position v w.
Proof.
  intros H.
  assert (HF : Forall (λ o : hop Q, ∃ p, o = GetOrInsert p) (map GetOrInsert ps)) by (apply Forall_forall; intros o Ho; apply in_map_iff in Ho; destruct Ho as (p & <- & _); eauto).
  pose proof (run_distinct rat_scalar Q_to_f64 rat_sub rat_is_zero Q_to_f64 rthr (λ _ _, eq_refl) (λ _ _ _, eq_refl) (λ _ _, eq_refl) (λ _ _, eq_refl) eq_refl
    rapx_refl Qeq rkey rfar_eq (map GetOrInsert ps) _ tt m answers (new_good _ _) HF H ltac:(intros [|?] ? ? ? _ [=])) as D.
  assert (S : ∀ a b : list Q, same_position a b → same_position b a) by (induction 1; constructor; [symmetry; assumption|assumption]).
  intros Hij Hi Hj E. destruct (Nat.lt_gt_cases i j) as [C _]. destruct (C Hij) as [L|L].
  - exact (D i j v w L Hi Hj (S _ _ E)).
  - exact (D j i w v L Hj Hi E).
Qed.
(** Nothing panics as long as coordinates stay below 10^12. *)
Lemma range_coord N (p : list rat) i : (∀ c, In c p → (Qabs c <= inject_Z (10 ^ 12))%Q) → length p = N →
  ∃ k, coord (T := rat) Q_to_f64 (hinv (new_mesh rat_scalar)) p i = Some k ∧ i64_min < k < i64_max.
Proof.
  intros Hc _. unfold coord. set (inv := hinv (new_mesh rat_scalar)).
  match goal with |- context [fmul ?y _] => set (x := y) end.
  assert (Fx : fin x ∧ (Rabs (val x) <= IZR (10 ^ 12))%R).
  { unfold x. destruct (nth_error p i) as [c|] eqn:E.
    - split; [apply Q_to_f64_spec|]. eapply Rle_trans; [apply to_f64_le|]. rewrite <- Q2R_abs. apply nth_error_In in E. apply Hc, Qle_Rle in E.
      eapply Rle_trans; [exact E|]. unfold Q2R, inject_Z. cbn [Qnum Qden]. rewrite Rinv_1, Rmult_1_r. lra.
    - split; [apply fin_fzero|]. rewrite val_fzero, Rabs_R0. apply IZR_le. lia. }
  assert (Fi : fin inv ∧ (0 <= val inv <= IZR (2 ^ 21))%R).
  { assert (C : match f64_to_Q inv with Some q => Qle_bool 0 q && Qle_bool q (inject_Z (2 ^ 21)) = true | None => False end) by (vm_compute; reflexivity).
    destruct (f64_to_Q inv) as [q|] eqn:E; [|contradiction]. destruct (to_Q_val _ _ E) as [F V]. split; [exact F|]. rewrite <- V.
    apply andb_prop in C. destruct C as [C1 C2]. apply Qle_bool_iff, Qle_Rle in C1, C2. rewrite RMicromega.Q2R_0 in C1. split; [exact C1|].
    eapply Rle_trans; [exact C2|]. unfold Q2R, inject_Z. cbn [Qnum Qden]. rewrite Rinv_1, Rmult_1_r. lra. }
  clearbody inv x. destruct Fx as [Fx Bx], Fi as [Fi Bi].
  assert (B : (Rabs (val x * val inv) <= bpow radix2 62)%R).
  { rewrite Rabs_mult, (Rabs_right (val inv)) by lra. apply Rle_trans with (IZR (10 ^ 12) * IZR (2 ^ 21))%R; [apply Rmult_le_compat; try apply Rabs_pos; lra|].
    rewrite <- mult_IZR. change (bpow radix2 62) with (IZR (2 ^ 62)). apply IZR_le. lia. }
  assert (R62 : rnd (bpow radix2 62) = bpow radix2 62) by (apply rnd_format, generic_format_bpow; cbn; lia).
  assert (RB : (Rabs (rnd (val x * val inv)) <= bpow radix2 62)%R).
  { apply Rabs_le_inv in B. apply Rabs_le. split; [rewrite <- R62, <- rnd_opp|rewrite <- R62]; apply rnd_le; lra. }
  destruct (fmul_spec x inv Fx Fi) as [[F V]|(s & _ & _ & H)].
  - rewrite <- V in RB. apply Rabs_le_inv in RB. change (bpow radix2 62) with (IZR (2 ^ 62)) in RB. rewrite <- opp_IZR in RB.
    exists (Zfloor (val (fmul x inv))). split.
    + apply floor_sat_in; [exact F|]. rewrite <- opp_IZR. split; [apply Rle_trans with (IZR (- 2 ^ 62)); [apply IZR_le; lia|lra]|apply Rle_lt_trans with (IZR (2 ^ 62)); [lra|apply IZR_lt; lia]].
    + assert (- 2 ^ 62 <= Zfloor (val (fmul x inv)) <= 2 ^ 62).
      { split; [rewrite <- (Zfloor_IZR (- 2 ^ 62))|rewrite <- (Zfloor_IZR (2 ^ 62))]; apply Zfloor_le; lra. }
      unfold i64_min, i64_max. lia.
  - exfalso. assert (bpow radix2 62 < bpow radix2 1024)%R by (apply bpow_lt; lia). lra.
Qed.
Theorem C64_no_panic ops : Forall (λ o, Forall (λ c, (Qabs c <= inject_Z (10 ^ 12))%Q) (hop_pos o)) ops →
  ∃ m answers, rat_run ops = Ok (tt, (m, answers)).
Proof.
  intros H. apply (run_no_panic rat_scalar Q_to_f64 rat_sub rat_is_zero Q_to_f64 rthr (λ _ _, eq_refl) (λ _ _ _, eq_refl) (λ _ _, eq_refl) (λ _ _, eq_refl) eq_refl
    rapx_refl); [apply new_good|]. eapply Forall_impl; [|exact H]. intros o Ho. rewrite Forall_forall in Ho. unfold in_range, hkey.
  destruct (range_coord _ (hop_pos o) 0 Ho eq_refl) as (x & -> & Hx). destruct (range_coord _ (hop_pos o) 1 Ho eq_refl) as (y & -> & Hy). destruct (range_coord _ (hop_pos o) 2 Ho eq_refl) as (z & -> & Hz).
  exists x, y, z. auto.
Qed.
Transparent flt fabs fmul fsub fdiv fzero floor_sat_i64 pack_key3 offsets default_cell EPS f64_from_bits fone f1em6 Q_to_f64.
Example C64_case :
  match rat_run [GetOrInsert [1#3; 0; 0]; GetOrInsert [1#3; 1#10000000; 0]; GetOrInsert [5#1; 0; 0]; AddVertex [5#1; 0; 0]; GetOrInsert [2#6; 0; 0]]%Q with
  | Ok (_, (m, answers)) => answers = [(0, false); (0, true); (1, false); (2, false); (0, true)]%nat ∧ length (hverts m) = 3%nat
  | _ => False
  end.
Proof. vm_compute. split; reflexivity. Qed.
(** With LazyExact the claim fails: keys are computed from the stored approximations.
    Here 1 and (2^100 + 1) - 2^100 are == but end up as two vertices. *)
Theorem C22_lazy_refuted : ∃ prog h regs r s, run start prog = Ok (h, regs) ∧ nth_error regs 1 = Some r ∧ nth_error regs 3 = Some s ∧
  (∃ h', lz_eq h r s = Ok (h', true)) ∧
  ∃ h' m, hrun lazy_scalar (new_mesh lazy_scalar) h [GetOrInsert [r; r; r]; GetOrInsert [s; r; r]] = Ok (h', (m, [(0, false); (1, false)]%nat)).
Proof.
  set (prog := [MkF64 (f64_from_bits 0x4630000000000000); MkF64 fone; Bin OAdd 0 1; Bin OSub 2 0]).
  assert (W : match run start prog with
    | Ok (h, regs) => nth_error regs 1 = Some 1%nat ∧ nth_error regs 3 = Some 3%nat ∧ match lz_eq h 1 3 with Ok (_, b) => b = true | _ => False end ∧
       match hrun lazy_scalar (new_mesh lazy_scalar) h [GetOrInsert [1; 1; 1]; GetOrInsert [3; 1; 1]]%nat with Ok (_, (_, l)) => l = [(0, false); (1, false)]%nat | _ => False end
    | _ => False end) by (vm_compute; repeat split).
  destruct (run start prog) as [[h regs]| |] eqn:E; [|contradiction..]. destruct W as (W1 & W2 & W3 & W4).
  destruct (lz_eq h 1 3) as [[h1 b]| |] eqn:E1; [|contradiction..]. subst b.
  destruct (hrun lazy_scalar (new_mesh lazy_scalar) h [GetOrInsert [1; 1; 1]; GetOrInsert [3; 1; 1]]%nat) as [[h2 [m l]]| |] eqn:E2; [|contradiction..]. subst l.
  exists prog, h, regs, 1%nat, 3%nat. split; [exact E|]. split; [exact W1|]. split; [exact W2|]. split; [eauto|]. eauto.
Qed.

(** ** C23 *)
(** A vertex within the threshold is found if it lies in the same grid cell. *)
Theorem C23_same_cell_partial N ops m answers i v p k :
  Forall (λ o, length (hop_pos o) = N) ops → rat_run ops = Ok (tt, (m, answers)) → nth_error (hverts m) i = Some v → within_threshold v p →
  position_to_hash_key rat_scalar m tt v = Ok (tt, k) → position_to_hash_key rat_scalar m tt p = Ok (tt, k) →
  ∃ j w, lookup m p = Ok (tt, (m, (j, true))) ∧ nth_error (hverts m) j = Some w ∧ nearly_within_threshold w p.
Proof.
  intros HN H Hv Hp K1 K2.
  rewrite (hkey_eq rat_scalar Q_to_f64 (λ _ _, eq_refl)) in K1, K2.
  destruct (hkey (T := rat) Q_to_f64 (hinv m) v) as [k1|] eqn:E1; [|discriminate K1]. destruct (hkey (T := rat) Q_to_f64 (hinv m) p) as [k2|] eqn:E2; [|discriminate K2].
  assert (EK : hkey (T := rat) Q_to_f64 (hinv m) v = hkey (T := rat) Q_to_f64 (hinv m) p) by congruence.
  destruct (same_cell rat_scalar Q_to_f64 rat_sub rat_is_zero Q_to_f64 rthr (λ _ _, eq_refl) (λ _ _ _, eq_refl) (λ _ _, eq_refl) (λ _ _, eq_refl) eq_refl
    rapx_refl ops tt m answers p i v H Hv EK (rapx_close v p Hp)) as (j & w & E & Hw & Hb).
  exists j, w. split; [exact E|]. split; [exact Hw|]. assert (L : length w = length p).
  { etransitivity; [exact (dims _ N ops tt m answers j w HN H Hw)|]. etransitivity; [symmetry; exact (dims _ N ops tt m answers i v HN H Hv)|]. exact (F2_length _ _ _ Hp). }
  destruct Hb as [Hb|Hb]; [apply rapx_near|apply reqb_near]; assumption.
Qed.
(** Across a cell boundary it is not: 0 and -10^-9 become two vertices. *)
Theorem C23_refuted : ∃ v p m, within_threshold v p ∧
  rat_run [GetOrInsert v; GetOrInsert p] = Ok (tt, (m, [(0, false); (1, false)]%nat)).
Proof.
  exists [0; 0; 0]%Q, [-1 # 1000000000; 0; 0]%Q.
  assert (W : match rat_run [GetOrInsert [0; 0; 0]%Q; GetOrInsert [-1 # 1000000000; 0; 0]%Q] with Ok (_, (_, l)) => l = [(0, false); (1, false)]%nat | _ => False end) by (vm_compute; reflexivity).
  destruct (rat_run [GetOrInsert [0; 0; 0]%Q; GetOrInsert [-1 # 1000000000; 0; 0]%Q]) as [[[] [m l]]| |]; [|contradiction..]. subst l.
  exists m. split; [|reflexivity]. repeat constructor; vm_compute; discriminate.
Qed.
Example C23_case : match rat_run [GetOrInsert [0; 0; 0]; GetOrInsert [1 # 1000000000; 0; 0]]%Q with
  | Ok (_, (m, answers)) => answers = [(0, false); (0, true)]%nat | _ => False end.
Proof. vm_compute. reflexivity. Qed.

(** ** The double scalar: positions with the same bits are found again, too *)
Notation f64_run := (hrun f64_scalar (new_mesh f64_scalar) tt).
Lemma fsub_self a : fgt (fabs (fsub a a)) f1em6 = false.
Proof.
  destruct (fis_finite a) eqn:F.
  - unfold fgt. assert (Z : (val a - val a = 0)%R) by lra. destruct (fsub_spec a a F F) as [[G V]|(s & _ & H & _)].
    + destruct (fabs_fin _ G) as [G' V']. apply flt_f; [reflexivity|exact G'|]. rewrite V', V, Z, rnd_0, Rabs_R0, <- val_fzero. apply fle_t; reflexivity.
    + rewrite Z in H. destruct s; lra.
  - destruct a as [s|s|s pl H|s m e H]; try discriminate F; [destruct s; vm_compute; reflexivity|reflexivity].
Qed.
Theorem C64_f64_no_duplicates ops m answers o : f64_run ops = Ok (tt, (m, answers)) → In o ops →
  ∃ i v, get_or_insert_vertex f64_scalar m tt (hop_pos o) = Ok (tt, (m, (i, true))) ∧ nth_error (hverts m) i = Some v.
Proof.
  intros H Ho.
  assert (Hr : ∀ p, apx fsub (λ x, x) f1em6 p p = true) by (induction p as [|a p IH]; [reflexivity|]; cbn [apx]; unfold far; rewrite fsub_self; exact IH).
  assert (Hs : ∀ p : list f64, Forall2 eq p p) by (induction p; constructor; auto).
  destruct (reinsert f64_scalar (λ x, x) fsub cgar_is_zero (λ x, x) f1em6 (λ _ _, eq_refl) (λ _ _ _, eq_refl) (λ _ _, eq_refl) (λ _ _, eq_refl) eq_refl
    Hr eq ltac:(intros; subst; reflexivity) ltac:(intros; subst; reflexivity) ltac:(intros; subst; reflexivity) ops tt m answers o (hop_pos o) H Ho (Hs _)) as (i & v & E & Hv & _). eauto.
Qed.

Print Assumptions C64_no_duplicates.
Print Assumptions C64_answers.
Print Assumptions C64_distinct.
Print Assumptions C64_no_panic.
Print Assumptions C22_lazy_refuted.
Print Assumptions C23_same_cell_partial.
Print Assumptions C23_refuted.
Print Assumptions C64_f64_no_duplicates.
