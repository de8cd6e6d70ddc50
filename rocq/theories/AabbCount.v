(** Counters, axis choice and look-up of the box tree. *)
From Coq Require Import Reals Lra Lia.
From Coq Require Lqa.
From Flocq Require Import Core.
From Verif Require Import F64Proofs.
From Verif Require Export AabbRat.
Import ListNotations.
Open Scope Z_scope.

Section Count.
Context {T D : Type} (K : bscalar T) (deq : D → D → bool).
Hypothesis Hfin : ∀ x, fin (as_f64 K x).
Variable select : nat → list (box T * D) → list (box T * D).
Hypothesis Hselect : ∀ k l, Permutation (select k l) l.
Notation tree := (tree T D).
Fixpoint exactc (t : tree) : Prop :=
  match t with Leaf _ _ _ _ => True | Node _ l r vc _ _ => exactc l ∧ exactc r ∧ vc = (nv l + nv r)%nat end.
Definition clean (t : tree) : Prop := Forall (λ e, e_valid e = true) (stored t).
Lemma clean_nv t : clean t → nv t = length (stored t).
Proof. unfold clean, nv. intros H. induction H as [|e l He H IH]; cbn; [reflexivity|]. rewrite He. cbn. f_equal. exact IH. Qed.
Lemma nv_perm t (es : list (entry T D)) : Permutation (stored t) es → nv t = count_valid es.
Proof. intros P. unfold nv, count_valid. apply Permutation_length, perm_filter, P. Qed.
Lemma exactc_root (t : tree) : exactc t → fst (recorded t) = nv t.
Proof. destruct t as [b d v ap|b l r vc tc ap]; cbn; [destruct v; reflexivity|]. intros (_ & _ & ->). symmetry. exact (stored_app_nv l r). Qed.
Lemma inv_root n (t : tree) : inv K n t → snd (recorded t) = length (stored t) ∧ (nv t <= fst (recorded t))%nat.
Proof.
  destruct t as [b d v ap|b l r vc tc ap]; cbn; [destruct v; cbn; auto|]. intros (_ & _ & _ & _ & _ & Hv & E). split; [exact E|].
  unfold nv. cbn [stored]. rewrite stored_app_nv. exact Hv.
Qed.
Lemma join_exact n l r : inv K n l → inv K n r → clean l → clean r → exactc l → exactc r → exactc (join K l r).
Proof.
  intros Il Ir Cl Cr El Er. cbn [join exactc]. split; [exact El|]. split; [exact Er|]. rewrite (size_stored K n l Il), (size_stored K n r Ir), clean_nv, clean_nv by assumption. reflexivity.
Qed.
Lemma build_exact n f items t : (length items <= f)%nat → Forall (λ it, dim n (fst it)) items → build_median K select f items = Some t → exactc t ∧ clean t ∧ inv K n t.
Proof.
  revert items t. induction f as [|f IH]; intros items t Hf Hd; [discriminate|].
  destruct items as [|[b d] [|i2 rest]]; [discriminate| |].
  - intros [= <-]. apply Forall_cons_iff in Hd as [Hd _]. split; [exact Logic.I|]. split; [repeat constructor|]. split; [exact Hd|reflexivity].
  - set (items := (b, d) :: i2 :: rest) in *. set (mid := (length items / 2)%nat).
    change (build_median K select (S f) items) with
      (match build_median K select f (firstn mid (select mid items)), build_median K select f (skipn mid (select mid items)) with Some l, Some r => Some (join K l r) | _, _ => None end).
    pose proof (Hselect mid items) as P. pose proof (Permutation_length P) as PL.
    assert (Hmid : (1 <= mid < length items)%nat).
    { unfold mid, items. cbn [length]. split; [apply Nat.div_le_lower_bound; lia|apply Nat.div_lt; lia]. }
    assert (Hd' : Forall (λ it, dim n (fst it)) (select mid items)) by (apply Forall_forall; intros x Hx; apply (proj1 (Forall_forall _ _) Hd), (Permutation_in x P Hx)).
    rewrite <- (firstn_skipn mid (select mid items)) in Hd'. apply Forall_app in Hd' as [D1 D2].
    destruct (build_median K select f (firstn mid (select mid items))) as [l|] eqn:El; [|discriminate].
    destruct (build_median K select f (skipn mid (select mid items))) as [r|] eqn:Er; [|discriminate].
    assert (L1 : (length (firstn mid (select mid items)) <= f)%nat) by (rewrite firstn_length, PL; clearbody mid; lia).
    assert (L2 : (length (skipn mid (select mid items)) <= f)%nat) by (rewrite skipn_length, PL; clearbody mid; lia).
    intros [= <-]. destruct (IH _ _ L1 D1 El) as (A1 & A2 & A3). destruct (IH _ _ L2 D2 Er) as (B1 & B2 & B3).
    split; [apply (join_exact n); assumption|]. split; [apply Forall_app; auto|]. apply join_inv; assumption.
Qed.
Lemma insert_exact n t nb nd t' : (0 < n)%nat → dim n nb → inv K n t → clean t → exactc t → insert K t nb nd = Some t' → exactc t'.
Proof.
  intros Hn Hb. revert t'. induction t as [b d v ap|b l IHl r IHr vc tc ap]; intros t' I C E.
  - cbn [insert]. destruct (longest_axis_from_cached ap) as [ax|]; [|discriminate]. destruct (nth_error (fst ap) ax); [|discriminate]. destruct (nth_error (snd ap) ax); [|discriminate].
    destruct (approx_center_axis K nb ax); [|discriminate].
    assert (I2 : inv K n (Leaf nb nd true (approx_from_exact K nb))) by (split; [exact Hb|reflexivity]).
    assert (C2 : clean (Leaf nb nd true (approx_from_exact K nb))) by (repeat constructor).
    destruct (flt _ _); intros [= <-]; apply (join_exact n); auto; exact Logic.I.
  - unfold clean in C. cbn [stored] in C. apply Forall_app in C as [Cl Cr]. destruct E as (El & Er & ->). pose proof I as (Il & Ir & _). cbn [insert]. destruct (fle _ _).
    + destruct (insert_ok K Hfin n l nb nd Hn Hb Il) as (l' & E' & _ & P & _). rewrite E'. intros [= <-]. cbn [exactc]. split; [apply IHl; auto|]. split; [exact Er|].
      rewrite (nv_perm l' _ P). unfold count_valid. cbn. reflexivity.
    + destruct (insert_ok K Hfin n r nb nd Hn Hb Ir) as (r' & E' & _ & P & _). rewrite E'. intros [= <-]. cbn [exactc]. split; [exact El|]. split; [apply IHr; auto|].
      rewrite (nv_perm r' _ P). unfold count_valid. cbn. unfold nv. lia.
Qed.
Lemma invalidate_exact n t d t' k : inv K n t → exactc t → invalidate deq t d = Some (t', k) → exactc t'.
Proof.
  revert t' k. induction t as [b x v ap|b l IHl r IHr vc tc ap]; intros t' k I E; cbn [invalidate].
  - destruct (v && deq x d); intros [= <- <-]; exact Logic.I.
  - destruct E as (El & Er & ->). pose proof I as (Il & Ir & _).
    destruct (invalidate_ok K deq n l d Il) as (l' & nl & E1 & _ & _ & _ & N1). destruct (invalidate_ok K deq n r d Ir) as (r' & nr & E2 & _ & _ & _ & N2).
    rewrite E1, E2. cbn zeta. destruct (Nat.ltb _ _); [discriminate|]. intros [= <- <-]. cbn [exactc]. split; [eapply IHl; eauto|]. split; [eapply IHr; eauto|]. lia.
Qed.
Lemma run_exact n ops : (0 < n)%nat → Forall (op_dim n) ops → ∀ dirty t t', careful dirty ops → inv K n t → exactc t → (dirty = false → clean t) →
  trun K deq select (Some t) ops = Some (Some t') → exactc t'.
Proof.
  intros Hn Hops. induction Hops as [|o ops Ho Hops IH]; intros dirty t t' HC I E C; cbn [trun]; [intros [= <-]; exact E|].
  destruct o as [b d|d|]; cbn [tstep careful] in *.
  - destruct HC as [-> HC]. destruct (insert_ok K Hfin n t b d Hn Ho I) as (t1 & E1 & I1 & P & _). rewrite E1. apply (IH false); auto.
    + apply (insert_exact n t b d); auto.
    + intros _. unfold clean in *. apply Forall_forall. intros e He. apply (Permutation_in e P) in He as [<-|He]; [reflexivity|]. exact (proj1 (Forall_forall _ _) (C eq_refl) e He).
  - destruct (invalidate_ok K deq n t d I) as (t1 & k & E1 & I1 & _). rewrite E1. apply (IH true); auto; [|discriminate]. apply (invalidate_exact n t d t1 k); auto.
  - unfold AabbModel.compact. pose proof (inv_dims K n t I) as Hd. pose proof (collect_stored t) as CS. destruct (collect_valid t) as [|i0 is]; [destruct ops; discriminate|].
    destruct (build K select (i0 :: is)) as [t2|] eqn:E2; [|discriminate].
    destruct (build_exact n (length (i0 :: is)) (i0 :: is) t2) as (X1 & X2 & X3); [lia| |exact E2|apply (IH false); auto].
    apply Forall_forall. intros it Hit. assert (Hin : In (fresh it) (filter e_valid (stored t))) by (rewrite <- CS; apply (in_map fresh (i0 :: is)), Hit).
    apply filter_In in Hin as [Hin _]. exact (proj1 (Forall_forall _ _) Hd _ Hin).
Qed.
(** ** Look-up *)
Lemma find_ok (t : tree) f :
  match find_aabb_by_data t f with
  | Some b => ∃ e, In e (stored t) ∧ f (e_data e) = true ∧ e_box e = b
  | None => ∀ e, In e (stored t) → f (e_data e) = false
  end.
Proof.
  induction t as [b d v ap|b l IHl r IHr vc tc ap]; cbn [find_aabb_by_data stored].
  - destruct (f d) eqn:E; [exists (Entry b d v); cbn; auto|]. intros e [<-|[]]. exact E.
  - destruct (find_aabb_by_data l f) as [b0|]; [destruct IHl as (e & H1 & H2); exists e; split; [apply in_or_app; auto|exact H2]|].
    destruct (find_aabb_by_data r f) as [b0|]; [destruct IHr as (e & H1 & H2); exists e; split; [apply in_or_app; auto|exact H2]|].
    intros e He. apply in_app_or in He as [He|He]; auto.
Qed.
End Count.

(** ** needs_rebuild *)
Lemma count_f64 n : 0 <= n <= 2 ^ 53 → fin (i64_to_f64 n) ∧ val (i64_to_f64 n) = IZR n.
Proof. intros H. apply i64_to_f64_spec; [apply format_int; lia|lia]. Qed.
Lemma f0_5_val : fin f0_5 ∧ val f0_5 = (/ 2)%R.
Proof. assert (E : f0_5 = B754_finite 53 1024 false 4503599627370496 (-53) eq_refl) by (apply to_bits_inj; reflexivity). rewrite E. split; [reflexivity|]. rewrite val_finite. cbn. lra. Qed.
Lemma ratio_half v t : (0 < t)%nat → (v <= t)%nat → Z.of_nat t <= 2 ^ 53 →
  flt (fdiv (i64_to_f64 (Z.of_nat v)) (i64_to_f64 (Z.of_nat t))) f0_5 = true ↔ (2 * v < t)%nat.
Proof.
  intros Ht Hv Hb. destruct (count_f64 (Z.of_nat v) ltac:(lia)) as [Fv Vv]. destruct (count_f64 (Z.of_nat t) ltac:(lia)) as [Ft Vt]. destruct f0_5_val as [Fh Vh].
  set (x := i64_to_f64 (Z.of_nat v)) in *. set (y := i64_to_f64 (Z.of_nat t)) in *. clearbody x y.
  assert (Tp : (0 < IZR (Z.of_nat t))%R) by (apply IZR_lt; lia). assert (Vp : (0 <= IZR (Z.of_nat v))%R) by (apply IZR_le; lia).
  assert (Hle : (IZR (Z.of_nat v) <= IZR (Z.of_nat t))%R) by (apply IZR_le; lia).
  pose proof (Bdiv_correct 53 1024 eq_refl eq_refl binop_nan_pl64 mode_NE x y) as H.
  change (B2R 53 1024 y) with (val y) in H. change (B2R 53 1024 x) with (val x) in H. rewrite Vv, Vt in H. specialize (H ltac:(lra)).
  change (round radix2 (FLT_exp (3 - 1024 - 53) 53) (round_mode mode_NE) (IZR (Z.of_nat v) / IZR (Z.of_nat t))) with (rnd (IZR (Z.of_nat v) / IZR (Z.of_nat t))) in H.
  set (r := (IZR (Z.of_nat v) / IZR (Z.of_nat t))%R) in *. change (round radix2 fexp64 (round_mode mode_NE) r) with (rnd r) in H.
  assert (Er : (r * IZR (Z.of_nat t) = IZR (Z.of_nat v))%R) by (unfold r; field; lra).
  assert (R1 : (0 <= r <= 1)%R) by (clear -Er Tp Vp Hle; clearbody r; split; apply Rnot_lt_le; intros N; pose proof (Rmult_lt_compat_r _ _ _ Tp N); lra).
  assert (F1 : rnd 1 = 1%R) by (apply rnd_format, (format_int 1); lia).
  assert (B : (0 <= rnd r <= 1)%R) by (split; [rewrite <- rnd_0|rewrite <- F1]; apply rnd_le; lra).
  rewrite Rlt_bool_true in H by (rewrite Rabs_right by (apply Rle_ge; lra); apply Rle_lt_trans with (1 := proj2 B); change 1%R with (bpow radix2 0); apply bpow_lt; lia).
  destruct H as (H1 & H2 & _). change (Bdiv 53 1024 eq_refl eq_refl binop_nan_pl64 mode_NE x y) with (fdiv x y) in *.
  assert (Fd : fin (fdiv x y)) by (unfold fin, fis_finite; rewrite H2; exact Fv). change (B2R 53 1024 (fdiv x y)) with (val (fdiv x y)) in H1.
  rewrite (flt_t _ _ Fd Fh), H1, Vh. split; intros G.
  - apply Nat2Z.inj_lt. rewrite Nat2Z.inj_mul. apply lt_IZR. rewrite mult_IZR. apply Rnot_le_lt. intros L.
    assert (L' : (/ 2 <= r)%R) by (clearbody r; change (IZR (Z.of_nat 2)) with 2%R in L; nra).
    apply rnd_le in L'. rewrite <- Vh, rnd_val in L'. lra.
  - (* the largest double below 1/2 is 1/2 - 2^-54 *)
    set (p := B754_finite 53 1024 false 9007199254740991 (-54) eq_refl).
    assert (Vp' : val p = (9007199254740991 * bpow radix2 (-54))%R) by reflexivity.
    assert (L : (r <= val p)%R).
    { assert (G' : (2 * IZR (Z.of_nat v) + 1 <= IZR (Z.of_nat t))%R) by (rewrite <- mult_IZR, <- plus_IZR; apply IZR_le; lia).
      assert (Hb' : (IZR (Z.of_nat t) <= bpow radix2 53)%R) by (apply (IZR_le _ (2 ^ 53)); exact Hb).
      rewrite Vp'. replace (9007199254740991 * bpow radix2 (-54))%R with (/ 2 - bpow radix2 (-54))%R by (cbn; lra).
      assert (B54 : (bpow radix2 (-54) * bpow radix2 53 = / 2)%R) by (rewrite <- bpow_plus; reflexivity).
      pose proof (bpow_gt_0 radix2 (-54)) as B0. clearbody r.
      assert (X : ((r - (/ 2 - bpow radix2 (-54))) * IZR (Z.of_nat t) <= 0)%R) by nra.
      apply Rnot_lt_le. intros X'. assert (0 < (r - (/ 2 - bpow radix2 (-54))) * IZR (Z.of_nat t))%R by (apply Rmult_lt_0_compat; lra). lra. }
    apply rnd_le in L. rewrite rnd_val, Vp' in L. apply Rle_lt_trans with (1 := L). cbn. lra.
Qed.

(** ** longest_axis *)
Lemma extent_side n b i : dim n b → (i < n)%nat → ∃ e, extent rat_box b i = Some e ∧ (e == side b i)%Q.
Proof.
  intros [H1 H2] Hi. unfold extent, side. destruct (nth_error (bmin b) i) as [mn|] eqn:E1; [|apply nth_error_None in E1; lia].
  destruct (nth_error (bmax b) i) as [mx|] eqn:E2; [|apply nth_error_None in E2; lia]. rewrite (nth_error_nth _ _ _ E1), (nth_error_nth _ _ _ E2).
  eexists. split; [reflexivity|]. cbn [b_abs b_sub rat_box]. unfold rat_abs, rat_sub. rewrite Qred_correct, Qred_correct. reflexivity.
Qed.
Lemma rat_pos_sub x y : b_is_positive rat_box (b_sub rat_box x y) = true ↔ (y < x)%Q.
Proof.
  cbn [b_is_positive b_sub rat_box]. unfold rat_is_positive, rat_sub.
  assert (E : (0 < Qred (x - y))%Q ↔ (y < x)%Q) by (rewrite Qred_correct; split; intros H; Lqa.lra).
  rewrite <- E. generalize (Qred (x - y)). intros d. rewrite Z.ltb_lt. unfold Qlt. cbn. lia.
Qed.
Lemma longest_go n b : dim n b → ∀ k i bi best, (i + k = n)%nat → (bi < i)%nat → (best == side b bi)%Q →
  (∀ j, (j < i)%nat → (side b j <= best)%Q ∧ ((j < bi)%nat → (side b j < best)%Q)) →
  ∃ r, longest_axis_go rat_box b bi best i k = Some r ∧ (r < n)%nat ∧ ∀ j, (j < n)%nat → (side b j <= side b r)%Q ∧ ((j < r)%nat → (side b j < side b r)%Q).
Proof.
  intros Hd. induction k as [|k IH]; intros i bi best Hik Hbi Hbest Hall; cbn [longest_axis_go].
  - exists bi. split; [reflexivity|]. split; [lia|]. intros j Hj. destruct (Hall j ltac:(lia)) as [G1 G2]. split; [rewrite <- Hbest; exact G1|]. intros L. rewrite <- Hbest. auto.
  - destruct (extent_side n b i Hd ltac:(lia)) as (e & -> & He). destruct (b_is_positive rat_box (b_sub rat_box e best)) eqn:P.
    + apply rat_pos_sub in P. apply IH; [lia|lia|exact He|]. intros j Hj. destruct (Nat.eq_dec j i) as [->|N].
      * split; [rewrite He; apply Qle_refl|lia].
      * destruct (Hall j ltac:(lia)) as [G1 _]. split; [Lqa.lra|]. intros _. Lqa.lra.
    + assert (P' : (e <= best)%Q) by (apply Qnot_lt_le; intros Q; apply rat_pos_sub in Q; congruence).
      apply IH; [lia|lia|exact Hbest|]. intros j Hj. destruct (Nat.eq_dec j i) as [->|N]; [|apply Hall; lia]. split; [rewrite <- He; exact P'|lia].
Qed.
Lemma longest_ok n b : dim n b → (0 < n)%nat →
  ∃ r, longest_axis rat_box b = Some r ∧ (r < n)%nat ∧ ∀ j, (j < n)%nat → (side b j <= side b r)%Q ∧ ((j < r)%nat → (side b j < side b r)%Q).
Proof.
  intros Hd Hn. unfold longest_axis. destruct (extent_side n b 0 Hd Hn) as (e & -> & He). rewrite (proj1 Hd).
  apply (longest_go n b Hd); [lia|lia|exact He|]. intros j Hj. replace j with 0%nat by lia. split; [rewrite He; apply Qle_refl|lia].
Qed.
