(** Boxes and box trees over rationals. *)
From Coq Require Import Reals Qreals Lra Lia.
From Coq Require Lqa.
From Flocq Require Import Core.
From Verif Require Import F64Rat.
From Verif Require Export AabbTree.
Import ListNotations.
Open Scope Z_scope.

(** ** Truncation to a double keeps the order *)
Lemma Q_to_f64_sign q : (0 <= Q2R q → 0 <= val (Q_to_f64 q))%R ∧ (Q2R q <= 0 → val (Q_to_f64 q) <= 0)%R.
Proof.
  assert (S : (0 <= Q2R q → 0 <= tq q)%R ∧ (Q2R q <= 0 → tq q <= 0)%R).
  { unfold tq, Q2R. pose proof (Rinv_0_lt_compat (IZR (Zpos (Qden q))) ltac:(apply IZR_lt; lia)) as Hd. pose proof (bpow_gt_0 radix2 (-1074)) as Hb. split; intros H.
    - apply Rmult_le_pos; [|lra]. apply IZR_le. apply Z.quot_pos; [|lia]. apply Z.mul_nonneg_nonneg; [|apply Z.pow_nonneg; lia].
      apply le_IZR. apply Rnot_lt_le. intros G. pose proof (Rmult_lt_compat_r _ _ _ Hd G). lra.
    - rewrite <- (Rmult_0_l (bpow radix2 (-1074))). apply Rmult_le_compat_r; [lra|]. apply IZR_le.
      assert (N : Qnum q <= 0) by (apply le_IZR, Rnot_lt_le; intros G; pose proof (Rmult_lt_compat_r _ _ _ Hd G); lra).
      rewrite <- (Z.opp_involutive (Qnum q * 2 ^ 1074)), Z.quot_opp_l by lia. apply Z.opp_nonpos_nonneg. apply Z.quot_pos; [|lia].
      rewrite <- Z.mul_opp_l. apply Z.mul_nonneg_nonneg; [lia|apply Z.pow_nonneg; lia]. }
  rewrite Q_to_f64_wide. set (i := Z.quot _ _).
  pose proof (binary_normalize_correct 53 1024 eq_refl eq_refl mode_ZR i (-1074) false) as H. cbn zeta in H.
  change (F2R (Float radix2 i (-1074))) with (tq q) in H.
  change (round radix2 (FLT_exp (3 - 1024 - 53) 53) (round_mode mode_ZR) (tq q)) with (trunc64 (tq q)) in H.
  set (x := binary_normalize 53 1024 eq_refl eq_refl mode_ZR i (-1074) false) in *. clearbody x.
  destruct (Rlt_bool (Rabs _) _) eqn:E.
  - destruct H as (H1 & _). change (B2R 53 1024 x) with (val x) in H1. rewrite H1.
    assert (R0 : trunc64 0 = 0%R) by (unfold trunc64; apply round_0; typeclasses eauto).
    split; intros G; apply S, trunc_le in G; rewrite R0 in G; exact G.
  - assert (Z : tq q = 0%R → False).
    { intros Z. rewrite Z in E. unfold trunc64 in E. rewrite round_0, Rabs_R0 in E by typeclasses eauto. apply rlt_false in E. pose proof (bpow_gt_0 radix2 1024). lra. }
    destruct x as [s|s|s pl Hpl|s m e B]; try discriminate H. cbn in H. injection H as -> -> ->.
    rewrite val_finite. pose proof (bpow_gt_0 radix2 971) as Hb. destruct (Rlt_bool (tq q) 0) eqn:L.
    + destruct (Rlt_bool_spec (tq q) 0) as [L'|]; [|discriminate L]. split; intros G; [apply S in G; lra|]. pose proof (IZR_lt (Z.neg 9007199254740991) 0 ltac:(lia)). cbn [SpecFloat.cond_Zopp]. nra.
    + destruct (Rlt_bool_spec (tq q) 0) as [|L']; [discriminate L|]. split; intros G; [|apply S in G; exfalso; apply Z; lra]. pose proof (IZR_lt 0 (Z.pos 9007199254740991) ltac:(lia)). nra.
Qed.
Lemma Q_to_f64_mono a b : (Q2R a <= Q2R b)%R → (val (Q_to_f64 a) <= val (Q_to_f64 b))%R.
Proof.
  intros H. destruct (Q_to_f64_sign a) as [A1 A2], (Q_to_f64_sign b) as [B1 B2].
  destruct (Rle_dec 0 (Q2R a)) as [P|P].
  - pose proof (to_f64_mono a b) as M. specialize (A1 P). specialize (B1 ltac:(lra)).
    rewrite !Rabs_right in M by (apply Rle_ge; lra). exact (M H).
  - destruct (Rle_dec 0 (Q2R b)) as [Q|Q]; [specialize (A2 ltac:(lra)); specialize (B1 Q); lra|].
    pose proof (to_f64_mono b a) as M. specialize (A2 ltac:(lra)). specialize (B2 ltac:(lra)).
    rewrite !Rabs_left1 in M by lra. specialize (M ltac:(lra)). lra.
Qed.
Lemma Q_to_f64_key a b : Qle_bool a b = true → skey (Q_to_f64 a) <= skey (Q_to_f64 b).
Proof.
  intros H. apply Qle_bool_iff, Qle_Rle, Q_to_f64_mono in H. apply Z.nlt_ge. intros G.
  apply (val_lt_iff (Q_to_f64 b) (Q_to_f64 a) (proj1 (Q_to_f64_spec b)) (proj1 (Q_to_f64_spec a))) in G. lra.
Qed.
Lemma rat_as_f64 q : as_f64 rat_box q = Q_to_f64 q.
Proof.
  unfold as_f64. cbn [b_ref_into rat_box]. pose proof (proj1 (Q_to_f64_spec q)) as F. unfold fis_infinite. rewrite (not_nan _ F). unfold fin in F. rewrite F. reflexivity.
Qed.
Lemma rat_neg_sub x y : b_is_negative rat_box (b_sub rat_box x y) = negb (Qle_bool y x).
Proof.
  cbn [b_is_negative b_sub rat_box]. unfold rat_is_negative, rat_sub.
  assert (E : (Qred (x - y) < 0)%Q ↔ (x < y)%Q).
  { rewrite Qred_correct. split; intros H; Lqa.lra. }
  revert E. generalize (Qred (x - y)). intros d E. destruct (Z.ltb_spec (Qnum d) 0) as [L|L].
  - assert (G : (d < 0)%Q) by (unfold Qlt; cbn; lia). apply E in G. destruct (Qle_bool y x) eqn:C; [|reflexivity].
    apply Qle_bool_iff in C. exfalso. exact (Qlt_not_le _ _ G C).
  - destruct (Qle_bool y x) eqn:C; [reflexivity|]. exfalso. assert (G : (x < y)%Q) by (apply Qnot_le_lt; intros G; apply Qle_bool_iff in G; congruence).
    apply E in G. unfold Qlt in G. cbn in G. lia.
Qed.
Local Opaque Q_to_f64.
Lemma rat_fin x : fin (as_f64 rat_box x). Proof. rewrite rat_as_f64. apply Q_to_f64_spec. Qed.
Lemma rat_mono x y : Qle_bool x y = true → skey (as_f64 rat_box x) <= skey (as_f64 rat_box y).
Proof. rewrite !rat_as_f64. apply Q_to_f64_key. Qed.
Lemma rat_int x : b_interval rat_box x = Some (Q_to_f64 x, Q_to_f64 x) ∧ nn (Q_to_f64 x) ∧ nn (Q_to_f64 x).
Proof. split; [reflexivity|]. split; apply fin_nn, Q_to_f64_spec. Qed.

Definition rat_query D := @query_stored Q D rat_box Qle_bool Q_to_f64 Q_to_f64 rat_neg_sub rat_fin rat_mono rat_int Q_to_f64_key.
Definition rat_query_valid D := @query_valid_stored Q D rat_box Qle_bool Q_to_f64 Q_to_f64 rat_neg_sub rat_fin rat_mono rat_int Q_to_f64_key.
Definition rat_build D := @build_median_ok Q D rat_box rat_fin.
Definition rat_run D deq := @run_ok Q D rat_box deq rat_fin.

(** ** Overlap *)
Lemma rat_overlap n a q : dim n a → dim n q → intersects rat_box a q = overlap a q.
Proof.
  destruct a as [an ax], q as [qn qx]. unfold dim, intersects, overlap, below. cbn [bmin bmax]. intros [A1 A2] [Q1 Q2].
  revert an ax qn qx A1 A2 Q1 Q2. induction n as [|n IH]; intros [|a1 an] [|a2 ax] [|q1 qn] [|q2 qx]; cbn [length]; intros; try discriminate; [reflexivity|].
  cbn [intersects_go combine forallb fst snd]. rewrite !rat_neg_sub, (IH an ax qn qx) by congruence.
  destruct (Qle_bool q1 a2), (Qle_bool a1 q2); cbn [negb andb]; rewrite ?Bool.andb_false_r; reflexivity.
Qed.

(** ** Boxes as sets *)
Lemma F2_refl (l : list Q) : Forall2 Qle l l.
Proof. induction l; constructor; [apply Qle_refl|assumption]. Qed.
Lemma F2_le_trans l k m : Forall2 Qle l k → Forall2 Qle k m → Forall2 Qle l m.
Proof. apply F2_trans. exact Qle_trans. Qed.
Lemma min_by a b : (min_by_cmp rat_box a b <= a ∧ min_by_cmp rat_box a b <= b)%Q ∧ ∀ c, (c <= a → c <= b → c <= min_by_cmp rat_box a b)%Q.
Proof.
  unfold min_by_cmp. cbn [b_cmp rat_box]. unfold rat_cmp_ref. destruct (Z.compare_spec (Qnum a * QDen b) (Qnum b * QDen a)) as [H|H|H];
    (split; [split; unfold Qle; lia|auto]).
Qed.
Lemma max_by a b : (a <= max_by_cmp rat_box a b ∧ b <= max_by_cmp rat_box a b)%Q ∧ ∀ c, (a <= c → b <= c → max_by_cmp rat_box a b <= c)%Q.
Proof.
  unfold max_by_cmp. cbn [b_cmp rat_box]. unfold rat_cmp_ref. destruct (Z.compare_spec (Qnum a * QDen b) (Qnum b * QDen a)) as [H|H|H];
    (split; [split; unfold Qle; lia|auto]).
Qed.
Lemma mins n l k : length l = n → length k = n →
  Forall2 Qle (map2 (min_by_cmp rat_box) l k) l ∧ Forall2 Qle (map2 (min_by_cmp rat_box) l k) k ∧
  ∀ c, Forall2 Qle c l → Forall2 Qle c k → Forall2 Qle c (map2 (min_by_cmp rat_box) l k).
Proof.
  revert l k. induction n as [|n IH]; intros [|a l] [|b k]; cbn [length map2]; try discriminate; intros H G; [repeat split; auto|].
  destruct (IH l k) as (I1 & I2 & I3); try congruence. destruct (min_by a b) as [[M1 M2] M3]. split; [|split]; [constructor; assumption..|].
  intros c P Q. inversion P; subst. inversion Q; subst. constructor; auto.
Qed.
Lemma maxs n l k : length l = n → length k = n →
  Forall2 Qle l (map2 (max_by_cmp rat_box) l k) ∧ Forall2 Qle k (map2 (max_by_cmp rat_box) l k) ∧
  ∀ c, Forall2 Qle l c → Forall2 Qle k c → Forall2 Qle (map2 (max_by_cmp rat_box) l k) c.
Proof.
  revert l k. induction n as [|n IH]; intros [|a l] [|b k]; cbn [length map2]; try discriminate; intros H G; [repeat split; auto|].
  destruct (IH l k) as (I1 & I2 & I3); try congruence. destruct (max_by a b) as [[M1 M2] M3]. split; [|split]; [constructor; assumption..|].
  intros c P Q. inversion P; subst. inversion Q; subst. constructor; auto.
Qed.
(** the order on boxes by their corners *)
Definition inner (a c : box Q) : Prop := Forall2 Qle (bmin c) (bmin a) ∧ Forall2 Qle (bmax a) (bmax c).
Lemma inner_refl a : inner a a. Proof. split; apply F2_refl. Qed.
Lemma inner_trans a b c : inner a b → inner b c → inner a c.
Proof. intros [A1 A2] [B1 B2]. split; eapply F2_le_trans; eassumption. Qed.
Lemma inner_within a c : inner a c → within a c.
Proof. intros [H G] p [P Q]. split; eapply F2_le_trans; eassumption. Qed.
Lemma within_inner a c : proper a → within a c → inner a c.
Proof.
  intros P W. split.
  - apply (W (bmin a)). split; [apply F2_refl|exact P].
  - apply (W (bmax a)). split; [exact P|apply F2_refl].
Qed.
Lemma union_dim n a b : dim n a → dim n b → dim n (union rat_box a b).
Proof. intros [A1 A2] [B1 B2]. split; apply map2_length; assumption. Qed.
Lemma union_inner n a b c : dim n a → dim n b → inner (union rat_box a b) c ↔ inner a c ∧ inner b c.
Proof.
  intros [A1 A2] [B1 B2]. destruct (mins n _ _ A1 B1) as (M1 & M2 & M3), (maxs n _ _ A2 B2) as (N1 & N2 & N3). unfold inner, union. cbn [bmin bmax]. split.
  - intros [H G]. repeat split; eapply F2_le_trans; eassumption.
  - intros [[H G] [H' G']]. split; [apply M3|apply N3]; assumption.
Qed.
Lemma union_proper n a b : dim n a → dim n b → proper a → proper b → proper (union rat_box a b).
Proof.
  intros [A1 A2] [B1 B2] P _. unfold proper, union in *. cbn [bmin bmax].
  destruct (mins n _ _ A1 B1) as (M1 & M2 & M3), (maxs n _ _ A2 B2) as (N1 & N2 & N3).
  eapply F2_le_trans; [exact M1|]. eapply F2_le_trans; [exact P|exact N1].
Qed.

(** ** The root box *)
Section Root.
Context {D : Type} (deq : D → D → bool).
Variable select : nat → list (box Q * D) → list (box Q * D).
Hypothesis Hselect : ∀ k l, Permutation (select k l) l.
Fixpoint boxes (n : nat) (t : tree Q D) : Prop :=
  match t with
  | Leaf b _ _ _ => dim n b
  | Node b l r _ _ _ => dim n b ∧ boxes n l ∧ boxes n r ∧ ∀ c, inner b c ↔ inner (tree_box l) c ∧ inner (tree_box r) c
  end.
Lemma boxes_dim n t : boxes n t → dim n (tree_box t).
Proof. destruct t; cbn; [auto|]. intros H. apply H. Qed.
Lemma boxes_root n t c : boxes n t → inner (tree_box t) c ↔ Forall (λ e, inner (e_box e) c) (stored t).
Proof.
  induction t as [b d v ap|b l IHl r IHr vc tc ap]; cbn [boxes tree_box stored].
  - intros _. split; [intros H; constructor; [exact H|constructor]|intros H; apply Forall_cons_iff in H as [H _]; exact H].
  - intros (_ & Hl & Hr & H). rewrite H, Forall_app, (IHl Hl), (IHr Hr). reflexivity.
Qed.
Lemma join_boxes n l r : boxes n l → boxes n r → boxes n (join rat_box l r).
Proof.
  intros Hl Hr. cbn [join boxes]. split; [apply union_dim; apply boxes_dim; assumption|]. split; [exact Hl|]. split; [exact Hr|]. intros c. apply (union_inner n); apply boxes_dim; assumption.
Qed.
Lemma build_boxes n f items t : Forall (λ it, dim n (fst it)) items → build_median rat_box select f items = Some t → boxes n t.
Proof.
  revert items t. induction f as [|f IH]; intros items t Hd; [discriminate|].
  destruct items as [|[b d] [|i2 rest]]; [discriminate| |].
  - intros [= <-]. apply Forall_cons_iff in Hd as [Hd _]. exact Hd.
  - set (items := (b, d) :: i2 :: rest) in *. set (mid := (length items / 2)%nat).
    change (build_median rat_box select (S f) items) with
      (match build_median rat_box select f (firstn mid (select mid items)), build_median rat_box select f (skipn mid (select mid items)) with Some l, Some r => Some (join rat_box l r) | _, _ => None end).
    pose proof (Hselect mid items) as P.
    assert (Hd' : Forall (λ it, dim n (fst it)) (select mid items)) by (apply Forall_forall; intros x Hx; apply (proj1 (Forall_forall _ _) Hd), (Permutation_in x P Hx)).
    rewrite <- (firstn_skipn mid (select mid items)) in Hd'. apply Forall_app in Hd' as [D1 D2].
    destruct (build_median rat_box select f (firstn mid (select mid items))) as [l|] eqn:El; [|discriminate].
    destruct (build_median rat_box select f (skipn mid (select mid items))) as [r|] eqn:Er; [|discriminate].
    intros [= <-]. apply join_boxes; eauto.
Qed.
Lemma insert_boxes n t nb nd t' : dim n nb → boxes n t → insert rat_box t nb nd = Some t' →
  boxes n t' ∧ ∀ c, inner (tree_box t') c ↔ inner (tree_box t) c ∧ inner nb c.
Proof.
  intros Hb. revert t'. induction t as [b d v ap|b l IHl r IHr vc tc ap]; intros t'; cbn [boxes insert].
  - intros Hd. destruct (longest_axis_from_cached ap) as [ax|]; [|discriminate]. destruct (nth_error (fst ap) ax); [|discriminate]. destruct (nth_error (snd ap) ax); [|discriminate].
    destruct (approx_center_axis rat_box nb ax); [|discriminate]. destruct (flt _ _); intros [= <-]; (split; [apply join_boxes; assumption|]); intros c; cbn [join tree_box]; rewrite (union_inner n) by assumption; tauto.
  - intros (Hd & Hl & Hr & H). destruct (fle _ _).
    + destruct (insert rat_box l nb nd) as [l'|] eqn:E; [|discriminate]. intros [= <-]. destruct (IHl l' Hl eq_refl) as [B1 B2]. cbn [boxes tree_box].
      split; [split; [apply union_dim; assumption|split; [assumption|split; [assumption|]]]|]; intros c; rewrite (union_inner n) by assumption; [rewrite H, B2; tauto|reflexivity].
    + destruct (insert rat_box r nb nd) as [r'|] eqn:E; [|discriminate]. intros [= <-]. destruct (IHr r' Hr eq_refl) as [B1 B2]. cbn [boxes tree_box].
      split; [split; [apply union_dim; assumption|split; [assumption|split; [assumption|]]]|]; intros c; rewrite (union_inner n) by assumption; [rewrite H, B2; tauto|reflexivity].
Qed.
Lemma invalidate_boxes n t d t' k : boxes n t → invalidate deq t d = Some (t', k) → boxes n t' ∧ tree_box t' = tree_box t.
Proof.
  revert t' k. induction t as [b x v ap|b l IHl r IHr vc tc ap]; intros t' k; cbn [boxes invalidate].
  - intros H. destruct (v && deq x d); intros [= <- <-]; split; auto.
  - intros (Hd & Hl & Hr & H). destruct (invalidate deq l d) as [[l' nl]|] eqn:El; [|discriminate]. destruct (invalidate deq r d) as [[r' nr]|] eqn:Er; [|discriminate].
    cbn zeta. destruct (Nat.ltb _ _); [discriminate|]. intros [= <- <-]. destruct (IHl _ _ Hl eq_refl) as [B1 B2]. destruct (IHr _ _ Hr eq_refl) as [B3 B4].
    cbn [boxes tree_box]. rewrite B2, B4. auto.
Qed.
Lemma run_boxes n ops : Forall (op_dim n) ops → ∀ t t', inv rat_box n t → (0 < n)%nat → boxes n t → trun rat_box deq select (Some t) ops = Some (Some t') → boxes n t'.
Proof.
  intros Hops. induction Hops as [|o ops Ho Hops IH]; intros t t' I Hn B; cbn [trun]; [intros [= <-]; exact B|].
  destruct (step_ok rat_box deq rat_fin select Hselect n t (stored t) o Hn Ho I (Permutation_refl _)) as (r & E & R). rewrite E. destruct r as [t1|].
  - destruct (entries_step deq (stored t) o); cbn [rel] in R; [|contradiction]. destruct R as [I1 _]. apply IH; [exact I1|exact Hn|].
    destruct o as [b d|d|]; cbn [tstep] in E.
    + destruct (insert rat_box t b d) as [t2|] eqn:E2; [|discriminate E]. injection E as <-. eapply insert_boxes; eassumption.
    + destruct (invalidate deq t d) as [[t2 k]|] eqn:E2; [|discriminate E]. injection E as <-. eapply invalidate_boxes; eassumption.
    + unfold AabbModel.compact in E. pose proof (inv_dims rat_box n t I) as Hd. pose proof (collect_stored t) as C. destruct (collect_valid t) as [|i0 is]; [discriminate E|].
      destruct (build rat_box select (i0 :: is)) as [t2|] eqn:E2; [|discriminate E]. injection E as <-. eapply build_boxes; [|exact E2].
      apply Forall_forall. intros it Hit. assert (Hin : In (fresh it) (filter e_valid (stored t))) by (rewrite <- C; apply (in_map fresh (i0 :: is)), Hit).
      apply filter_In in Hin as [Hin _]. exact (proj1 (Forall_forall _ _) Hd _ Hin).
  - destruct ops; cbn [trun]; discriminate.
Qed.
End Root.
