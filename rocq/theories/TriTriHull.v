(** The convex hull. *)
From Verif Require Export TriTriPlanar.

Section hulls.
Context (pt : nat → p2).
Local Notation T a b c := (area2 (pt a) (pt b) (pt c)).
Local Notation le a b := (vle (pt a) (pt b)).

(** the turn at the last point of a chain *)
Lemma junction (S : nat → Prop) b M a : S b → S M → S a → (∀ x, S x → le x M) →
  (∀ x, S x → 0 <= T b M x) → (∀ x, S x → 0 <= T M a x) → ¬ eq2 (pt b) (pt M) → ¬ eq2 (pt a) (pt M) →
  (∃ i j k, S i ∧ S j ∧ S k ∧ 0 < T i j k) → 0 < T b M a.
Proof.
  intros Sb SM Sa Hmax Hb Ha Nb Na (i & j & k & Si & Sj & Sk & Hijk). destruct (Qlt_le_dec 0 (T b M a)) as [?|H]; [assumption|exfalso].
  pose proof (Hb a Sa) as H'. assert (T b M a == 0) as Z by lra.
  destruct (collinear_2 (pt b) (pt M) (pt a) Nb Z) as [s Es].
  assert (s < 1) as S1.
  { apply Qnot_le_lt. intros Hs. apply Na. pose proof (dir _ _ (Hmax a Sa)) as Ra. pose proof (dir _ _ (Hmax b Sb)) as Rb.
    unfold eq2, at2, rt in *. destruct (pt a) as [ax ay], (pt b) as [bx by_], (pt M) as [mx my]. cbn in *. destruct Es as [E1 E2].
    assert (mx - ax == (1 - s) * (mx - bx)) as F1 by lra. assert (my - ay == (1 - s) * (my - by_)) as F2 by lra. rewrite F1, F2 in Ra.
    assert ((s - 1) * (mx - bx) >= 0) as G by (apply mul_pp; [lra|destruct Rb; lra]).
    destruct Ra as [Ra|[Ra Ra']]; [lra|]. destruct Rb as [Rb|[Rb Rb']].
    - assert (s - 1 == 0) as Z1. { assert ((s - 1) * (mx - bx) == 0) as Z1 by lra. apply Qmult_integral in Z1 as [?|?]; lra. } split; [|]; [rewrite E1|rewrite E2]; setoid_replace s with 1 by lra; ring.
    - assert ((s - 1) * (my - by_) >= 0) as G' by (apply mul_pp; lra). split; [lra|]. lra. }
  assert (∀ x, S x → T b M x == 0) as All.
  { intros x Sx. pose proof (Hb x Sx) as B. pose proof (Ha x Sx) as A. assert (T M a x == (s - 1) * T b M x) as E.
    { rewrite (area_ext _ _ _ (pt M) (at2 (pt b) (pt M) s) (pt x)); [|split; reflexivity|exact Es|split; reflexivity]. destruct (pt b), (pt M), (pt x). unfold area2, at2. cbn. ring. }
    rewrite E in A. pose proof (mul_pp (1 - s) _ ltac:(lra) B). assert ((1 - s) * T b M x == 0) as Z1 by lra. apply Qmult_integral in Z1 as [?|?]; [lra|assumption]. }
  destruct (collinear_2 _ _ _ Nb (All i Si)) as [si Ei]. destruct (collinear_2 _ _ _ Nb (All j Sj)) as [sj Ej]. destruct (collinear_2 _ _ _ Nb (All k Sk)) as [sk Ek].
  rewrite (area_ext _ _ _ _ _ _ Ei Ej Ek), area_at in Hijk. lra.
Qed.
(** no point is inside both chains *)
Lemma chains_apart a k b c : le a k → le k b → le k c → ¬ eq2 (pt c) (pt k) → 0 < T a k b → 0 <= T c k a → 0 <= T c k b → False.
Proof.
  intros L1 L2 L3. destruct (pt a) as [ax ay], (pt k) as [kx ky], (pt b) as [bx by_], (pt c) as [cx cy]. apply dir in L1, L2, L3. unfold area2, eq2. cbn [fst snd] in *. intros N H1 H2 H3.
  set (ux := kx - ax) in *. set (uy := ky - ay) in *. set (vx := bx - kx) in *. set (vy := by_ - ky) in *. set (wx := cx - kx) in *. set (wy := cy - ky) in *.
  assert (0 < ux * vy - uy * vx) as H1' by (unfold ux, uy, vx, vy in *; lra). assert (ux * wy - uy * wx <= 0) as H2' by (unfold ux, uy, wx, wy in *; lra).
  assert (0 <= vx * wy - vy * wx) as H3' by (unfold vx, vy, wx, wy in *; lra).
  assert (wx == 0 → 0 < wy) as Wp. { intros Z. destruct L3 as [?|[_ L3]]; [lra|]. apply Qnot_le_lt. intros ?. apply N. unfold wx, wy in *. split; lra. }
  clearbody ux uy vx vy wx wy. clear H1 H2 H3 N. pose proof (rt_ge _ _ L1) as U0. pose proof (rt_ge _ _ L2) as V0. pose proof (rt_ge _ _ L3) as W0.
  destruct (Qlt_le_dec 0 vx) as [P|P].
  - pose proof (mul_pp _ _ U0 H3') as M1. pose proof (mul_pp wx _ W0 (Qlt_le_weak _ _ H1')) as M2. pose proof (mul_pp vx (- (ux * wy - uy * wx)) V0 ltac:(lra)) as M3.
    assert (wx * (ux * vy - uy * vx) == 0) as Z by lra. apply Qmult_integral in Z as [Z|Z]; [|lra]. specialize (Wp Z).
    assert (ux * (vx * wy - vy * wx) == 0) as Z2 by lra. apply Qmult_integral in Z2 as [Z2|Z2].
    + destruct L1 as [?|[_ L1]]; [lra|]. rewrite Z2 in H1'. pose proof (mul_pp _ _ L1 V0). lra.
    + rewrite Z in Z2. pose proof (mul_sp _ _ P Wp). lra.
  - assert (vx == 0) as Z by lra. rewrite Z in H1', H3'. destruct L2 as [?|[_ L2]]; [lra|]. pose proof (mul_pp _ _ L2 W0) as M.
    assert (vy * wx == 0) as Z2 by lra. apply Qmult_integral in Z2 as [Z2|Z2]; [rewrite Z2 in H1'; lra|]. specialize (Wp Z2). rewrite Z2 in H2'.
    assert (0 < ux) as Up. { apply Qnot_le_lt. intros ?. assert (ux == 0) as Z3 by lra. rewrite Z3 in H1'. lra. } pose proof (mul_sp _ _ Up Wp). lra.
Qed.
(** a functional that does not increase upwards is largest at the ends of an edge below *)
Lemma below a b d k j x : b <= 0 → le j x → le x k → 0 <= T j k x →
  a * fst (pt j) + b * snd (pt j) <= d → a * fst (pt k) + b * snd (pt k) <= d → a * fst (pt x) + b * snd (pt x) <= d.
Proof.
  intros B L1 L2. destruct (pt j) as [jx jy], (pt k) as [kx ky], (pt x) as [x1 x2]. unfold vle, area2. cbn [fst snd] in *. intros H Hj Hk. unfold vle in L1, L2. cbn [fst snd] in *.
  destruct (Qlt_le_dec jx kx) as [P|P].
  - apply Qnot_lt_le. intros C. assert (0 <= x1 - jx) as X1 by (destruct L1 as [?|[? _]]; lra). assert (0 <= kx - x1) as X2 by (destruct L2 as [?|[? _]]; lra).
    pose proof (mul_sp (kx - jx) (a * x1 + b * x2 - d) ltac:(lra) ltac:(lra)) as M. pose proof (mul_pp (- b) _ ltac:(lra) H) as M1.
    pose proof (mul_pp (x1 - jx) (d - (a * kx + b * ky)) X1 ltac:(lra)) as M2. pose proof (mul_pp (kx - x1) (d - (a * jx + b * jy)) X2 ltac:(lra)) as M3. lra.
  - assert (x1 == jx) as E1 by (destruct L1 as [?|[? _]], L2 as [?|[? _]]; lra). assert (jy <= x2) as E2 by (destruct L1 as [?|[_ ?]]; [|assumption]; destruct L2 as [?|[? _]]; lra).
    pose proof (mul_pp (- b) (x2 - jy) ltac:(lra) ltac:(lra)). rewrite E1. lra.
Qed.
Lemma chain_covers (S : nat → Prop) a b d x : b <= 0 → S x → ∀ st k, lefts pt S (k :: st) → le x k → le (last (k :: st) 0%nat) x →
  (∀ i, In i (k :: st) → a * fst (pt i) + b * snd (pt i) <= d) → a * fst (pt x) + b * snd (pt x) <= d.
Proof.
  intros B Sx. induction st as [|j st IH]; intros k Lf Lk Lb Hd.
  - cbn in Lb. pose proof (vle_antisym _ _ Lk Lb) as [E1 E2]. rewrite E1, E2. apply Hd. left. reflexivity.
  - destruct Lf as [L1 L2]. destruct (vle_total (pt j) (pt x)) as [G|G].
    + apply (below a b d k j x B G Lk (L1 x Sx)); apply Hd; [right; left; reflexivity|left; reflexivity].
    + apply (IH j L2 G Lb). intros i Hi. apply Hd. right. exact Hi.
Qed.

(** lists *)
Lemma pops_in i : ∀ st x, In x (pops pt i st) → In x st.
Proof. induction st as [|k [|j st] IH]; intros x Hx; [exact Hx..|]. cbn [pops] in Hx. destruct (nz _); [right; apply IH, Hx|exact Hx]. Qed.
Lemma pops_nodup i : ∀ st, NoDup st → NoDup (pops pt i st).
Proof. induction st as [|k [|j st] IH]; intros H; [exact H..|]. cbn [pops]. destruct (nz _); [|exact H]. apply IH. inversion H; assumption. Qed.
Lemma chain_nodup l : ∀ st, NoDup l → NoDup st → (∀ x, In x l → ¬ In x st) → NoDup (fold_left (λ st i, i :: pops pt i st) l st).
Proof.
  induction l as [|i l IH]; intros st Hl Hst D; [exact Hst|]. cbn. inversion Hl as [|? ? Ni Hl']; subst. apply IH; [exact Hl'| |].
  - constructor; [intros H; apply pops_in in H; apply (D i (or_introl eq_refl) H)|apply pops_nodup, Hst].
  - intros x Hx [<- |H]; [exact (Ni Hx)|apply pops_in in H; exact (D x (or_intror Hx) H)].
Qed.
Lemma lefts_join S u : ∀ A B, lefts pt S (A ++ [u]) → lefts pt S (u :: B) → lefts pt S (A ++ u :: B).
Proof.
  induction A as [|a A IH]; intros B H1 H2; [exact H2|]. destruct A as [|a' A]; [split; [apply H1|exact H2]|]. destruct H1 as [X Y]. split; [exact X|apply (IH B Y H2)].
Qed.
Lemma lefts_at S : ∀ A k j B, lefts pt S (A ++ k :: j :: B) → ∀ x, S x → 0 <= T j k x.
Proof. induction A as [|a A IH]; intros k j B H; [apply H|]. apply (IH k j B). destruct A; apply H. Qed.
Lemma strict_join : ∀ A a u b B, strict pt (A ++ [a; u]) → strict pt (u :: b :: B) → 0 < T b u a → strict pt (A ++ a :: u :: b :: B).
Proof.
  induction A as [|x A IH]; intros a u b B H1 H2 H3; [split; assumption|]. destruct A as [|y [|z A]].
  - split; [apply H1|]. split; assumption.
  - split; [apply H1|]. exact (IH a u b B (proj2 H1) H2 H3).
  - split; [apply H1|]. exact (IH a u b B (proj2 H1) H2 H3).
Qed.
Lemma strict_at : ∀ A k j i B, strict pt (A ++ k :: j :: i :: B) → 0 < T i j k.
Proof. induction A as [|a A IH]; intros k j i B H; [apply H|]. apply (IH k j i B). destruct A as [|? [|? ?]]; apply H. Qed.
Lemma ordered_at : ∀ A k j B, ordered pt (A ++ k :: j :: B) → le j k.
Proof. induction A as [|a A IH]; intros k j B H; [apply H|]. apply (IH k j B). destruct A; apply H. Qed.
End hulls.

(** the same with the plane turned by half a turn *)
Definition opp (p : p2) : p2 := (- fst p, - snd p).
Lemma opp_area a b c : area2 (opp a) (opp b) (opp c) == area2 a b c.
Proof. unfold area2, opp. cbn. ring. Qed.
Lemma opp_vle a b : vle (opp a) (opp b) ↔ vle b a.
Proof. unfold vle, opp. cbn. split; (intros [?|[? ?]]; [left; lra|right; split; lra]). Qed.
Lemma opp_eq a b : eq2 (opp a) (opp b) ↔ eq2 a b.
Proof. unfold eq2, opp. cbn. split; intros [? ?]; split; lra. Qed.
Section turned.
Context (pt : nat → p2).
Local Notation pt' := (λ i, opp (pt i)).
Lemma pops_opp i st : pops pt' i st = pops pt i st.
Proof.
  induction st as [|k [|j st] IH]; [reflexivity..|]. cbn [pops]. assert (nz (turn pt' j k i) = nz (turn pt j k i)) as ->.
  { apply eq_true_iff_eq. rewrite !nz_t, !turn_area. cbv beta. rewrite opp_area. reflexivity. }
  destruct (nz _); [exact IH|reflexivity].
Qed.
Lemma chain_opp l : chain pt' l = chain pt l.
Proof. unfold chain. generalize (@nil nat). induction l as [|i l IH]; intros st; [reflexivity|]. cbn. rewrite pops_opp. apply IH. Qed.
Lemma lefts_opp S st : lefts pt' S st → lefts pt S st.
Proof. induction st as [|k [|j st] IH]; [tauto..|]. intros [X Y]. split; [intros x Hx; rewrite <- opp_area; apply X, Hx|apply IH, Y]. Qed.
Lemma strict_opp st : strict pt' st → strict pt st.
Proof. induction st as [|k [|j [|i st]] IH]; [tauto..|]. intros [X Y]. split; [rewrite <- opp_area; exact X|apply IH, Y]. Qed.
End turned.

(** sorting *)
Lemma lex_lt_t pt i j : lex_lt pt i j = true → vle (pt i) (pt j).
Proof. unfold lex_lt, vle. cbn zeta. destruct (is_negative (fst (pt i) - fst (pt j))) eqn:E1; qb; [left; lra|]. destruct (is_positive _) eqn:E2; qb; [discriminate|]. intros H. qb. right. split; lra. Qed.
Lemma lex_lt_f pt i j : lex_lt pt i j = false → vle (pt j) (pt i).
Proof. unfold lex_lt, vle. cbn zeta. destruct (is_negative (fst (pt i) - fst (pt j))) eqn:E1; qb; [discriminate|]. destruct (is_positive _) eqn:E2; qb; [left; lra|]. intros H. qb. right. split; lra. Qed.
Lemma insert_perm {A} (lt : A → A → bool) x l : Permutation (insert lt x l) (x :: l).
Proof. induction l as [|y l IH]; [reflexivity|]. cbn. destruct (lt y x); [|reflexivity]. rewrite IH. apply perm_swap. Qed.
Lemma isort_perm {A} (lt : A → A → bool) l : Permutation (isort lt l) l.
Proof. induction l as [|x l IH]; [reflexivity|]. cbn. rewrite insert_perm, IH. reflexivity. Qed.
Lemma lex_sorted pt l : StronglySorted (λ a b, vle (pt a) (pt b)) (isort (lex_lt pt) l).
Proof.
  induction l as [|x l IH]; [constructor|]. cbn. induction IH as [|y k Hs IH' Hf]; [repeat constructor|]. cbn. destruct (lex_lt pt y x) eqn:E.
  - constructor; [exact IH'|]. apply (Permutation_Forall (Permutation_sym (insert_perm _ _ _))). constructor; [apply lex_lt_t, E|exact Hf].
  - apply lex_lt_f in E. constructor; [constructor; assumption|]. constructor; [exact E|]. eapply Forall_impl; [|exact Hf]. cbv beta. intros a Ha. exact (vle_trans _ _ _ E Ha).
Qed.
Lemma sorted_app {A} (R : A → A → Prop) l x : StronglySorted R l → Forall (λ y, R y x) l → StronglySorted R (l ++ [x]).
Proof. induction 1 as [|a l Hs IH Hf]; intros F; cbn; [repeat constructor|]. inversion F; subst. constructor; [apply IH; assumption|]. apply Forall_app. split; [assumption|repeat constructor; assumption]. Qed.
Lemma sorted_rev {A} (R : A → A → Prop) l : StronglySorted R l → StronglySorted (λ a b, R b a) (rev l).
Proof. induction 1 as [|a l Hs IH Hf]; cbn; [constructor|]. apply sorted_app; [exact IH|]. apply Forall_rev. exact Hf. Qed.
Lemma last_rev {A} (l : list A) a d : last (rev (a :: l)) d = a.
Proof. cbn. apply last_last. Qed.

Section whole.
Context (pts : list p2).
Local Notation pt := (λ i, nth i pts (0, 0)).
Local Notation T a b c := (area2 (nth a pts (0, 0)) (nth b pts (0, 0)) (nth c pts (0, 0))).
Local Notation le a b := (vle (nth a pts (0, 0)) (nth b pts (0, 0))).
Local Notation In_ := (λ x, (x < length pts)%nat).

(** the two chains *)
Lemma hull_parts : (3 <= length pts)%nat → ∃ m M L0 U0,
  convex_hull_2d_indices pts = m :: rev L0 ++ M :: rev U0 ∧ m ≠ M ∧
  (∀ x, In_ x → le m x ∧ le x M) ∧
  chain_ok pt In_ (M :: L0 ++ [m]) ∧ chain_ok (λ i, opp (pt i)) In_ (m :: U0 ++ [M]) ∧
  NoDup (M :: L0 ++ [m]) ∧ NoDup (m :: U0 ++ [M]).
Proof.
  intros H3. unfold convex_hull_2d_indices, hull_indices. replace (length pts <? 3)%nat with false by (symmetry; apply Nat.ltb_ge; exact H3).
  unfold hull_sort. set (l := isort (lex_lt pt) (seq 0 (length pts))).
  assert (Permutation l (seq 0 (length pts))) as Pl by apply isort_perm. pose proof (lex_sorted pt (seq 0 (length pts))) as Sl. fold l in Sl.
  assert (NoDup l) as Nl by (apply (Permutation_NoDup (Permutation_sym Pl)), seq_NoDup).
  assert (∀ x, In x l ↔ In_ x) as Il by (intros x; rewrite (Permutation_in' eq_refl Pl), in_seq; lia).
  assert (length l = length pts) as Ll by (rewrite (Permutation_length Pl), seq_length; reflexivity). clearbody l. clear Pl.
  assert (∀ S S' (p : nat → p2) st, (∀ x, S x ↔ S' x) → chain_ok p S st → chain_ok p S' st) as Ext.
  { intros S S' p st HS (A & B & C & D). split; [exact A|]. split; [exact B|]. split; [|intros x Hx; apply HS, D, Hx].
    clear -C HS. induction st as [|u [|v st] IH]; [exact I..|]. destruct C as [X Y]. split; [intros x Hx; apply X, HS, Hx|apply IH, Y]. }
  destruct l as [|m l]; [cbn in Ll; lia|]. destruct (exists_last (l := l)) as (l1 & M & E); [intros ->; cbn in Ll; lia|]. subst l.
  destruct (chain_spec pt m (l1 ++ [M]) Sl) as (k & st & E1 & E2 & E3 & E4).
  assert (k = M) as -> by (rewrite E2, app_comm_cons; apply last_last). clear E2.
  apply sorted_rev in Sl. cbn [rev] in Sl. rewrite rev_app_distr in Sl. cbn [rev app] in Sl.
  destruct (chain_spec (λ i, opp (pt i)) M (rev l1 ++ [m])) as (k & su & F1 & F2 & F3 & F4).
  { clear -Sl. induction Sl as [|a l Hs IH Hf]; constructor; [exact IH|]. eapply Forall_impl; [|exact Hf]. cbv beta. intros b Hb. apply opp_vle, Hb. }
  assert (k = m) as -> by (rewrite F2, app_comm_cons; apply last_last). clear F2. rewrite chain_opp in F1.
  assert (m ≠ M) as NmM. { intros ->. inversion Nl as [|? ? X _]. apply X, in_app_iff. right. left. reflexivity. }
  assert (∃ L0, st = L0 ++ [m]) as [L0 ->].
  { destruct st as [|a st]; [cbn in E3; congruence|]. destruct (exists_last (l := a :: st)) as (L0 & b & E); [discriminate|]. rewrite E in *. exists L0. f_equal. rewrite app_comm_cons, last_last in E3. congruence. }
  assert (∃ U0, su = U0 ++ [M]) as [U0 ->].
  { destruct su as [|a st]; [cbn in F3; congruence|]. destruct (exists_last (l := a :: st)) as (U0 & b & E); [discriminate|]. rewrite E in *. exists U0. f_equal. rewrite app_comm_cons, last_last in F3. congruence. }
  assert (NoDup (chain pt (m :: l1 ++ [M]))) as N1 by exact (chain_nodup pt (m :: l1 ++ [M]) [] Nl (NoDup_nil _) (λ x _ H, H)).
  assert (NoDup (chain pt (M :: rev l1 ++ [m]))) as N2.
  { refine (chain_nodup pt (M :: rev l1 ++ [m]) [] _ (NoDup_nil _) (λ x _ H, H)). apply NoDup_rev in Nl. cbn in Nl. rewrite rev_app_distr in Nl. exact Nl. }
  exists m, M, L0, U0. split; [|split; [exact NmM|]].
  { cbn [rev]. rewrite rev_app_distr. cbn [rev app]. rewrite E1, F1. cbn [tl]. rewrite !rev_app_distr. cbn. reflexivity. }
  assert (∀ x, In_ x → le m x ∧ le x M) as Ext2.
  { intros x Hx. apply Il in Hx. apply sorted_rev in Sl. cbn [rev] in Sl. rewrite rev_app_distr, rev_involutive in Sl. cbn [rev app] in Sl. split.
    - inversion Sl as [|? ? _ Hf]; subst. destruct Hx as [<- |Hx]; [apply vle_refl|]. rewrite Forall_forall in Hf. apply Hf, Hx.
    - apply sorted_rev in Sl. cbn [rev] in Sl. rewrite rev_app_distr in Sl. cbn [rev app] in Sl. inversion Sl as [|? ? _ Hf]; subst.
      rewrite Forall_forall in Hf. rewrite app_comm_cons, in_app_iff in Hx. destruct Hx as [Hx|[<- |[]]]; [|apply vle_refl]. apply Hf. rewrite in_app_iff, <- in_rev. destruct Hx as [<- |Hx]; [right; left; reflexivity|left; exact Hx]. }
  split; [exact Ext2|]. split; [apply (Ext _ _ _ _ Il E4)|]. split; [|rewrite <- E1, <- F1; split; assumption].
  apply (Ext _ In_ _ _) in F4; [exact F4|]. intros x. rewrite <- Il. cbn. rewrite !in_app_iff, <- in_rev. cbn. tauto.
Qed.

Lemma snoc {A} (x : A) l : ∃ l' y, x :: l = l' ++ [y].
Proof. destruct (exists_last (l := x :: l)) as (l' & y & E); [discriminate|]. exists l', y. exact E. Qed.
Lemma cons_of {A} (l : list A) x : ∃ y l', l ++ [x] = y :: l'.
Proof. destruct l as [|y l]; [exists x, []|exists y, (l ++ [x])]; reflexivity. Qed.
Lemma nodup_app {A} (l k : list A) : NoDup l → NoDup k → (∀ x, In x l → ¬ In x k) → NoDup (l ++ k).
Proof.
  induction 1 as [|a l Ha Hl IH]; intros Hk D; [exact Hk|]. cbn. constructor.
  - rewrite in_app_iff. intros [?|?]; [contradiction|]. apply (D a); [left; reflexivity|assumption].
  - apply IH; [exact Hk|]. intros x Hx. apply D. right. exact Hx.
Qed.
Lemma split_two {A} (W : list A) d w : (w + 1 < length W)%nat → ∃ W1 W2, W = W1 ++ nth w W d :: nth (w + 1) W d :: W2.
Proof.
  revert W. induction w as [|w IH]; intros [|a [|b W]] H; cbn in H; try lia; [exists [], W; reflexivity|].
  destruct (IH (b :: W)) as (W1 & W2 & E); [cbn; lia|]. exists (a :: W1), W2. cbn [Nat.add nth app]. f_equal. exact E.
Qed.
Lemma split_three {A} (W : list A) d w : (w + 2 < length W)%nat → ∃ W1 W2, W = W1 ++ nth w W d :: nth (w + 1) W d :: nth (w + 2) W d :: W2.
Proof.
  revert W. induction w as [|w IH]; intros [|a [|b [|c W]]] H; cbn in H; try lia; [exists [], W; reflexivity|].
  destruct (IH (b :: c :: W)) as (W1 & W2 & E); [cbn; lia|]. exists (a :: W1), W2. cbn [Nat.add nth app]. f_equal. exact E.
Qed.
Lemma area_ne a b c : 0 < area2 a b c → ¬ eq2 a b ∧ ¬ eq2 b c.
Proof. unfold area2, eq2. intros H. split; intros [E F]; rewrite E, F in H; ring_simplify in H; lra. Qed.

Theorem convex_hull_ok : hull_of pts (convex_hull_2d_indices pts).
Proof.
  destruct (Nat.lt_ge_cases (length pts) 3) as [L|L].
  { unfold convex_hull_2d_indices, hull_indices. replace (length pts <? 3)%nat with true by (symmetry; apply Nat.ltb_lt; exact L).
    destruct pts as [|p [|q [|r l]]]; [| | |cbn in L; lia]; cbn; unfold hull_of; cbn.
    - split; [constructor|]. split; [intros _ []|]. split; [intros; lia|]. split; [intros; lia|]. intros a b d _ x [].
    - split; [repeat constructor; intros []|]. split; [intros i [<- |[]]; lia|]. split; [intros w x Hw _|]. { destruct w; [cbn|lia]. unfold area2. ring_simplify. lra. }
      split; [intros; lia|]. intros a b d H x [<- |[]]. apply (H 0%nat). left. reflexivity.
    - split; [repeat constructor; cbn; intuition lia|]. split; [intros i [<- |[<- |[]]]; lia|]. split.
      { intros w x Hw [<- |[<- |[]]]; (destruct w as [|[|w]]; [| |lia]); cbn; unfold area2; ring_simplify; lra. }
      split; [intros; lia|]. intros a b d H x [<- |[<- |[]]]; [apply (H 0%nat); left|apply (H 1%nat); right; left]; reflexivity. }
  destruct (hull_parts L) as (m & M & L0 & U0 & -> & NmM & Hx & CL & CU & N1 & N2).
  set (h := m :: rev L0 ++ M :: rev U0).
  destruct CL as (OL & SL & FL & IL). destruct CU as (OU & SU & FU & IU).
  apply lefts_opp in FU. apply strict_opp in SU.
  assert (lefts pt In_ (m :: U0 ++ M :: L0 ++ [m])) as FW by (apply (lefts_join pt In_ M (m :: U0) (L0 ++ [m])); assumption).
  assert (∀ k, In k L0 → ¬ In k U0) as Apart.
  { intros k K1 K2. apply in_split in K1 as (X & Y & ->). apply in_split in K2 as (X' & Y' & ->).
    destruct (snoc M X) as (X1 & b & EX). destruct (cons_of Y m) as (a & Y1 & EY). destruct (snoc m X') as (X2 & e & EX'). destruct (cons_of Y' M) as (c & Y2 & EY').
    assert (M :: (X ++ k :: Y) ++ [m] = X1 ++ b :: k :: a :: Y1) as EL by (rewrite <- app_assoc; cbn; rewrite EY, app_comm_cons, EX, <- app_assoc; reflexivity).
    assert (m :: (X' ++ k :: Y') ++ [M] = X2 ++ e :: k :: c :: Y2) as EU by (rewrite <- app_assoc; cbn; rewrite EY', app_comm_cons, EX', <- app_assoc; reflexivity).
    rewrite EL in OL, SL, FL, IL. rewrite EU in OU, SU, FU, IU. change (X1 ++ b :: k :: a :: Y1) with (X1 ++ [b] ++ k :: a :: Y1) in OL, FL. change (X2 ++ e :: k :: c :: Y2) with (X2 ++ [e] ++ k :: c :: Y2) in OU, FU.
    pose proof (strict_at pt _ _ _ _ _ SL) as H1. pose proof (strict_at pt _ _ _ _ _ SU) as H2. pose proof (ordered_at pt _ _ _ _ OL) as O1. rewrite app_assoc in OL, OU, FU.
    pose proof (ordered_at pt _ _ _ _ OL) as O2. pose proof (ordered_at _ _ _ _ _ OU) as O3. apply (proj1 (opp_vle _ _)) in O3. pose proof (lefts_at pt In_ _ _ _ _ FU) as H3. cbv beta in *.
    apply (chains_apart pt a k b c); try assumption; [apply (area_ne _ _ _ H2)|apply H3, IL; apply in_app_iff; right; right; right; left; reflexivity|apply H3, IL; apply in_app_iff; right; left; reflexivity]. }
  assert (∀ x, In x h → In x (M :: L0 ++ [m]) ∨ In x (m :: U0 ++ [M])) as Hh.
  { intros x. unfold h. cbn. rewrite !in_app_iff. cbn. rewrite <- !in_rev. tauto. }
  assert (∀ w, (w <= length h)%nat → nth (Nat.modulo w (length h)) h 0%nat = nth w (h ++ [m]) 0%nat) as Wrap.
  { intros w Hw. destruct (Nat.eq_dec w (length h)) as [-> |N]; [rewrite Nat.mod_same by (unfold h; cbn; lia); rewrite app_nth2, Nat.sub_diag by lia; reflexivity|].
    rewrite Nat.mod_small, app_nth1 by lia. reflexivity. }
  split; [|split; [|split; [|split]]].
  - apply (Permutation_NoDup (l := (M :: L0 ++ [m]) ++ U0)).
    + unfold h. etransitivity; [|apply perm_skip, Permutation_middle]. rewrite app_comm_cons, <- app_assoc. cbn. etransitivity; [apply perm_skip; symmetry; apply Permutation_middle|].
      etransitivity; [apply perm_swap|]. do 2 apply perm_skip. apply Permutation_app; apply Permutation_rev.
    + inversion N2 as [|? ? X1 X2]; subst. apply NoDup_remove in X2 as [X2 X3]. rewrite app_nil_r in X2, X3. apply nodup_app; [exact N1|exact X2|].
      intros x [<- |Hi]; [exact X3|]. apply in_app_iff in Hi as [Hi|[<- |[]]]; [apply Apart, Hi|]. intros Hm. apply X1, in_app_iff. left. exact Hm.
  - intros i Hi. destruct (Hh i Hi); [apply IL|apply IU]; assumption.
  - intros w x Hw Hin. apply (In_nth _ _ (0, 0)) in Hin as (k & Hk & <-). rewrite !Wrap by lia.
    destruct (split_two (h ++ [m]) 0%nat w) as (W1 & W2 & E); [rewrite app_length; cbn [length]; lia|].
    assert (rev (h ++ [m]) = m :: U0 ++ M :: L0 ++ [m]) as ER by (unfold h; cbn; rewrite rev_app_distr; cbn; rewrite rev_app_distr; cbn; rewrite rev_involutive, <- app_assoc; cbn; rewrite rev_involutive, <- app_assoc; reflexivity).
    rewrite <- ER, E, rev_app_distr in FW. cbn [rev] in FW. rewrite <- !app_assoc in FW. cbn [app] in FW. apply (lefts_at pt In_ _ _ _ _ FW k Hk).
  - intros H3 w Hw.
    assert (∃ i j k, In_ i ∧ In_ j ∧ In_ k ∧ 0 < T i j k) as Trip.
    { destruct L0 as [|l L0]; [destruct U0 as [|u U0]; [cbn in H3; lia|]|].
      - destruct (cons_of U0 M) as (y & l' & E). cbn [app] in SU, IU. rewrite E in SU, IU. exists y, u, m. destruct SU as [SU _]. repeat split; [apply IU..|exact SU]; cbn; tauto.
      - destruct (cons_of L0 m) as (y & l' & E). cbn [app] in SL, IL. rewrite E in SL, IL. exists y, l, M. destruct SL as [SL _]. repeat split; [apply IL..|exact SL]; cbn; tauto. }
    assert (In_ m) as Im by (apply IU; left; reflexivity). assert (In_ M) as IM by (apply IL; left; reflexivity).
    assert (¬ eq2 (pt m) (pt M)) as NE.
    { intros [E1 E2]. destruct Trip as (i & j & k & Hi & Hj & Hk & Ht). assert (∀ x, In_ x → eq2 (pt x) (pt m)) as Eq.
      { intros x Ix. destruct (Hx x Ix) as [A B]. apply vle_antisym; [|exact A]. cbv beta in *. destruct (nth x pts (0, 0)), (nth m pts (0, 0)), (nth M pts (0, 0)). unfold vle in *. cbn in *. destruct B as [?|[? ?]]; [left; lra|right; split; lra]. }
      destruct (Eq i Hi) as [X1 Y1]. destruct (Eq j Hj) as [X2 Y2]. cbv beta in *. unfold area2 in Ht. rewrite X1, X2, Y1, Y2 in Ht. ring_simplify in Ht. lra. }
    destruct (cons_of L0 m) as (b & B & EB). destruct (snoc m U0) as (A & a & EA). destruct (cons_of U0 M) as (e & E & EE). destruct (snoc M L0) as (D & s & ED).
    assert (M :: L0 ++ [m] = D ++ [s; m]) as EL by (rewrite app_comm_cons, ED, <- app_assoc; reflexivity).
    assert (m :: U0 ++ [M] = A ++ [a; M]) as EU by (rewrite app_comm_cons, EA, <- app_assoc; reflexivity).
    assert (In_ b) as Ib by (apply IL; rewrite EB; right; left; reflexivity). assert (In_ a) as Ia by (apply IU; rewrite EU; apply in_app_iff; right; left; reflexivity).
    assert (In_ e) as Ie by (apply IU; rewrite EE; right; left; reflexivity). assert (In_ s) as Is by (apply IL; rewrite EL; apply in_app_iff; right; left; reflexivity).
    assert (¬ eq2 (pt b) (pt M)) as Nb.
    { destruct L0 as [|l L0]; [cbn in EB; injection EB as <- _; exact NE|]. cbn [app] in EB. injection EB as <- EB. destruct (cons_of L0 m) as (y & l' & E'). cbn [app] in SL. rewrite E' in SL. destruct SL as [SL _]. apply (area_ne _ _ _ SL). }
    assert (¬ eq2 (pt e) (pt m)) as Nee.
    { destruct U0 as [|u U0]; [cbn in EE; injection EE as <- _; intros [? ?]; apply NE; split; symmetry; assumption|]. cbn [app] in EE. injection EE as <- EE. destruct (cons_of U0 M) as (y & l' & E'). cbn [app] in SU. rewrite E' in SU. destruct SU as [SU _]. apply (area_ne _ _ _ SU). }
    assert (¬ eq2 (pt a) (pt M)) as Na.
    { destruct A as [|z A]; [injection EA as <- _; exact NE|]. destruct (snoc z A) as (A' & y & E'). rewrite EU, E', <- app_assoc in SU. cbn [app] in SU. pose proof (strict_at pt _ _ _ _ _ SU) as X. intros [? ?]. apply (proj1 (area_ne _ _ _ X)). split; symmetry; assumption. }
    assert (¬ eq2 (pt s) (pt m)) as Ns.
    { destruct D as [|z D]; [injection ED as <- _; intros [? ?]; apply NE; split; symmetry; assumption|]. destruct (snoc z D) as (D' & y & E'). rewrite EL, E', <- app_assoc in SL. cbn [app] in SL. pose proof (strict_at pt _ _ _ _ _ SL) as X. intros [? ?]. apply (proj1 (area_ne _ _ _ X)). split; symmetry; assumption. }
    assert (0 < T b M a) as JM.
    { apply (junction pt In_ b M a Ib IM Ia); [intros x Ix; apply Hx, Ix| | |exact Nb|exact Na|exact Trip].
      - rewrite EB in FL. apply FL.
      - rewrite EU in FU. exact (lefts_at pt In_ _ _ _ _ FU). }
    assert (0 < T e m s) as Jm.
    { rewrite <- opp_area. apply (junction (λ i, opp (pt i)) In_ e m s Ie Im Is); [intros x Ix; apply opp_vle, Hx, Ix| | |rewrite opp_eq; exact Nee|rewrite opp_eq; exact Ns|].
      - intros x Ix. rewrite opp_area. rewrite EE in FU. apply FU, Ix.
      - intros x Ix. rewrite opp_area. rewrite EL in FL. exact (lefts_at pt In_ _ _ _ _ FL x Ix).
      - destruct Trip as (i & j & k & ? & ? & ? & Ht). exists i, j, k. rewrite opp_area. tauto. }
    assert (strict pt (s :: m :: U0 ++ M :: L0 ++ [m])) as SW.
    { assert (strict pt (m :: U0 ++ M :: L0 ++ [m])) as S1.
      { assert (m :: U0 ++ M :: L0 ++ [m] = A ++ a :: M :: b :: B) as -> by (rewrite app_comm_cons, EA, EB, <- app_assoc; reflexivity).
        apply strict_join; [rewrite <- EU; exact SU|rewrite <- EB; exact SL|exact JM]. }
      assert (m :: U0 ++ M :: L0 ++ [m] = m :: e :: (E ++ L0 ++ [m])) as E1.
      { f_equal. transitivity ((U0 ++ [M]) ++ L0 ++ [m]); [rewrite <- app_assoc; reflexivity|]. rewrite EE. reflexivity. }
      rewrite E1 in *. split; [exact Jm|exact S1]. }
    assert (rev (h ++ [m; s]) = s :: m :: U0 ++ M :: L0 ++ [m]) as ER by (unfold h; cbn; rewrite rev_app_distr; cbn; rewrite rev_app_distr; cbn; rewrite rev_involutive, <- app_assoc; cbn; rewrite rev_involutive, <- app_assoc; reflexivity).
    assert (nth 1 h 0%nat = s) as Es.
    { assert (rev (M :: L0) = s :: rev D) as R by (rewrite ED, rev_app_distr; reflexivity). cbn in R. unfold h.
      change (m :: rev L0 ++ M :: rev U0) with (m :: rev L0 ++ [M] ++ rev U0). rewrite app_assoc, R. reflexivity. }
    assert (∀ v, (v < length h + 2)%nat → nth (Nat.modulo v (length h)) h 0%nat = nth v (h ++ [m; s]) 0%nat) as Wrap2.
    { intros v Hv. destruct (Nat.lt_ge_cases v (length h)) as [G|G]; [rewrite Nat.mod_small, app_nth1 by lia; reflexivity|]. rewrite app_nth2 by lia.
      replace v with ((v - length h) + 1 * length h)%nat at 1 by lia. rewrite Nat.mod_add, Nat.mod_small by lia. destruct (v - length h)%nat as [|[|n]] eqn:Ev; [reflexivity|exact Es|lia]. }
    rewrite !Wrap2 by lia. destruct (split_three (h ++ [m; s]) 0%nat w) as (W1 & W2 & E'); [rewrite app_length; cbn [length]; lia|].
    rewrite <- ER, E', rev_app_distr in SW. cbn [rev] in SW. rewrite <- !app_assoc in SW. cbn [app] in SW. exact (strict_at pt _ _ _ _ _ SW).
  - intros a b d Hd x Hin. apply (In_nth _ _ (0, 0)) in Hin as (k & Hk & <-). destruct (Hx k Hk) as [X1 X2].
    destruct (Qlt_le_dec 0 b) as [B|B].
    + assert (- a * fst (opp (pt k)) + - b * snd (opp (pt k)) <= d) as G; [|change (a * fst (pt k) + b * snd (pt k) <= d); cbv beta in *; destruct (nth k pts (0, 0)) as [x1 x2]; cbn in *; lra].
      apply (chain_covers (λ i, opp (pt i)) In_ (- a) (- b) d k ltac:(lra) Hk (U0 ++ [M]) m).
      * clear -FU. revert FU. generalize (m :: U0 ++ [M]). induction l as [|u [|v l] IH]; [tauto..|]. intros [X Y]. split; [intros y Hy; rewrite opp_area; apply X, Hy|apply IH, Y].
      * apply opp_vle. exact X1.
      * rewrite app_comm_cons, last_last. apply opp_vle. exact X2.
      * intros i Hi. assert (In i h) as Ih by (unfold h; cbn in Hi |- *; rewrite in_app_iff in Hi |- *; cbn in Hi |- *; rewrite <- !in_rev; tauto). specialize (Hd i Ih). cbv beta in *. destruct (nth i pts (0, 0)) as [x1 x2]. cbn in *. lra.
    + apply (chain_covers pt In_ a b d k B Hk (L0 ++ [m]) M FL X2); [rewrite app_comm_cons, last_last; exact X1|].
      intros i Hi. apply Hd. unfold h. cbn in Hi |- *. rewrite in_app_iff in Hi |- *. cbn in Hi |- *. rewrite <- !in_rev. tauto.
Qed.
End whole.
