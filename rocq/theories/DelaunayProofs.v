(** Lists, edges, adjacency and Bowyer-Watson insertion. *)
From Verif Require Export DelaunaySpec GeomBase.
From Coq Require Import ZArith.
Local Arguments Qmult : simpl never.
Local Arguments Qplus : simpl never.
Local Arguments Qminus : simpl never.
Local Arguments Qopp : simpl never.
Local Arguments Nat.ltb : simpl never.

(** ** Lists *)
Lemma nth_app_l {A} (l k : list A) i : (i < length l)%nat → nth_error (l ++ k) i = nth_error l i.
Proof. apply nth_error_app1. Qed.
Lemma nth_lt {A} (l : list A) i x : nth_error l i = Some x → (i < length l)%nat.
Proof. intros H. apply nth_error_Some. congruence. Qed.
Lemma nth_some {A} (l : list A) i : (i < length l)%nat → ∃ x, nth_error l i = Some x.
Proof. intros H. apply nth_error_Some in H. destruct (nth_error l i) as [x|]; [exists x; reflexivity|contradiction]. Qed.

Lemma split_at {A} i (l : list A) x : nth_error l i = Some x → l = firstn i l ++ x :: skipn (S i) l ∧ length (firstn i l) = i.
Proof.
  revert l. induction i as [|i IH]; intros [|y l] H; try discriminate H.
  - injection H as ->. split; reflexivity.
  - cbn in H. destruct (IH l H) as [E L]. cbn. rewrite L. split; [|reflexivity]. f_equal. exact E.
Qed.
Lemma set_at_some {A} i (x : A) l : (i < length l)%nat → ∃ l', set_at i x l = Some l' ∧ length l' = length l ∧
  ∀ j, nth_error l' j = if j =? i then Some x else nth_error l j.
Proof.
  intros H. unfold set_at. replace (i <? length l) with true by (symmetry; apply Nat.ltb_lt, H).
  destruct (nth_some l i H) as [y Hy]. destruct (split_at i l y Hy) as [E L]. eexists. split; [reflexivity|]. split.
  - rewrite E at 3. rewrite !app_length. reflexivity.
  - intros j. destruct (Nat.eqb_spec j i) as [->|N].
    + rewrite nth_error_app2 by lia. rewrite L, Nat.sub_diag. reflexivity.
    + rewrite E at 3. destruct (Nat.lt_ge_cases j i) as [G|G].
      * rewrite !nth_error_app1 by lia. reflexivity.
      * rewrite !nth_error_app2 by lia. rewrite L. destruct (j - i)%nat eqn:K; [lia|reflexivity].
Qed.
Lemma set_at_in {A} i (x y : A) l l' : set_at i x l = Some l' → In y l' → y = x ∨ In y l.
Proof.
  intros E H. unfold set_at in E. destruct (i <? length l); [|discriminate]. injection E as <-.
  apply in_app_or in H. destruct H as [H|[->|H]].
  - right. rewrite <- (firstn_skipn i l). apply in_or_app. left. exact H.
  - left. reflexivity.
  - right. rewrite <- (firstn_skipn (S i) l). apply in_or_app. right. exact H.
Qed.

Lemma swap_remove_some {A} i (l : list A) x : nth_error l i = Some x →
  ∃ l', swap_remove i l = Some l' ∧ Permutation l (x :: l').
Proof.
  intros H. pose proof (nth_lt _ _ _ H) as L. unfold swap_remove. destruct (rev l) as [|y r] eqn:E.
  { apply (f_equal (@length A)) in E. rewrite rev_length in E. cbn in E. lia. }
  assert (El : l = rev r ++ [y]) by (rewrite <- (rev_involutive l), E; reflexivity).
  assert (Ln : length l = S (length (rev r))) by (rewrite El, app_length; cbn; lia).
  set (l' := rev r) in *. clearbody l'. destruct (Nat.eqb_spec i (length l')) as [->|N].
  - eexists. split; [reflexivity|]. rewrite El in H. rewrite nth_error_app2, Nat.sub_diag in H by lia. injection H as ->.
    rewrite El. symmetry. apply Permutation_cons_append.
  - replace (i <? length l') with true by (symmetry; apply Nat.ltb_lt; lia). eexists. split; [reflexivity|].
    rewrite El, nth_error_app1 in H by lia. destruct (split_at i l' x H) as [E' _]. rewrite El.
    rewrite E' at 1. rewrite <- app_assoc. cbn. etransitivity; [symmetry; apply Permutation_middle|]. constructor.
    rewrite app_assoc. etransitivity; [symmetry; apply Permutation_cons_append|].
    apply Permutation_middle.
Qed.

Lemma mapo_some {A B} (f : A → option B) (P : A → Prop) (R : B → Prop) l :
  (∀ x, P x → ∃ y, f x = Some y ∧ R y) → Forall P l → ∃ r, mapo f l = Some r ∧ Forall R r ∧ length r = length l.
Proof.
  intros H. induction 1 as [|x l Hx Hl (r & E & F & L)]; cbn.
  - exists []. repeat split. constructor.
  - destruct (H x Hx) as (y & -> & Ry). cbn. rewrite E. cbn. exists (y :: r). split; [reflexivity|]. split; [constructor; assumption|]. cbn. congruence.
Qed.
Lemma mapo_in {A B} (f : A → option B) l r y : mapo f l = Some r → In y r → ∃ x, In x l ∧ f x = Some y.
Proof.
  revert r. induction l as [|x l IH]; intros r E H; cbn in E.
  - injection E as <-. destruct H.
  - destruct (f x) as [z|] eqn:F; [|discriminate]. cbn in E. destruct (mapo f l) as [k|]; [|discriminate]. cbn in E. injection E as <-.
    destruct H as [<-|H]; [exists x; split; [left; reflexivity|exact F]|]. destruct (IH k eq_refl H) as (x' & I & F'). exists x'. split; [right; exact I|exact F'].
Qed.

(** ** Edges *)
Lemma edge_eqb_eq e f : edge_eqb e f = true ↔ e = f.
Proof.
  destruct e as [a b], f as [c d]. unfold edge_eqb. cbn. rewrite andb_true_iff, !Nat.eqb_eq. split; [intros [-> ->]; reflexivity|].
  intros E. injection E as -> ->. auto.
Qed.
Lemma edge_eqb_refl e : edge_eqb e e = true.
Proof. apply edge_eqb_eq. reflexivity. Qed.
Lemma edge_eqb_neq e f : edge_eqb e f = false ↔ e ≠ f.
Proof. rewrite <- edge_eqb_eq. destruct (edge_eqb e f); intuition congruence. Qed.
Lemma emem_in e l : emem e l = true ↔ In e l.
Proof.
  unfold emem. rewrite existsb_exists. split.
  - intros (x & I & E). apply edge_eqb_eq in E. subst. exact I.
  - intros I. exists e. split; [exact I|apply edge_eqb_refl].
Qed.
Lemma emem_not e l : emem e l = false ↔ ¬ In e l.
Proof. rewrite <- emem_in. destruct (emem e l); intuition congruence. Qed.
Lemma mk_edge_comm a b : mk_edge a b = mk_edge b a.
Proof.
  unfold mk_edge. destruct (Nat.ltb_spec a b), (Nat.ltb_spec b a); try reflexivity; [lia|].
  replace b with a by lia. reflexivity.
Qed.
Lemma mk_edge_cases a b : (mk_edge a b = (a, b) ∧ (a < b)%nat) ∨ (mk_edge a b = (b, a) ∧ (b <= a)%nat).
Proof. unfold mk_edge. destruct (Nat.ltb_spec a b); [left|right]; auto. Qed.
Lemma mk_edge_lt a b : a ≠ b → (fst (mk_edge a b) < snd (mk_edge a b))%nat.
Proof. intros H. destruct (mk_edge_cases a b) as [[-> L]|[-> L]]; cbn; lia. Qed.
Lemma mk_edge_sorted u v : (u < v)%nat → mk_edge u v = (u, v).
Proof. intros H. unfold mk_edge. replace (u <? v) with true; [reflexivity|]. symmetry. apply Nat.ltb_lt, H. Qed.
Lemma mk_edge_inj a b c d : mk_edge a b = mk_edge c d → (a = c ∧ b = d) ∨ (a = d ∧ b = c).
Proof.
  destruct (mk_edge_cases a b) as [[-> L]|[-> L]], (mk_edge_cases c d) as [[-> M]|[-> M]]; intros E; injection E as E1 E2; lia.
Qed.
Ltac edges := repeat match goal with
  | H : mk_edge _ _ = mk_edge _ _ |- _ => apply mk_edge_inj in H
  | H : _ ∨ _ |- _ => destruct H
  | H : _ ∧ _ |- _ => destruct H
  end; subst; try lia; try congruence.

Lemma valid_sides n t : valid_tri n t → NoDup (sides t).
Proof.
  destruct t as [[a b] c]. intros (_ & A & B & C). cbn. repeat constructor; cbn; intros H.
  - destruct H as [H|[H|[]]]; edges.
  - destruct H as [H|[]]; edges.
  - exact H.
Qed.
Lemma valid_corners n t : valid_tri n t → NoDup (corners t).
Proof.
  destruct t as [[a b] c]. intros (_ & A & B & C). cbn. repeat constructor; cbn; intros H; [destruct H as [H|[H|[]]]|destruct H as [H|[]]|exact H]; congruence.
Qed.
Lemma valid_lt n t v : valid_tri n t → In v (corners t) → (v < n)%nat.
Proof. destruct t as [[a b] c]. intros ((A & B & C) & _) [<-|[<-|[<-|[]]]]; assumption. Qed.
(** a sorted pair is a side exactly when both ends are corners *)
Lemma in_sides n t u v : valid_tri n t → (u < v)%nat → In (u, v) (sides t) ↔ In u (corners t) ∧ In v (corners t).
Proof.
  destruct t as [[a b] c]. intros (_ & A & B & C) L. cbn [sides corners]. split.
  - intros H. cbn in H. destruct H as [H|[H|[H|[]]]]; rewrite <- (mk_edge_sorted u v L) in H; cbn; edges; tauto.
  - cbn. intros [[->|[->|[->|[]]]] [->|[->|[->|[]]]]]; try lia; rewrite <- (mk_edge_sorted u v L); rewrite ?(mk_edge_comm u v); tauto.
Qed.
Lemma side_sorted n t e : valid_tri n t → In e (sides t) → (fst e < snd e)%nat.
Proof.
  destruct t as [[a b] c]. intros (_ & A & B & C). cbn. intros [<-|[<-|[<-|[]]]]; apply mk_edge_lt; congruence.
Qed.
Lemma side_corners n t e : valid_tri n t → In e (sides t) → In (fst e) (corners t) ∧ In (snd e) (corners t).
Proof. intros V H. pose proof (side_sorted n t e V H). apply (in_sides n t _ _ V); [assumption|]. destruct e; exact H. Qed.
Lemma mk_edge_side n t a b : valid_tri n t → a ≠ b → In (mk_edge a b) (sides t) ↔ In a (corners t) ∧ In b (corners t).
Proof.
  intros V H. destruct (mk_edge_cases a b) as [[-> L]|[-> L]].
  - apply (in_sides n); assumption.
  - rewrite (in_sides n) by (assumption || lia). tauto.
Qed.

(** ** Adjacency, seen as lists of the triangles named by a partial function *)
Definition adj_at (n : nat) (T : nat → option tri) (a : adj) : Prop :=
  (∀ e, NoDup (e2t a e) ∧ ∀ i, In i (e2t a e) ↔ ∃ t, T i = Some t ∧ In e (sides t)) ∧
  length (v2t a) = n ∧
  (∀ v l, nth_error (v2t a) v = Some l → NoDup l ∧ ∀ i, In i l ↔ ∃ t, T i = Some t ∧ In v (corners t)).
Definition put (T : nat → option tri) (i : nat) (x : option tri) : nat → option tri :=
  λ j, if j =? i then x else T j.

Lemma fold_upd_e g es f x : NoDup es →
  fold_left (λ f e, upd_e f e g) es f x = if emem x es then g (f x) else f x.
Proof.
  revert f. induction es as [|e es IH]; intros f N; [reflexivity|]. cbn [fold_left]. apply NoDup_cons_iff in N. destruct N as [N1 N2].
  rewrite IH by assumption. unfold upd_e at 1 2. cbn [emem existsb]. fold (emem x es). destruct (edge_eqb x e) eqn:E; cbn; [|reflexivity].
  apply edge_eqb_eq in E. subst e. apply emem_not in N1. rewrite N1. reflexivity.
Qed.
Lemma upd_v_some g l v : (v < length l)%nat → ∃ l', upd_v l v g = Some l' ∧ length l' = length l ∧
  ∀ j, nth_error l' j = if j =? v then option_map g (nth_error l j) else nth_error l j.
Proof.
  intros H. unfold upd_v. destruct (nth_some l v H) as [x Hx]. rewrite Hx. cbn. destruct (set_at_some v (g x) l H) as (l' & E & L & N).
  exists l'. split; [exact E|]. split; [exact L|]. intros j. rewrite N. destruct (Nat.eqb_spec j v) as [->|]; [rewrite Hx; reflexivity|reflexivity].
Qed.
Lemma fold_upd_v g vs l : NoDup vs → Forall (λ v, (v < length l)%nat) vs →
  ∃ l', fold_left (λ v c, l <-? v; upd_v l c g) vs (Some l) = Some l' ∧ length l' = length l ∧
  ∀ j, nth_error l' j = if memb j vs then option_map g (nth_error l j) else nth_error l j.
Proof.
  revert l. induction vs as [|v vs IH]; intros l N F; cbn [fold_left].
  - exists l. auto.
  - apply NoDup_cons_iff in N. destruct N as [N1 N2]. apply Forall_cons_iff in F. destruct F as [F1 F2]. cbn [bind].
    destruct (upd_v_some g l v F1) as (l1 & -> & L1 & H1). rewrite <- L1 in F2.
    destruct (IH l1 N2 F2) as (l2 & E & L2 & H2). exists l2. split; [exact E|]. split; [congruence|].
    intros j. rewrite H2, H1. cbn [memb existsb]. fold (memb j vs). destruct (Nat.eqb_spec j v) as [->|]; cbn.
    + destruct (memb v vs) eqn:M; [|reflexivity]. exfalso. apply N1. unfold memb in M. apply existsb_exists in M. destruct M as (y & I & E'). apply Nat.eqb_eq in E'. subst. exact I.
    + reflexivity.
Qed.
Lemma memb_in v l : memb v l = true ↔ In v l.
Proof.
  unfold memb. rewrite existsb_exists. split; [intros (x & I & E); apply Nat.eqb_eq in E; subst; exact I|]. intros I. exists v. split; [exact I|apply Nat.eqb_refl].
Qed.
Lemma NoDup_push i l : NoDup l → ¬ In i l → NoDup (push i l).
Proof.
  intros N H. unfold push. apply NoDup_rev in N. rewrite <- (rev_involutive (l ++ [i])). apply NoDup_rev. rewrite rev_app_distr. cbn. constructor; [|exact N].
  rewrite <- in_rev. exact H.
Qed.
Lemma in_push i j l : In j (push i l) ↔ In j l ∨ j = i.
Proof. unfold push. rewrite in_app_iff. cbn. intuition congruence. Qed.
Lemma position_some x l : In x l → ∃ k, position x l = Some k ∧ nth_error l k = Some x.
Proof.
  induction l as [|y l IH]; [intros []|]. intros [->|H]; cbn.
  - rewrite Nat.eqb_refl. exists O. split; reflexivity.
  - destruct (Nat.eqb_spec y x) as [->|N]; [exists O; split; reflexivity|]. destruct (IH H) as (k & -> & E). exists (S k). split; [reflexivity|exact E].
Qed.
Lemma position_none x l : ¬ In x l → position x l = None.
Proof.
  induction l as [|y l IH]; intros H; [reflexivity|]. cbn. destruct (Nat.eqb_spec y x) as [->|N]; [exfalso; apply H; left; reflexivity|].
  rewrite IH by (intros I; apply H; right; exact I). reflexivity.
Qed.
Lemma drop_first_spec i l : NoDup l → NoDup (drop_first i l) ∧ ∀ j, In j (drop_first i l) ↔ In j l ∧ j ≠ i.
Proof.
  intros N. unfold drop_first. destruct (in_dec Nat.eq_dec i l) as [H|H].
  - destruct (position_some i l H) as (k & -> & E). destruct (swap_remove_some k l i E) as (l' & -> & P).
    pose proof (Permutation_NoDup P N) as N'. apply NoDup_cons_iff in N'. destruct N' as [N1 N2]. split; [exact N2|]. intros j. split.
    + intros I. split; [apply (Permutation_in _ (Permutation_sym P)); right; exact I|]. intros ->. contradiction.
    + intros [I J]. apply (Permutation_in _ P) in I. destruct I as [->|I]; [contradiction|exact I].
  - rewrite (position_none i l H). split; [exact N|]. intros j. split; [|tauto]. intros I. split; [exact I|]. intros ->. contradiction.
Qed.

Lemma add_tri_ok n T a i t : adj_at n T a → T i = None → valid_tri n t →
  ∃ a', add_tri a i t = Some a' ∧ adj_at n (put T i (Some t)) a'.
Proof.
  intros (He & Ln & Hv) Hi V. unfold add_tri. destruct (fold_upd_v (push i) (corners t) (v2t a)) as (l' & -> & L' & H').
  { apply (valid_corners n), V. }
  { apply Forall_forall. intros v Iv. rewrite Ln. apply (valid_lt n t); assumption. }
  cbn [bind]. eexists. split; [reflexivity|]. assert (Hin : ∀ P : tri → Prop, (∃ t', put T i (Some t) i = Some t' ∧ P t') ↔ P t).
  { intros P. unfold put. rewrite Nat.eqb_refl. split; [intros (t' & E & H); injection E as <-; exact H|]. intros H. exists t. auto. }
  split; [|split].
  - intros e. cbn [e2t]. rewrite fold_upd_e by (apply (valid_sides n), V). destruct (He e) as [N I]. destruct (emem e (sides t)) eqn:M.
    + apply emem_in in M. assert (G : ¬ In i (e2t a e)) by (rewrite I, Hi; intros (? & ? & _); discriminate). split; [apply NoDup_push; assumption|].
      intros j. rewrite in_push, I. unfold put. destruct (Nat.eqb_spec j i) as [->|Nj].
      * split; [intros _; exists t; auto|]. tauto.
      * split; [intros [H|H]; [exact H|contradiction]|tauto].
    + apply emem_not in M. split; [exact N|]. intros j. rewrite I. unfold put. destruct (Nat.eqb_spec j i) as [->|Nj]; [|tauto].
      split; [intros (? & ? & _); congruence|]. intros (t' & E & H). injection E as <-. contradiction.
  - cbn. congruence.
  - intros v l Hl. cbn [v2t] in Hl. rewrite H' in Hl. destruct (memb v (corners t)) eqn:M.
    + apply memb_in in M. destruct (nth_error (v2t a) v) as [l0|] eqn:E0; [|discriminate]. cbn in Hl. injection Hl as <-. destruct (Hv v l0 E0) as [N I].
      assert (G : ¬ In i l0) by (rewrite I, Hi; intros (? & ? & _); discriminate). split; [apply NoDup_push; assumption|].
      intros j. rewrite in_push, I. unfold put. destruct (Nat.eqb_spec j i) as [->|Nj].
      * split; [intros _; exists t; auto|]. tauto.
      * split; [intros [H|H]; [exact H|contradiction]|tauto].
    + destruct (Hv v l Hl) as [N I]. split; [exact N|]. intros j. rewrite I. unfold put. destruct (Nat.eqb_spec j i) as [->|Nj]; [|tauto].
      split; [intros (? & ? & _); congruence|]. intros (t' & E & H). injection E as <-. apply memb_in in H. congruence.
Qed.
Lemma remove_tri_ok n T a i t : adj_at n T a → T i = Some t → valid_tri n t →
  ∃ a', remove_tri a i t = Some a' ∧ adj_at n (put T i None) a'.
Proof.
  intros (He & Ln & Hv) Hi V. unfold remove_tri. destruct (fold_upd_v (drop_first i) (corners t) (v2t a)) as (l' & -> & L' & H').
  { apply (valid_corners n), V. }
  { apply Forall_forall. intros v Iv. rewrite Ln. apply (valid_lt n t); assumption. }
  cbn [bind]. eexists. split; [reflexivity|]. split; [|split].
  - intros e. cbn [e2t]. rewrite fold_upd_e by (apply (valid_sides n), V). destruct (He e) as [N I]. destruct (emem e (sides t)) eqn:M.
    + destruct (drop_first_spec i (e2t a e) N) as [N' I']. split; [exact N'|]. intros j. rewrite I', I. unfold put. destruct (Nat.eqb_spec j i) as [->|Nj].
      * split; [tauto|]. intros (? & ? & _). discriminate.
      * tauto.
    + apply emem_not in M. split; [exact N|]. intros j. rewrite I. unfold put. destruct (Nat.eqb_spec j i) as [->|Nj]; [|tauto].
      split; [intros (t' & E & H)|intros (? & ? & _); discriminate]. assert (t' = t) by congruence. subst. contradiction.
  - cbn. congruence.
  - intros v l Hl. cbn [v2t] in Hl. rewrite H' in Hl. destruct (memb v (corners t)) eqn:M.
    + apply memb_in in M. destruct (nth_error (v2t a) v) as [l0|] eqn:E0; [|discriminate]. cbn in Hl. injection Hl as <-. destruct (Hv v l0 E0) as [N I].
      destruct (drop_first_spec i l0 N) as [N' I']. split; [exact N'|]. intros j. rewrite I', I. unfold put. destruct (Nat.eqb_spec j i) as [->|Nj].
      * split; [tauto|]. intros (? & ? & _). discriminate.
      * tauto.
    + destruct (Hv v l Hl) as [N I]. split; [exact N|]. intros j. rewrite I. unfold put. destruct (Nat.eqb_spec j i) as [->|Nj]; [|tauto].
      split; [intros (t' & E & H)|intros (? & ? & _); discriminate]. assert (t' = t) by congruence. subst. apply memb_in in H. congruence.
Qed.
Lemma adj_at_ext n T T' a : (∀ i, T i = T' i) → adj_at n T a → adj_at n T' a.
Proof.
  intros E (He & Ln & Hv). split; [|split; [exact Ln|]].
  - intros e. destruct (He e) as [N I]. split; [exact N|]. intros i. rewrite I, E. reflexivity.
  - intros v l H. destruct (Hv v l H) as [N I]. split; [exact N|]. intros i. rewrite I, E. reflexivity.
Qed.
Lemma replace_tri_ok n T a i t t' : adj_at n T a → T i = Some t → valid_tri n t → valid_tri n t' →
  ∃ a', replace_tri a i t t' = Some a' ∧ adj_at n (put T i (Some t')) a'.
Proof.
  intros H Hi V V'. unfold replace_tri. destruct (remove_tri_ok n T a i t H Hi V) as (a1 & -> & H1). cbn [bind].
  destruct (add_tri_ok n (put T i None) a1 i t' H1) as (a2 & -> & H2); [unfold put; rewrite Nat.eqb_refl; reflexivity|exact V'|].
  exists a2. split; [reflexivity|]. eapply adj_at_ext; [|exact H2]. intros j. unfold put. destruct (j =? i); reflexivity.
Qed.
Lemma add_from_ok n l pre a : adj_at n (nth_error pre) a → Forall (valid_tri n) l →
  ∃ a', add_from a (length pre) l = Some a' ∧ adj_at n (nth_error (pre ++ l)) a'.
Proof.
  revert pre a. induction l as [|t l IH]; intros pre a H F; cbn [add_from].
  - exists a. rewrite app_nil_r. auto.
  - apply Forall_cons_iff in F. destruct F as [V F]. destruct (add_tri_ok n _ a (length pre) t H) as (a1 & -> & H1); [apply nth_error_None; lia|exact V|].
    cbn [bind]. destruct (IH (pre ++ [t]) a1) as (a2 & E & H2).
    + eapply adj_at_ext; [|exact H1]. intros j. unfold put. destruct (Nat.eqb_spec j (length pre)) as [->|N].
      * rewrite nth_error_app2, Nat.sub_diag by lia. reflexivity.
      * destruct (Nat.lt_ge_cases j (length pre)); [rewrite nth_error_app1 by lia; reflexivity|].
        rewrite (proj2 (nth_error_None pre j)) by lia. rewrite nth_error_app2 by lia. destruct (j - length pre)%nat eqn:K; [lia|]. cbn. destruct n0; reflexivity.
    + exact F.
    + rewrite app_length, Nat.add_1_r in E. exists a2. split; [exact E|]. rewrite <- app_assoc in H2. exact H2.
Qed.
Lemma rebuild_ok n l : Forall (valid_tri n) l → ∃ a, rebuild n l = Some a ∧ adj_at n (nth_error l) a.
Proof.
  intros F. apply (add_from_ok n l []); [|exact F]. split; [|split].
  - intros e. cbn. split; [constructor|]. intros i. split; [intros []|]. intros (t & E & _). destruct i; discriminate.
  - apply repeat_length.
  - intros v k H. cbn in H. apply nth_error_In in H. apply repeat_spec in H. subst k. split; [constructor|]. intros i. split; [intros []|]. intros (t & E & _). destruct i; discriminate.
Qed.
Lemma adj_at_exact n ts a : Forall (valid_tri n) ts → adj_at n (nth_error ts) a → adj_exact n ts a.
Proof.
  intros F (He & Ln & Hv). split; [|split; assumption]. intros u v L. destruct (He (u, v)) as [N I]. split; [exact N|]. intros i. rewrite I. split; intros (t & E & H); exists t.
  - rewrite Forall_forall in F. pose proof (F t (nth_error_In _ _ E)) as V. split; [exact E|]. apply (in_sides n); assumption.
  - rewrite Forall_forall in F. pose proof (F t (nth_error_In _ _ E)) as V. split; [exact E|]. apply (in_sides n); assumption.
Qed.

(** ** Orientation *)
Lemma area_det a b c : orient2d_det a b c = area2 a b c.
Proof. reflexivity. Qed.
Lemma area_swap a b c : area2 a c b == - area2 a b c.
Proof. unfold area2. ring. Qed.
Lemma orient_pos fl a b c : is_positive (orient2d fl a b c) = true → 0 < area2 a b c.
Proof.
  unfold orient2d. rewrite area_det. cbv zeta. destruct (qle _ _); intros H; apply is_positive_t in H; [lra|exact H].
Qed.
Lemma orient_neg fl a b c : is_negative (orient2d fl a b c) = true → area2 a b c < 0.
Proof.
  unfold orient2d. rewrite area_det. cbv zeta. destruct (qle _ _); intros H; apply is_negative_t in H; [lra|exact H].
Qed.
Lemma det_bound x y z w C : 0 <= C → Qabs x <= C → Qabs y <= C → Qabs z <= C → Qabs w <= C → Qabs (x * y - z * w) <= 2 * (C * C).
Proof.
  intros HC Hx Hy Hz Hw. eapply Qle_trans; [apply (Qabs_triangle (x * y) (- (z * w)))|]. rewrite Qabs_opp, !Qabs_Qmult.
  assert (M : ∀ p q, 0 <= p → 0 <= q → p <= C → q <= C → p * q <= C * C) by (intros; nra).
  pose proof (M _ _ (Qabs_nonneg x) (Qabs_nonneg y) Hx Hy). pose proof (M _ _ (Qabs_nonneg z) (Qabs_nonneg w) Hz Hw). lra.
Qed.
Lemma diff_bound x y C : Qabs x <= C → Qabs y <= C → Qabs (x - y) <= 2 * C.
Proof. intros. eapply Qle_trans; [apply (Qabs_triangle x (- y))|]. rewrite Qabs_opp. lra. Qed.
Lemma abs_err x y e : Qabs (x - y) <= e → Qabs x <= Qabs y + e ∧ Qabs y <= Qabs x + e ∧ x <= y + e.
Proof.
  intros H. pose proof (Qabs_triangle (x - y) y). pose proof (Qabs_triangle (y - x) x). pose proof (Qle_Qabs (x - y)).
  assert (E1 : x - y + y == x) by ring. assert (E2 : y - x + x == y) by ring. rewrite E1 in *. rewrite E2 in *.
  assert (E3 : Qabs (y - x) == Qabs (x - y)) by (rewrite <- Qabs_opp; apply Qabs_wd; ring). rewrite E3 in *. lra.
Qed.

(** a determinant that orient2d rounds to zero is small *)
Lemma snapped_small fl a b c : double_like fl → moderate a → moderate b → moderate c →
  qle (Qabs (fl (area2 a b c))) (orient2d_scale fl a b c) = true →
  Qabs (area2 a b c) <= 2 * EPS * (1 + size a + size b + size c).
Proof.
  intros D [A0 A1] [B0 B1] [C0 C1] E. unfold double_like in D.
  change (2 ^ 50)%positive with 1125899906842624%positive in D. change (2 ^ 100)%positive with 1267650600228229401496703205376%positive in D.
  assert (Big : 8 * (inject_Z (10 ^ 100) * inject_Z (10 ^ 100)) <= limit) by (unfold limit; vm_compute; discriminate).
  assert (Big2 : 2 <= inject_Z (10 ^ 100)) by (vm_compute; discriminate).
  set (C := inject_Z (10 ^ 100)) in *. set (L := limit) in *. clearbody C L.
  assert (HC : 12 * C <= L) by nra.
  assert (Ed : 0 <= EPS) by (vm_compute; discriminate).
  assert (Ed1 : EPS <= 1 # 1000) by (vm_compute; discriminate).
  assert (Ed2 : (1 # 17179869184) <= EPS) by (vm_compute; discriminate).
  unfold size. apply qle_t in E. unfold orient2d_scale in E.
  assert (Da : Qabs (area2 a b c) <= L).
  { unfold area2. eapply Qle_trans; [apply det_bound with (C := 2 * C); try (apply diff_bound; assumption); lra|]. lra. }
  assert (F : ∀ x, Qabs x <= C → Qabs (fl x) <= Qabs x + ((1 # 1125899906842624) * Qabs x + (1 # 1267650600228229401496703205376))).
  { intros x Hx. assert (G : Qabs x <= L) by lra. exact (proj1 (abs_err _ _ _ (D _ G))). }
  pose proof (F _ A0) as a0. pose proof (F _ A1) as a1. pose proof (F _ B0) as b0. pose proof (F _ B1) as b1. pose proof (F _ C0) as c0. pose proof (F _ C1) as c1.
  pose proof (proj1 (proj2 (abs_err _ _ _ (D _ Da)))) as da. set (det := area2 a b c) in *.
  pose proof (Qabs_nonneg det) as dd. set (ad := Qabs det) in *. set (fd := Qabs (fl det)) in *. clearbody ad fd. clear det.
  revert A0 A1 B0 B1 C0 C1 a0 a1 b0 b1 c0 c1 E. clear F Da.
  pose proof (Qabs_nonneg (fst a)). pose proof (Qabs_nonneg (snd a)). pose proof (Qabs_nonneg (fst b)).
  pose proof (Qabs_nonneg (snd b)). pose proof (Qabs_nonneg (fst c)). pose proof (Qabs_nonneg (snd c)).
  pose proof (Qabs_nonneg (fl (fst a))). pose proof (Qabs_nonneg (fl (snd a))). pose proof (Qabs_nonneg (fl (fst b))).
  pose proof (Qabs_nonneg (fl (snd b))). pose proof (Qabs_nonneg (fl (fst c))). pose proof (Qabs_nonneg (fl (snd c))).
  set (x1 := Qabs (fl (fst a))) in *. set (x2 := Qabs (fl (snd a))) in *. set (x3 := Qabs (fl (fst b))) in *.
  set (x4 := Qabs (fl (snd b))) in *. set (x5 := Qabs (fl (fst c))) in *. set (x6 := Qabs (fl (snd c))) in *.
  set (y1 := Qabs (fst a)) in *. set (y2 := Qabs (snd a)) in *. set (y3 := Qabs (fst b)) in *.
  set (y4 := Qabs (snd b)) in *. set (y5 := Qabs (fst c)) in *. set (y6 := Qabs (snd c)) in *.
  clearbody x1 x2 x3 x4 x5 x6 y1 y2 y3 y4 y5 y6. clear a b c. intros A0 A1 B0 B1 C0 C1 a0 a1 b0 b1 c0 c1.
  assert (Nx : Qabs x1 == x1 ∧ Qabs x2 == x2 ∧ Qabs x3 == x3 ∧ Qabs x4 == x4 ∧ Qabs x5 == x5 ∧ Qabs x6 == x6) by (rewrite !Qabs_pos by assumption; repeat split; reflexivity).
  destruct Nx as (n1 & n2 & n3 & n4 & n5 & n6).
  assert (St : ∀ s x, Qabs x == x → Qabs s + x <= L → Qabs (fl (s + x)) <= (1 + (1 # 1125899906842624)) * (Qabs s + x) + (1 # 1267650600228229401496703205376)).
  { intros s x Ex G. pose proof (Qabs_triangle s x) as T. assert (G' : Qabs (s + x) <= L) by lra. pose proof (proj1 (abs_err _ _ _ (D _ G'))). lra. }
  assert (Y : Qabs (fl (x1 + x2)) <= (1 + (1 # 1125899906842624)) * (x1 + x2) + (1 # 1267650600228229401496703205376)) by (pose proof (St x1 x2 n2) as T; rewrite n1 in T; apply T; lra).
  set (s1 := fl (x1 + x2)) in *. clearbody s1.
  assert (Y2 : Qabs (fl (s1 + x3)) <= (1 + (1 # 1125899906842624)) * (Qabs s1 + x3) + (1 # 1267650600228229401496703205376)) by (apply St; [exact n3|lra]).
  set (s2 := fl (s1 + x3)) in *. clearbody s2.
  assert (Y3 : Qabs (fl (s2 + x4)) <= (1 + (1 # 1125899906842624)) * (Qabs s2 + x4) + (1 # 1267650600228229401496703205376)) by (apply St; [exact n4|lra]).
  set (s3 := fl (s2 + x4)) in *. clearbody s3.
  assert (Y4 : Qabs (fl (s3 + x5)) <= (1 + (1 # 1125899906842624)) * (Qabs s3 + x5) + (1 # 1267650600228229401496703205376)) by (apply St; [exact n5|lra]).
  set (s4 := fl (s3 + x5)) in *. clearbody s4.
  assert (Y5 : Qabs (fl (s4 + x6)) <= (1 + (1 # 1125899906842624)) * (Qabs s4 + x6) + (1 # 1267650600228229401496703205376)) by (apply St; [exact n6|lra]).
  set (s5 := fl (s4 + x6)) in *. clearbody s5.
  assert (Z : Qabs s5 <= (1001 # 1000) * (1 + (y1 + y2) + (y3 + y4) + (y5 + y6))) by lra.
  assert (Z' : Qabs s5 <= L) by lra.
  set (M := 1 + (y1 + y2) + (y3 + y4) + (y5 + y6)) in *. assert (M1 : 1 <= M) by (unfold M; lra). clearbody M. intros E.
  pose proof (Qabs_nonneg s5) as P5.
  assert (W : Qabs (s5 * EPS) == Qabs s5 * EPS) by (rewrite Qabs_Qmult, (Qabs_pos EPS) by exact Ed; reflexivity).
  clear -D E W Z Z' M1 Ed Ed1 Ed2 da dd P5.
  set (P := EPS) in *. clearbody P.
  assert (K1 : Qabs s5 * P <= (1001 # 1000) * (M * P)) by nra.
  assert (K2 : 1 * P <= M * P) by (apply Qmult_le_compat_r; assumption).
  assert (K3 : Qabs (s5 * P) <= L) by (rewrite W; nra).
  pose proof (proj1 (abs_err _ _ _ (D _ K3))) as G. rewrite W in G.
  pose proof (Qle_Qabs (fl (s5 * P))).
  assert (2 * P * M == 2 * (M * P)) by ring. set (MP := M * P) in *. set (q := Qabs s5 * P) in *. clearbody MP q. lra.
Qed.
Lemma tol_nonneg a b c : 0 <= 2 * EPS * (1 + size a + size b + size c).
Proof.
  assert (Ed : 0 <= EPS) by (vm_compute; discriminate).
  unfold size. pose proof (Qabs_nonneg (fst a)). pose proof (Qabs_nonneg (snd a)). pose proof (Qabs_nonneg (fst b)).
  pose proof (Qabs_nonneg (snd b)). pose proof (Qabs_nonneg (fst c)). pose proof (Qabs_nonneg (snd c)).
  apply Qmult_le_0_compat; lra.
Qed.
Lemma area_tol fl a b c : double_like fl → moderate a → moderate b → moderate c →
  is_positive (orient2d fl a b c) = false → area2 a b c <= 2 * EPS * (1 + size a + size b + size c).
Proof.
  intros D A B C H. pose proof (tol_nonneg a b c). unfold orient2d in H. rewrite area_det in H. cbv zeta in H. destruct (qle _ _) eqn:E.
  - pose proof (snapped_small fl a b c D A B C E). pose proof (Qle_Qabs (area2 a b c)). lra.
  - apply is_positive_f in H. lra.
Qed.
Lemma area_tol_nonneg fl a b c : double_like fl → moderate a → moderate b → moderate c →
  qle 0 (orient2d fl a b c) = true → - (2 * EPS * (1 + size a + size b + size c)) <= area2 a b c.
Proof.
  intros D A B C H. pose proof (tol_nonneg a b c). unfold orient2d in H. rewrite area_det in H. cbv zeta in H. destruct (qle (Qabs _) _) eqn:E.
  - pose proof (snapped_small fl a b c D A B C E) as S. apply Qabs_Qle_condition in S. lra.
  - apply qle_t in H. lra.
Qed.
