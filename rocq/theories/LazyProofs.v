(** LazyExact heaps: the invariant, and correctness of exact() and of the
    constructors. *)
From Coq Require Import Setoid Lqa.
From Verif Require Export LazyModel LazySpec.
Open Scope Z_scope.
Local Arguments Qmult : simpl never. Local Arguments Qplus : simpl never.
Local Arguments Qminus : simpl never. Local Arguments Qopp : simpl never. Local Arguments Qdiv : simpl never.
Local Opaque max_depth.

(** ** Values of expressions *)
Inductive DenK (h : heap) : kind → Q → Prop :=
| DK_approx x q : f64_to_Q x = Some q → DenK h (LeafApprox x) q
| DK_exact e : DenK h (LeafExact e) e
| DK_bin o a b na nb qa qb q :
    nth_error h a = Some na → nth_error h b = Some nb →
    DenK h (nkind na) qa → DenK h (nkind nb) qb → value_op o qa qb = Some q →
    DenK h (KBin o a b) q
| DK_neg a na qa : nth_error h a = Some na → DenK h (nkind na) qa → DenK h (KNeg a) (- qa)%Q.
Definition Den (h : heap) (i : nat) (q : Q) : Prop := ∃ n, nth_error h i = Some n ∧ DenK h (nkind n) q.
(** defined up to equality of values *)
Definition HasK h k v := ∃ q, DenK h k q ∧ (q == v)%Q.
Definition Has h i v := ∃ q, Den h i q ∧ (q == v)%Q.

Lemma value_op_eq o x y x' y' q : (x == x')%Q → (y == y')%Q → value_op o x y = Some q →
  ∃ q', value_op o x' y' = Some q' ∧ (q == q')%Q.
Proof.
  intros Hx Hy. destruct o; cbn; intros E; try (injection E as <-; eexists; split; [reflexivity|]; rewrite Hx, Hy; reflexivity).
  destruct (Qeq_bool y 0) eqn:E1; [discriminate|]. destruct (Qeq_bool y' 0) eqn:E2.
  - apply Qeq_bool_iff in E2. rewrite <- Hy in E2. apply Qeq_bool_iff in E2. congruence.
  - injection E as <-. eexists. split; [reflexivity|]. rewrite Hx, Hy. reflexivity.
Qed.
Lemma DenK_det h k q : DenK h k q → ∀ q', DenK h k q' → (q == q')%Q.
Proof.
  induction 1 as [x q E|e|o a b na nb qa qb q Ha Hb _ IHa _ IHb E|a na qa Ha _ IHa]; intros q' H'; inversion H'; subst; clear H'.
  - match goal with H : f64_to_Q x = Some q' |- _ => rewrite E in H; injection H as <- end. reflexivity.
  - reflexivity.
  - repeat match goal with H : nth_error h ?a = Some ?n, H' : nth_error h ?a = Some ?n' |- _ =>
      first [constr_eq n n'; fail 1|rewrite H in H'; injection H' as <-] end.
    match goal with H : value_op o ?x ?y = Some q' |- _ =>
      destruct (value_op_eq o qa qb x y q) as (q2 & E2 & Hq); [apply IHa; assumption|apply IHb; assumption|assumption|];
      rewrite E2 in H; injection H as <- end. assumption.
  - repeat match goal with H : nth_error h ?a = Some ?n, H' : nth_error h ?a = Some ?n' |- _ =>
      first [constr_eq n n'; fail 1|rewrite H in H'; injection H' as <-] end.
    rewrite (IHa _ ltac:(eassumption)). reflexivity.
Qed.
Lemma HasK_det h k v w : HasK h k v → HasK h k w → (v == w)%Q.
Proof. intros (q & Hq & E) (q' & Hq' & E'). rewrite <- E, <- E'. eapply DenK_det; eassumption. Qed.
Lemma Has_kind h i n v : nth_error h i = Some n → Has h i v ↔ HasK h (nkind n) v.
Proof.
  intros Hn. split.
  - intros (q & (n' & Hn' & Hd) & E). rewrite Hn in Hn'. injection Hn' as <-. exists q. split; assumption.
  - intros (q & Hd & E). exists q. split; [exists n; split; assumption|assumption].
Qed.
Lemma Has_eq h i v w : (v == w)%Q → Has h i v → Has h i w.
Proof. intros E (q & Hq & E'). exists q. split; [assumption|]. rewrite E'. assumption. Qed.
Lemma HasK_eq h k v w : (v == w)%Q → HasK h k v → HasK h k w.
Proof. intros E (q & Hq & E'). exists q. split; [assumption|]. rewrite E'. assumption. Qed.
Lemma HasK_bin h o a b va vb v : Has h a va → Has h b vb → value_op o va vb = Some v → HasK h (KBin o a b) v.
Proof.
  intros (qa & (na & Hna & Hda) & Ea) (qb & (nb & Hnb & Hdb) & Eb) E.
  destruct (value_op_eq o va vb qa qb v) as (q & Eq & Hq); [symmetry; assumption|symmetry; assumption|assumption|].
  exists q. split; [|symmetry; assumption]. eapply DK_bin; eassumption.
Qed.
Lemma HasK_neg h a va : Has h a va → HasK h (KNeg a) (- va)%Q.
Proof.
  intros (qa & (na & Hna & Hda) & Ea). exists (- qa)%Q. split; [eapply DK_neg; eassumption|]. rewrite Ea. reflexivity.
Qed.
Lemma HasK_bin_inv h o a b v : HasK h (KBin o a b) v →
  ∃ va vb q, Has h a va ∧ Has h b vb ∧ value_op o va vb = Some q ∧ (q == v)%Q.
Proof.
  intros (q & Hd & E). inversion Hd; subst. exists qa, qb, q.
  split; [eexists; split; [eexists; split; eassumption|reflexivity]|].
  split; [eexists; split; [eexists; split; eassumption|reflexivity]|]. split; assumption.
Qed.
Lemma HasK_neg_inv h a v : HasK h (KNeg a) v → ∃ va, Has h a va ∧ (- va == v)%Q.
Proof. intros (q & Hd & E). inversion Hd; subst. exists qa. split; [eexists; split; [eexists; split; eassumption|reflexivity]|assumption]. Qed.

(** ** Heap growth: kinds, approximations and depths never change *)
Definition ext (h h' : heap) : Prop :=
  (length h <= length h')%nat ∧
  ∀ i n, nth_error h i = Some n →
    ∃ n', nth_error h' i = Some n' ∧ nkind n' = nkind n ∧ napprox n' = napprox n ∧ ndepth n' = ndepth n.
Lemma ext_refl h : ext h h. Proof. split; [lia|]. intros i n Hn. exists n. repeat split; assumption. Qed.
Lemma ext_trans h h1 h2 : ext h h1 → ext h1 h2 → ext h h2.
Proof.
  intros [L1 E1] [L2 E2]. split; [lia|]. intros i n Hn. destruct (E1 i n Hn) as (n1 & H1 & A1 & B1 & C1).
  destruct (E2 i n1 H1) as (n2 & H2 & A2 & B2 & C2). exists n2. repeat split; congruence.
Qed.
Lemma DenK_ext h h' k q : ext h h' → DenK h k q → DenK h' k q.
Proof.
  intros He. induction 1 as [x q E|e|o a b na nb qa qb q Ha Hb _ IHa _ IHb E|a na qa Ha _ IHa].
  - constructor. assumption.
  - constructor.
  - destruct (proj2 He a na Ha) as (na' & Ha' & Ka & _). destruct (proj2 He b nb Hb) as (nb' & Hb' & Kb & _).
    eapply DK_bin; [eassumption|eassumption|rewrite Ka; eassumption|rewrite Kb; eassumption|assumption].
  - destruct (proj2 He a na Ha) as (na' & Ha' & Ka & _). eapply DK_neg; [eassumption|rewrite Ka; eassumption].
Qed.
Lemma HasK_ext h h' k v : ext h h' → HasK h k v → HasK h' k v.
Proof. intros He (q & Hq & E). exists q. split; [eapply DenK_ext; eassumption|assumption]. Qed.
Lemma Has_ext h h' i v : ext h h' → Has h i v → Has h' i v.
Proof.
  intros He (q & (n & Hn & Hq) & E). destruct (proj2 He i n Hn) as (n' & Hn' & Kn & _).
  exists q. split; [exists n'; split; [assumption|rewrite Kn; eapply DenK_ext; eassumption]|assumption].
Qed.

(** ** Invariant *)
Definition kids (k : kind) : list nat :=
  match k with LeafApprox _ | LeafExact _ => [] | KBin _ a b => [a; b] | KNeg a => [a] end.
Record node_ok (h : heap) (i : nat) (n : node) : Prop := {
  nk_kids : ∀ j, In j (kids (nkind n)) → (j < i)%nat;
  nk_depth : ndepth n = compute_depth h (nkind n);
  nk_max : (ndepth n <= max_depth)%nat;
  nk_cache : ∀ v, nexact n = Some v → HasK h (nkind n) v }.
Definition Inv (h : heap) : Prop := ∀ i n, nth_error h i = Some n → node_ok h i n.

Lemma depth_ext h h' i : ext h h' → (i < length h)%nat → depth_of h' i = depth_of h i.
Proof.
  intros He Hi. unfold depth_of. destruct (nth_error h i) as [n|] eqn:E.
  - destruct (proj2 He i n E) as (n' & -> & _ & _ & D). assumption.
  - apply nth_error_None in E. lia.
Qed.
Lemma compute_depth_ext h h' k : ext h h' → (∀ j, In j (kids k) → (j < length h)%nat) → compute_depth h' k = compute_depth h k.
Proof.
  intros He Hk. destruct k as [x|e|o a b|a]; cbn in *; try reflexivity; rewrite !(depth_ext h h') by (assumption || apply Hk; tauto); reflexivity.
Qed.
Lemma compute_depth_pos h k : (1 <= compute_depth h k)%nat. Proof. destruct k; cbn; lia. Qed.
Lemma kid_depth h k j : In j (kids k) → (depth_of h j < compute_depth h k)%nat.
Proof. destruct k as [x|e|o a b|a]; cbn; try tauto; intros H; repeat destruct H as [<-|H]; try contradiction; lia. Qed.
Lemma depth_at h i n : nth_error h i = Some n → depth_of h i = ndepth n.
Proof. unfold depth_of. intros ->. reflexivity. Qed.
Lemma get_node (h : heap) i : (i < length h)%nat → ∃ n, nth_error (h : heap) i = Some n.
Proof. intros H. destruct (nth_error h i) eqn:E; [eauto|]. apply nth_error_None in E. lia. Qed.
Lemma node_lt (h : heap) i n : nth_error h i = Some n → (i < length h)%nat.
Proof. intros H. apply nth_error_Some. congruence. Qed.

(** setting the exact cell *)
Lemma set_exact_len h i v : length (set_exact h i v) = length h.
Proof. revert i. induction h as [|n t IH]; intros [|i]; cbn; congruence. Qed.
Lemma set_exact_at h i v j : nth_error (set_exact h i v) j =
  match nth_error h j with
  | None => None
  | Some n => Some (if (j =? i)%nat then Node (nkind n) (napprox n) (match nexact n with None => Some v | Some w => Some w end) (ndepth n) else n)
  end.
Proof.
  revert i j. induction h as [|n t IH]; intros [|i] [|j]; cbn; try reflexivity.
  - destruct (nth_error t j); reflexivity.
  - apply IH.
Qed.
Lemma set_exact_ext h i v : ext h (set_exact h i v).
Proof.
  split; [rewrite set_exact_len; lia|]. intros j n Hn. rewrite set_exact_at, Hn. eexists. split; [reflexivity|].
  destruct (j =? i)%nat; repeat split; reflexivity.
Qed.
Lemma set_exact_inv h i v : Inv h → Has h i v → Inv (set_exact h i v).
Proof.
  intros HI Hv j n Hj. rewrite set_exact_at in Hj. destruct (nth_error h j) as [m|] eqn:E; [|discriminate].
  injection Hj as <-. pose proof (set_exact_ext h i v) as He. destruct (HI j m E) as [K D M C].
  assert (Hlen : ∀ k, In k (kids (nkind m)) → (k < length h)%nat) by (intros k Hk; apply K in Hk; apply node_lt in E; lia).
  pose proof (compute_depth_ext h _ (nkind m) He Hlen) as Hd.
  destruct (Nat.eqb_spec j i) as [->|Hne].
  - split; cbn [nkind ndepth nexact].
    + assumption.
    + rewrite Hd. assumption.
    + assumption.
    + intros w Hw. apply (HasK_ext h); [assumption|]. destruct (nexact m) as [u|] eqn:Eu.
      * apply C. congruence.
      * injection Hw as <-. apply (Has_kind h i m v E). assumption.
  - split; [assumption|rewrite Hd; assumption|assumption|]. intros w Hw. apply (HasK_ext h); [assumption|]. apply C. assumption.
Qed.

(** allocation *)
Lemma app_ext h n : ext h (h ++ [n]).
Proof. split; [rewrite app_length; lia|]. intros i m Hm. exists m. split; [rewrite nth_error_app1 by (eapply node_lt; eassumption); assumption|]. repeat split. Qed.
Lemma app_last (h : heap) n : nth_error (h ++ [n]) (length h) = Some n.
Proof. rewrite nth_error_app2 by lia. rewrite Nat.sub_diag. reflexivity. Qed.
Lemma app_inv h n : Inv h → (∀ j, In j (kids (nkind n)) → (j < length h)%nat) →
  ndepth n = compute_depth h (nkind n) → (ndepth n <= max_depth)%nat → (∀ v, nexact n = Some v → HasK h (nkind n) v) → Inv (h ++ [n]).
Proof.
  intros HI Hk Hd Hm Hc i m Hi. pose proof (app_ext h n) as He. destruct (Nat.lt_ge_cases i (length h)) as [L|L].
  - rewrite nth_error_app1 in Hi by assumption. destruct (HI i m Hi) as [K D M C]. split.
    + assumption.
    + rewrite (compute_depth_ext h) by (assumption || intros j Hj; apply K in Hj; lia). assumption.
    + assumption.
    + intros v Hv. apply (HasK_ext h); [assumption|auto].
  - assert (i = length h) as ->. { apply node_lt in Hi. rewrite app_length in Hi. cbn in Hi. lia. }
    rewrite app_last in Hi. injection Hi as <-. split.
    + assumption.
    + rewrite (compute_depth_ext h) by assumption. assumption.
    + assumption.
    + intros v Hv. apply (HasK_ext h); [assumption|auto].
Qed.
Lemma max_depth_1 : (1 <= max_depth)%nat. Proof. Transparent max_depth. unfold max_depth. lia. Opaque max_depth. Qed.
Lemma leafs_ok h e x : Inv h → let r := from_leafs h e x in
  Inv (fst r) ∧ ext h (fst r) ∧ (snd r < length (fst r))%nat ∧ Has (fst r) (snd r) e.
Proof.
  intros HI. cbn. pose proof max_depth_1. split; [apply app_inv; cbn; [assumption|contradiction|reflexivity|assumption|]|].
  { intros v [= <-]. exists e. split; [constructor|reflexivity]. }
  split; [apply app_ext|]. split; [rewrite app_length; cbn; lia|].
  exists e. split; [|reflexivity]. eexists. split; [apply app_last|]. cbn. constructor.
Qed.

(** rational operations *)
Lemma rat_op_ok o x y : match rat_op o x y with
  | Some v => ∃ q, value_op o x y = Some q ∧ (v == q)%Q
  | None => value_op o x y = None end.
Proof.
  destruct o; cbn; try (eexists; split; [reflexivity|apply Qred_correct]).
  unfold rat_div. destruct (Z.eqb_spec (Qnum y) 0) as [E|E].
  - assert (Hy : (y == 0)%Q) by (unfold Qeq; rewrite E; reflexivity). apply Qeq_bool_iff in Hy. rewrite Hy. reflexivity.
  - destruct (Qeq_bool y 0) eqn:Ey.
    + apply Qeq_bool_iff in Ey. unfold Qeq in Ey. cbn in Ey. lia.
    + eexists. split; [reflexivity|apply Qred_correct].
Qed.
Lemma rat_is_zero_t v : rat_is_zero v = true ↔ (v == 0)%Q.
Proof. unfold rat_is_zero, Qeq. rewrite Z.eqb_eq. cbn. lia. Qed.
Lemma rat_eq_sound x y : rat_eq x y = true → (x == y)%Q.
Proof. unfold rat_eq. rewrite andb_true_iff, Z.eqb_eq, Pos.eqb_eq. intros [A B]. unfold Qeq. rewrite A, B. reflexivity. Qed.

(** ** exact() *)
Definition exact_post (h : heap) (k : kind) (r : out (heap * rat)) : Prop :=
  match r with
  | Ok (h', v) => Inv h' ∧ ext h h' ∧ length h' = length h ∧ HasK h k v
  | Panic => ∀ v, ¬ HasK h k v
  | Deep => False
  end.
(** the common part of exact() and of the depth cap: evaluating the kids *)
Definition eval_kind (ex : heap → nat → out (heap * rat)) (h : heap) (k : kind) : out (heap * rat) :=
  match k with
  | LeafApprox x => obind (rat_of_f64 x) (λ q, Ok (h, q))
  | LeafExact e => Ok (h, e)
  | KBin ODiv a b =>
    '(h1, vb) <-- ex h b;
    if rat_is_zero vb then Panic else
    '(h2, va) <-- ex h1 a;
    obind (oget (rat_div va vb)) (λ v, Ok (h2, v))
  | KBin o a b =>
    '(h1, va) <-- ex h a;
    '(h2, vb) <-- ex h1 b;
    obind (oget (rat_op o va vb)) (λ v, Ok (h2, v))
  | KNeg a =>
    '(h1, va) <-- ex h a;
    Ok (h1, rat_neg va)
  end.
Definition kid_post h a (r : out (heap * rat)) : Prop :=
  match r with
  | Ok (h', v) => Inv h' ∧ ext h h' ∧ length h' = length h ∧ Has h a v
  | Panic => ∀ v, ¬ Has h a v
  | Deep => False
  end.
Lemma Has_back h h' a v : ext h h' → Inv h → (a < length h)%nat → Has h' a v → Has h a v.
Proof.
  intros He HI. revert a v. induction a as [a IH] using lt_wf_ind. intros v Ha (q & (n' & Hn' & Hd) & E).
  destruct (get_node h a Ha) as (n & Hn). destruct (proj2 He a n Hn) as (n2 & Hn2 & K & _).
  rewrite Hn' in Hn2. injection Hn2 as <-. rewrite K in Hd. apply (Has_kind h a n v Hn).
  destruct (HI a n Hn) as [Hk _ _ _].
  assert (IH' : ∀ j w, In j (kids (nkind n)) → Has h' j w → Has h j w).
  { intros j w Hj Hw. apply IH; [apply Hk; assumption| |assumption]. apply Hk in Hj. lia. }
  assert (Hq : HasK h' (nkind n) v) by (exists q; split; assumption). clear - Hq IH'.
  destruct (nkind n) as [x|e|o b c|b]; cbn [kids] in IH'.
  - destruct Hq as (q & Hd & E). inversion Hd; subst. exists q. split; [constructor; assumption|assumption].
  - destruct Hq as (q & Hd & E). inversion Hd; subst. eexists. split; [constructor|assumption].
  - apply HasK_bin_inv in Hq. destruct Hq as (va & vb & q & A & B & C & D). apply (HasK_eq h _ q); [assumption|].
    eapply HasK_bin; [apply IH'; [left; reflexivity|eassumption]|apply IH'; [right; left; reflexivity|eassumption]|assumption].
  - apply HasK_neg_inv in Hq. destruct Hq as (va & A & B). apply (HasK_eq h _ (- va)%Q); [assumption|].
    apply HasK_neg. apply IH'; [left; reflexivity|assumption].
Qed.
Lemma Has_det h i v w : Has h i v → Has h i w → (v == w)%Q.
Proof.
  intros (q & (n & Hn & Hd) & E) (q' & (n' & Hn' & Hd') & E'). rewrite Hn in Hn'. injection Hn' as <-.
  rewrite <- E, <- E'. eapply DenK_det; eassumption.
Qed.
Lemma eval_kind_ok ex h k : Inv h → (∀ j, In j (kids k) → (j < length h)%nat) →
  (∀ g j, Inv g → ext h g → length g = length h → In j (kids k) → kid_post g j (ex g j)) →
  exact_post h k (eval_kind ex h k).
Proof.
  intros HI Hlen Hex. destruct k as [x|e|o a b|a]; cbn [eval_kind].
  - unfold rat_of_f64. destruct (f64_to_Q x) as [q|] eqn:E; cbn.
    + split; [assumption|]. split; [apply ext_refl|]. split; [reflexivity|].
      exists q. split; [constructor; assumption|symmetry; apply Qred_correct].
    + intros v (q & Hd & _). inversion Hd. congruence.
  - cbn. split; [assumption|]. split; [apply ext_refl|]. split; [reflexivity|]. exists e. split; [constructor|reflexivity].
  - assert (Ia : In a (kids (KBin o a b))) by (left; reflexivity). assert (Ib : In b (kids (KBin o a b))) by (right; left; reflexivity).
    pose proof (Hlen _ Ia) as La. pose proof (Hlen _ Ib) as Lb.
    assert (Gen : o ≠ ODiv → exact_post h (KBin o a b)
      ('(h1, va) <-- ex h a; '(h2, vb) <-- ex h1 b; obind (oget (rat_op o va vb)) (λ v, Ok (h2, v)))).
    { intros Ho. pose proof (Hex h a HI (ext_refl h) eq_refl Ia) as Ha. destruct (ex h a) as [[h1 va]| |]; cbn.
      2:{ intros v Hv. apply HasK_bin_inv in Hv. destruct Hv as (va & vb & q & A & _). exact (Ha _ A). }
      2: exact Ha.
      cbn in Ha. destruct Ha as (I1 & E1 & L1 & V1).
      pose proof (Hex h1 b I1 E1 L1 Ib) as Hb. destruct (ex h1 b) as [[h2 vb]| |]; cbn.
      2:{ intros v Hv. apply HasK_bin_inv in Hv. destruct Hv as (ua & ub & q & _ & B & _).
          apply (Hb ub). apply (Has_ext h); assumption. }
      2: exact Hb.
      cbn in Hb. destruct Hb as (I2 & E2 & L2 & V2). apply (Has_back h) in V2; [|assumption..].
      pose proof (rat_op_ok o va vb) as Hr. destruct (rat_op o va vb) as [v|]; cbn.
      - split; [assumption|]. split; [eapply ext_trans; eassumption|]. split; [congruence|].
        destruct Hr as (q & Eq & Ev). apply (HasK_eq h _ q); [symmetry; assumption|]. eapply HasK_bin; eassumption.
      - intros v Hv. apply HasK_bin_inv in Hv. destruct Hv as (ua & ub & q & A & B & C & _).
        destruct (value_op_eq o ua ub va vb q) as (q' & E' & _); [eapply Has_det; eassumption|eapply Has_det; eassumption|assumption|].
        congruence. }
    destruct o; try (apply Gen; discriminate). clear Gen.
    pose proof (Hex h b HI (ext_refl h) eq_refl Ib) as Hb. destruct (ex h b) as [[h1 vb]| |]; cbn.
    2:{ intros v Hv. apply HasK_bin_inv in Hv. destruct Hv as (ua & ub & q & _ & B & _). exact (Hb _ B). }
    2: exact Hb.
    cbn in Hb. destruct Hb as (I1 & E1 & L1 & V1).
    destruct (rat_is_zero vb) eqn:Ez; cbn.
    { intros v Hv. apply HasK_bin_inv in Hv. destruct Hv as (ua & ub & q & _ & B & C & _). cbn in C.
      apply rat_is_zero_t in Ez. rewrite (Has_det h b vb ub V1 B) in Ez. apply Qeq_bool_iff in Ez. rewrite Ez in C. discriminate. }
    pose proof (Hex h1 a I1 E1 L1 Ia) as Ha. destruct (ex h1 a) as [[h2 va]| |]; cbn.
    2:{ intros v Hv. apply HasK_bin_inv in Hv. destruct Hv as (ua & ub & q & A & _). apply (Ha ua). apply (Has_ext h); assumption. }
    2: exact Ha.
    cbn in Ha. destruct Ha as (I2 & E2 & L2 & V2). apply (Has_back h) in V2; [|assumption..].
    pose proof (rat_op_ok ODiv va vb) as Hr. cbn [rat_op] in Hr. destruct (rat_div va vb) as [v|]; cbn.
    + split; [assumption|]. split; [eapply ext_trans; eassumption|]. split; [congruence|].
      destruct Hr as (q & Eq & Ev). apply (HasK_eq h _ q); [symmetry; assumption|]. eapply HasK_bin; eassumption.
    + intros v Hv. apply HasK_bin_inv in Hv. destruct Hv as (ua & ub & q & A & B & C & _).
      destruct (value_op_eq ODiv ua ub va vb q) as (q' & E' & _); [eapply Has_det; eassumption|eapply Has_det; eassumption|assumption|].
      congruence.
  - assert (Ia : In a (kids (KNeg a))) by (left; reflexivity).
    pose proof (Hex h a HI (ext_refl h) eq_refl Ia) as Ha. destruct (ex h a) as [[h1 va]| |]; cbn.
    2:{ intros v Hv. apply HasK_neg_inv in Hv. destruct Hv as (ua & A & _). exact (Ha _ A). }
    2: exact Ha.
    cbn in Ha. destruct Ha as (I1 & E1 & L1 & V1). split; [assumption|]. split; [assumption|]. split; [assumption|].
    apply (HasK_eq h _ (- va)%Q); [symmetry; apply Qred_correct|]. apply HasK_neg. assumption.
Qed.
Lemma exact_eq f h i : exact (S f) h i =
  match nth_error h i with
  | None => Panic
  | Some n => match nexact n with
    | Some v => Ok (h, v)
    | None => '(h', v) <-- eval_kind (exact f) h (nkind n); Ok (set_exact h' i v, v)
    end
  end.
Proof.
  cbn [exact]. destruct (nth_error h i) as [n|]; [|reflexivity]. destruct (nexact n); [reflexivity|].
  destruct (nkind n) as [x|e|[]a b|a]; reflexivity.
Qed.
Lemma exact_ok f : ∀ h i, Inv h → (i < length h)%nat → (depth_of h i <= f)%nat → kid_post h i (exact f h i).
Proof.
  induction f as [|f IH]; intros h i HI Hi Hf; destruct (get_node h i Hi) as (n & Hn); destruct (HI i n Hn) as [Hk Hd Hm Hc].
  - exfalso. rewrite (depth_at h i n Hn), Hd in Hf. pose proof (compute_depth_pos h (nkind n)). lia.
  - rewrite exact_eq, Hn. destruct (nexact n) as [v|] eqn:Ev.
    { cbn. split; [assumption|]. split; [apply ext_refl|]. split; [reflexivity|]. apply (Has_kind h i n v Hn). auto. }
    assert (P : exact_post h (nkind n) (eval_kind (exact f) h (nkind n))).
    { apply eval_kind_ok; [assumption|intros j Hj; apply Hk in Hj; lia|]. intros g j Hg Eg Lg Hj. apply IH.
      - assumption.
      - apply Hk in Hj. lia.
      - rewrite (depth_ext h g) by (assumption || apply Hk in Hj; lia).
        pose proof (kid_depth h (nkind n) j Hj). rewrite (depth_at h i n Hn), Hd in Hf. lia. }
    destruct (eval_kind (exact f) h (nkind n)) as [[h' v]| |]; cbn.
    + cbn in P. destruct P as (I' & E' & L' & V').
      assert (Hv : Has h i v) by (apply (Has_kind h i n v Hn); assumption).
      split; [apply set_exact_inv; [assumption|apply (Has_ext h); assumption]|].
      split; [eapply ext_trans; [eassumption|apply set_exact_ext]|]. split; [rewrite set_exact_len; assumption|assumption].
    + intros v Hv. apply (P v). apply (Has_kind h i n v Hn). assumption.
    + exact P.
Qed.
Lemma exact_max_ok h i : Inv h → (i < length h)%nat → kid_post h i (exact max_depth h i).
Proof.
  intros HI Hi. apply exact_ok; [assumption|assumption|]. destruct (get_node h i Hi) as (n & Hn).
  rewrite (depth_at h i n Hn). apply (HI i n Hn).
Qed.
Lemma exact_of_kind_ok h k : Inv h → (∀ j, In j (kids k) → (j < length h)%nat) → exact_post h k (exact_of_kind h k).
Proof.
  intros HI Hk. replace (exact_of_kind h k) with (eval_kind (exact max_depth) h k) by (destruct k as [x|e|[]a b|a]; reflexivity).
  apply eval_kind_ok; [assumption|assumption|]. intros g j Hg Eg Lg Hj. apply exact_max_ok; [assumption|]. rewrite Lg. auto.
Qed.

(** ** new() *)
Lemma ready_has h i v : Inv h → exact_ready h i = Some v → Has h i v.
Proof.
  unfold exact_ready. intros HI E. destruct (nth_error h i) as [n|] eqn:En; [|discriminate].
  apply (Has_kind h i n v En). apply (HI i n En). assumption.
Qed.
Lemma exact_zero_has h i : Inv h → is_exact_zero h i = true → Has h i 0%Q.
Proof.
  unfold is_exact_zero. intros HI E. destruct (exact_ready h i) as [v|] eqn:Er; [|discriminate].
  apply rat_is_zero_t in E. eapply Has_eq; [exact E|]. apply ready_has; assumption.
Qed.
Lemma exact_one_has h i : Inv h → is_exact_one h i = true → Has h i 1%Q.
Proof.
  unfold is_exact_one. intros HI E. destruct (exact_ready h i) as [v|] eqn:Er; [|discriminate].
  apply rat_eq_sound in E. eapply Has_eq; [exact E|]. apply ready_has; assumption.
Qed.
Lemma kind_of_has h i k v : (i < length h)%nat → HasK h (kind_of h i k) v ↔ Has h i v.
Proof. intros Hi. destruct (get_node h i Hi) as (n & Hn). unfold kind_of. rewrite Hn. symmetry. apply Has_kind. assumption. Qed.
Lemma kind_of_kids h i k j : Inv h → (i < length h)%nat → In j (kids (kind_of h i k)) → (j < length h)%nat.
Proof.
  intros HI Hi. destruct (get_node h i Hi) as (n & Hn). unfold kind_of. rewrite Hn. intros Hj.
  apply (HI i n Hn) in Hj. lia.
Qed.
(** identity simplification never loses the value *)
Lemma simplify_ok h k : Inv h → (∀ j, In j (kids k) → (j < length h)%nat) →
  (∀ j, In j (kids (simplify_identities h k)) → (j < length h)%nat) ∧
  (∀ v, HasK h k v → HasK h (simplify_identities h k) v).
Proof.
  intros HI Hk. destruct k as [x|e|o a b|a]; cbn [simplify_identities]; [split; auto..| |].
  - assert (La : (a < length h)%nat) by (apply Hk; left; reflexivity).
    assert (Lb : (b < length h)%nat) by (apply Hk; right; left; reflexivity).
    assert (L0 : ∀ j, In j (kids (LeafExact (0 # 1))) → (j < length h)%nat) by contradiction.
    assert (Z : ∀ v, (v == 0)%Q → HasK h (LeafExact (0 # 1)) v).
    { intros v Hv. exists (0 # 1)%Q. split; [constructor|]. rewrite Hv. reflexivity. }
    destruct o.
    + destruct (is_exact_zero h a) eqn:Ea; [|destruct (is_exact_zero h b) eqn:Eb; [|split; auto]].
      * apply exact_zero_has in Ea; [|assumption]. split; [intros j; apply kind_of_kids; assumption|]. intros v Hv.
        apply HasK_bin_inv in Hv. destruct Hv as (va & vb & q & A & B & [= <-] & D). apply kind_of_has; [assumption|].
        eapply Has_eq; [|exact B]. rewrite <- D. pose proof (Has_det _ _ _ _ Ea A). lra.
      * apply exact_zero_has in Eb; [|assumption]. split; [intros j; apply kind_of_kids; assumption|]. intros v Hv.
        apply HasK_bin_inv in Hv. destruct Hv as (va & vb & q & A & B & [= <-] & D). apply kind_of_has; [assumption|].
        eapply Has_eq; [|exact A]. rewrite <- D. pose proof (Has_det _ _ _ _ Eb B). lra.
    + destruct (is_exact_zero h b) eqn:Eb; [|split; auto].
      apply exact_zero_has in Eb; [|assumption]. split; [intros j; apply kind_of_kids; assumption|]. intros v Hv.
      apply HasK_bin_inv in Hv. destruct Hv as (va & vb & q & A & B & [= <-] & D). apply kind_of_has; [assumption|].
      eapply Has_eq; [|exact A]. rewrite <- D. pose proof (Has_det _ _ _ _ Eb B). lra.
    + destruct (is_exact_zero h a || is_exact_zero h b) eqn:E0.
      { split; [assumption|]. intros v Hv. apply Z. apply HasK_bin_inv in Hv. destruct Hv as (va & vb & q & A & B & [= <-] & D).
        rewrite <- D. apply orb_true_iff in E0. destruct E0 as [E0|E0]; apply exact_zero_has in E0; try assumption.
        - rewrite <- (Has_det _ _ _ _ E0 A). ring.
        - rewrite <- (Has_det _ _ _ _ E0 B). ring. }
      destruct (is_exact_one h a) eqn:Ea; [|destruct (is_exact_one h b) eqn:Eb; [|split; auto]].
      * apply exact_one_has in Ea; [|assumption]. split; [intros j; apply kind_of_kids; assumption|]. intros v Hv.
        apply HasK_bin_inv in Hv. destruct Hv as (va & vb & q & A & B & [= <-] & D). apply kind_of_has; [assumption|].
        eapply Has_eq; [|exact B]. rewrite <- D, <- (Has_det _ _ _ _ Ea A). ring.
      * apply exact_one_has in Eb; [|assumption]. split; [intros j; apply kind_of_kids; assumption|]. intros v Hv.
        apply HasK_bin_inv in Hv. destruct Hv as (va & vb & q & A & B & [= <-] & D). apply kind_of_has; [assumption|].
        eapply Has_eq; [|exact A]. rewrite <- D, <- (Has_det _ _ _ _ Eb B). ring.
    + destruct (is_exact_zero h a) eqn:Ea; [|destruct (is_exact_one h b) eqn:Eb; [|split; auto]].
      * apply exact_zero_has in Ea; [|assumption]. split; [assumption|]. intros v Hv. apply Z.
        apply HasK_bin_inv in Hv. destruct Hv as (va & vb & q & A & B & C & D). cbn in C.
        destruct (Qeq_bool vb 0); [discriminate|]. injection C as <-. rewrite <- D, <- (Has_det _ _ _ _ Ea A). unfold Qdiv. ring.
      * apply exact_one_has in Eb; [|assumption]. split; [intros j; apply kind_of_kids; assumption|]. intros v Hv.
        apply HasK_bin_inv in Hv. destruct Hv as (va & vb & q & A & B & C & D). cbn in C.
        destruct (Qeq_bool vb 0); [discriminate|]. injection C as <-. apply kind_of_has; [assumption|].
        eapply Has_eq; [|exact A]. rewrite <- D, <- (Has_det _ _ _ _ Eb B). field.
  - destruct (is_exact_zero h a) eqn:Ea; [|split; auto]. apply exact_zero_has in Ea; [|assumption].
    split; [contradiction|]. intros v Hv. apply HasK_neg_inv in Hv. destruct Hv as (va & A & D).
    exists (0 # 1)%Q. split; [constructor|]. rewrite <- D. pose proof (Has_det _ _ _ _ Ea A). lra.
Qed.
Lemma approx_ok h i : (i < length h)%nat → ∃ x, approx h i = Ok x.
Proof. intros Hi. destruct (get_node h i Hi) as (n & Hn). unfold approx. rewrite Hn. cbn. eauto. Qed.
Lemma approx_of_kind_ok h k : (∀ j, In j (kids k) → (j < length h)%nat) → ∃ x, approx_of_kind h k = Ok x.
Proof.
  intros Hk. destruct k as [x|e|o a b|a]; cbn; eauto.
  - destruct (approx_ok h a) as (x & ->); [apply Hk; left; reflexivity|].
    destruct (approx_ok h b) as (y & ->); [apply Hk; right; left; reflexivity|]. cbn. eauto.
  - destruct (approx_ok h a) as (x & ->); [apply Hk; left; reflexivity|]. cbn. eauto.
Qed.
(** the result of a constructor *)
Definition new_post (h : heap) (k : kind) (r : out (heap * nat)) : Prop :=
  match r with
  | Ok (h', i) => Inv h' ∧ ext h h' ∧ (i < length h')%nat ∧ ∀ v, HasK h k v → Has h' i v
  | Panic => ∀ v, ¬ HasK h k v
  | Deep => False
  end.
Lemma leafs_post h h1 k e x : Inv h1 → ext h h1 → HasK h k e → new_post h k (Ok (from_leafs h1 e x)).
Proof.
  intros HI He Hv. destruct (leafs_ok h1 e x HI) as (I & E & L & V). destruct (from_leafs h1 e x) as [h' i]; cbn in *.
  split; [assumption|]. split; [eapply ext_trans; eassumption|]. split; [assumption|].
  intros v Hw. eapply Has_eq; [|exact V]. eapply HasK_det; eassumption.
Qed.
Lemma some_inj {A} (x y : A) : Some x = Some y → x = y. Proof. congruence. Qed.
Lemma fold_ok h k r : Inv h → (∀ j, In j (kids k) → (j < length h)%nat) → fold_if_both_exact h k = Some r → new_post h k r.
Proof.
  intros HI Hk. destruct k as [x|e|o a b|a]; cbn [fold_if_both_exact]; try discriminate.
  - destruct (exact_ready h a) as [la|] eqn:Ea; [|discriminate]. destruct (exact_ready h b) as [lb|] eqn:Eb; [|discriminate].
    apply ready_has in Ea; [|assumption]. apply ready_has in Eb; [|assumption]. intros E; apply some_inj in E; subst r.
    destruct (approx_of_kind_ok h _ Hk) as (x & ->). pose proof (rat_op_ok o la lb) as Hr. destruct (rat_op o la lb) as [e|]; cbn [obind oget].
    + destruct Hr as (q & Eq & Ev). apply leafs_post; [assumption|apply ext_refl|].
      apply (HasK_eq h _ q); [symmetry; assumption|]. eapply HasK_bin; eassumption.
    + cbn. intros v Hv. apply HasK_bin_inv in Hv. destruct Hv as (ua & ub & q & A & B & C & _).
      destruct (value_op_eq o ua ub la lb q) as (q' & E' & _); [eapply Has_det; eassumption|eapply Has_det; eassumption|assumption|]. congruence.
  - destruct (exact_ready h a) as [la|] eqn:Ea; [|discriminate]. apply ready_has in Ea; [|assumption]. intros E; apply some_inj in E; subst r.
    destruct (approx_of_kind_ok h _ Hk) as (x & ->). cbn [obind]. apply leafs_post; [assumption|apply ext_refl|].
    apply (HasK_eq h _ (- la)%Q); [symmetry; apply Qred_correct|]. apply HasK_neg. assumption.
Qed.
Lemma new_post_weaken h k k' r : (∀ v, HasK h k v → HasK h k' v) → new_post h k' r → new_post h k r.
Proof.
  intros Hkk. destruct r as [[h' i]| |]; cbn.
  - intros (I & E & L & V). split; [assumption|]. split; [assumption|]. split; [assumption|]. auto.
  - intros H v Hv. exact (H v (Hkk v Hv)).
  - auto.
Qed.
Lemma new_ok h k : Inv h → (∀ j, In j (kids k) → (j < length h)%nat) → new_post h k (new h k).
Proof.
  intros HI Hk0. destruct (simplify_ok h k HI Hk0) as [Hk Hv]. apply (new_post_weaken _ _ _ _ Hv). unfold new.
  remember (simplify_identities h k) as k1 eqn:Ek. clear k Hk0 Hv Ek.
  destruct (fold_if_both_exact h k1) as [r|] eqn:Ef; [apply fold_ok; assumption|].
  destruct (approx_of_kind_ok h k1 Hk) as (x & ->). cbn [obind].
  destruct (Nat.ltb_spec max_depth (compute_depth h k1)) as [Hd|Hd].
  - pose proof (exact_of_kind_ok h k1 HI Hk) as P. destruct (exact_of_kind h k1) as [[h' e]| |]; cbn [obind].
    + destruct P as (I & E & L & V). apply leafs_post; assumption.
    + exact P.
    + exact P.
  - cbn. split; [apply app_inv; cbn; [assumption|assumption|reflexivity|assumption|discriminate]|].
    split; [apply app_ext|]. split; [rewrite app_length; cbn; lia|]. intros v Hv.
    apply (Has_kind _ _ (Node k1 x None (compute_depth h k1))); [apply app_last|]. cbn. apply (HasK_ext h); [apply app_ext|assumption].
Qed.
