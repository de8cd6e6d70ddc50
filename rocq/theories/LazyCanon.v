(** Every rational stored in the heap is in lowest terms, so [==] compares values. *)
From Coq Require Import Setoid.
From Verif Require Export LazyRun.
Open Scope Z_scope.
Local Opaque max_depth.
Local Arguments Qred : simpl never. Local Arguments rat_neg : simpl never. Local Arguments canon : simpl never.

Definition kcanon (k : kind) : Prop := match k with LeafExact e => canon e | _ => True end.
Definition ncanon (n : node) : Prop := kcanon (nkind n) ∧ match nexact n with Some e => canon e | None => True end.
Definition Canon (h : heap) : Prop := ∀ i n, nth_error h i = Some n → ncanon n.
Definition rcanon (r : out (heap * rat)) : Prop := match r with Ok (h, v) => Canon h ∧ canon v | _ => True end.

Lemma canon_red q : canon (Qred q). Proof. apply Qred_complete. apply Qred_correct. Qed.
Lemma canon_int z : canon (inject_Z z).
Proof.
  unfold canon, Qred, inject_Z. pose proof (Z.ggcd_gcd z 1) as G. pose proof (Z.ggcd_correct_divisors z 1) as D.
  destruct (Z.ggcd z 1) as [g [a b]]. cbn in *. rewrite Z.gcd_1_r in G. subst g. destruct D as [Da Db].
  rewrite Z.mul_1_l in Da, Db. subst. reflexivity.
Qed.
Lemma canon_op o x y v : rat_op o x y = Some v → canon v.
Proof.
  destruct o; unfold rat_op, rat_div; try (intros H; apply some_inj in H; subst v; apply canon_red).
  destruct (Qnum y =? 0); [discriminate|]. intros H; apply some_inj in H; subst v; apply canon_red.
Qed.
Lemma canon_f64 x v : rat_of_f64 x = Ok v → canon v.
Proof. unfold rat_of_f64. destruct (f64_to_Q x); cbn; [|discriminate]. intros [= <-]. apply canon_red. Qed.
Lemma Canon_set h i v : Canon h → canon v → Canon (set_exact h i v).
Proof.
  intros HC Hv j n Hn. rewrite set_exact_at in Hn. destruct (nth_error h j) as [m|] eqn:Em; [|discriminate]. apply some_inj in Hn. subst n.
  pose proof (HC j m Em) as [A B]. destruct (j =? i)%nat; [|split; assumption]. split; cbn; [assumption|]. destruct (nexact m); assumption.
Qed.
Lemma Canon_app h n : Canon h → ncanon n → Canon (h ++ [n]).
Proof. intros HC Hn i m Hm. apply nth_app_last in Hm. destruct Hm as [[_ Hm]|[_ <-]]; [eapply HC; eassumption|assumption]. Qed.

Lemma eval_canon ex h k : Canon h → kcanon k → (∀ h i, Canon h → rcanon (ex h i)) → rcanon (eval_kind ex h k).
Proof.
  intros HC Hk Hex. destruct k as [x|e|o a b|a]; cbn [eval_kind].
  - destruct (rat_of_f64 x) as [v| |] eqn:E; cbn; [|exact I..]. split; [assumption|eapply canon_f64; eassumption].
  - cbn. split; assumption.
  - assert (G : rcanon ('(h1, va) <-- ex h a; '(h2, vb) <-- ex h1 b; obind (oget (rat_op o va vb)) (λ v, Ok (h2, v)))).
    { pose proof (Hex h a HC) as P. destruct (ex h a) as [[h1 va]| |]; cbn [obind]; [|exact I..]. destruct P as [C1 _].
      pose proof (Hex h1 b C1) as P. destruct (ex h1 b) as [[h2 vb]| |]; cbn [obind]; [|exact I..]. destruct P as [C2 _].
      destruct (rat_op o va vb) eqn:E; cbn; [|exact I]. split; [assumption|eapply canon_op; eassumption]. }
    destruct o; try exact G. clear G.
    pose proof (Hex h b HC) as P. destruct (ex h b) as [[h1 vb]| |]; cbn [obind]; [|exact I..]. destruct P as [C1 _].
    destruct (rat_is_zero vb); [exact I|].
    pose proof (Hex h1 a C1) as P. destruct (ex h1 a) as [[h2 va]| |]; cbn [obind]; [|exact I..]. destruct P as [C2 _].
    destruct (rat_div va vb) eqn:E; cbn; [|exact I]. split; [assumption|]. apply (canon_op ODiv va vb). exact E.
  - pose proof (Hex h a HC) as P. destruct (ex h a) as [[h1 va]| |]; cbn; [|exact I..]. split; [apply P|apply canon_red].
Qed.
Lemma exact_canon f : ∀ h i, Canon h → rcanon (exact f h i).
Proof.
  induction f as [|f IH]; intros h i HC.
  - cbn. destruct (nth_error h i) as [n|] eqn:Hn; [|exact I]. pose proof (HC i n Hn) as [_ B]. destruct (nexact n); [split; assumption|exact I].
  - rewrite exact_eq. destruct (nth_error h i) as [n|] eqn:Hn; [|exact I]. pose proof (HC i n Hn) as [A B]. destruct (nexact n); [split; assumption|].
    pose proof (eval_canon (exact f) h (nkind n) HC A IH) as P. destruct (eval_kind (exact f) h (nkind n)) as [[h' v]| |]; cbn; [|exact I..].
    destruct P as [P Q]. split; [apply Canon_set; assumption|assumption].
Qed.
Definition hcanon {A} (r : out (heap * A)) : Prop := match r with Ok (h, _) => Canon h | _ => True end.
Lemma leafs_canon h e x : Canon h → canon e → Canon (fst (from_leafs h e x)).
Proof. intros HC He. unfold from_leafs, alloc. cbn. apply Canon_app; [assumption|]. split; assumption. Qed.
Lemma kcanon_of h i k : Canon h → kcanon k → kcanon (kind_of h i k).
Proof. intros HC Hk. unfold kind_of. destruct (nth_error h i) as [n|] eqn:E; [apply (HC i n E)|assumption]. Qed.
Lemma simplify_canon h k : Canon h → kcanon k → kcanon (simplify_identities h k).
Proof.
  intros HC Hk. destruct k as [x|e|o a b|a]; cbn; [assumption..| |].
  - destruct o; repeat match goal with |- context [if ?c then _ else _] => destruct c end; try exact I; try (apply kcanon_of; assumption); reflexivity.
  - destruct (is_exact_zero h a); [reflexivity|exact I].
Qed.
Lemma new_canon h k : Canon h → kcanon k → hcanon (new h k).
Proof.
  intros HC Hk. unfold new. pose proof (simplify_canon h k HC Hk) as Hs. set (k' := simplify_identities h k) in *. clearbody k'.
  destruct (fold_if_both_exact h k') as [r|] eqn:Ef.
  - destruct k' as [x|e|o a b|a]; cbn [fold_if_both_exact] in Ef; try discriminate.
    + destruct (exact_ready h a) as [la|]; [|discriminate]. destruct (exact_ready h b) as [lb|]; [|discriminate]. apply some_inj in Ef. subst r.
      destruct (rat_op o la lb) eqn:Eo; cbn [oget obind]; [|exact I]. destruct (approx_of_kind h (KBin o a b)); cbn; [|exact I..].
      apply leafs_canon; [assumption|eapply canon_op; eassumption].
    + destruct (exact_ready h a) as [la|]; [|discriminate]. apply some_inj in Ef. subst r.
      destruct (approx_of_kind h (KNeg a)); cbn; [|exact I..]. apply leafs_canon; [assumption|apply canon_red].
  - destruct (approx_of_kind h k') as [x| |]; cbn [obind]; [|exact I..]. destruct (max_depth <? compute_depth h k')%nat.
    + pose proof (eval_canon (exact max_depth) h k' HC Hs (exact_canon max_depth)) as P.
      change (exact_of_kind h k') with (eval_kind (exact max_depth) h k').
      destruct (eval_kind (exact max_depth) h k') as [[h' e]| |]; cbn; [|exact I..]. apply leafs_canon; apply P.
    + cbn. apply Canon_app; [assumption|]. split; [assumption|exact I].
Qed.
Lemma assign_canon h o a b : Canon h → hcanon (lz_assign h o a b).
Proof.
  intros HC. unfold lz_assign. destruct (exact_ready h a) as [ea|]; [destruct (exact_ready h b) as [eb|]|]; [|apply new_canon; [assumption|exact I]..].
  destruct (rat_op o ea eb) eqn:Eo; cbn [oget obind]; [|exact I]. destruct (approx h a); cbn [obind]; [|exact I..]. destruct (approx h b); cbn; [|exact I..].
  apply leafs_canon; [assumption|eapply canon_op; eassumption].
Qed.
Lemma two_canon {A} (f : heap → rat → rat → out (heap * A)) h i j : Canon h → (∀ h a b, Canon h → hcanon (f h a b)) →
  hcanon ('(h1, ea) <-- exact max_depth h i; '(h2, eb) <-- exact max_depth h1 j; f h2 ea eb).
Proof.
  intros HC Hf. pose proof (exact_canon max_depth h i HC) as P. destruct (exact max_depth h i) as [[h1 va]| |]; cbn [obind]; [|exact I..]. destruct P as [C1 _].
  pose proof (exact_canon max_depth h1 j C1) as P. destruct (exact max_depth h1 j) as [[h2 vb]| |]; cbn [obind]; [|exact I..]. destruct P as [C2 _]. apply Hf. assumption.
Qed.
Lemma sign_canon h i : Canon h → hcanon (lz_sign h i).
Proof.
  intros HC. unfold lz_sign. destruct (ball_of max_depth h i) as [b| |]; cbn [obind]; [|exact I..]. destruct (sign_if_certain b); [exact HC|].
  pose proof (exact_canon max_depth h i HC) as P. destruct (exact max_depth h i) as [[h1 va]| |]; cbn; [|exact I..]. apply P.
Qed.
Lemma eq_canon h i j : Canon h → hcanon (lz_eq h i j).
Proof. intros HC. apply (two_canon (λ h a b, Ok (h, rat_eq a b))); [assumption|]. intros h' a b H. exact H. Qed.
Lemma cmp_canon h i j : Canon h → hcanon (lz_cmp_ref h i j).
Proof.
  intros HC. unfold lz_cmp_ref. destruct (i =? j)%nat; [exact HC|]. destruct (ball_of max_depth h i) as [a| |]; cbn [obind]; [|exact I..].
  destruct (ball_of max_depth h j) as [b| |]; cbn [obind]; [|exact I..]. destruct (double_interval a) as [alo ahi], (double_interval b) as [blo bhi].
  destruct (flt ahi blo); [exact HC|]. destruct (flt bhi alo); [exact HC|].
  assert (G : hcanon ('(h1, ea) <-- exact max_depth h i; '(h2, eb) <-- exact max_depth h1 j; match rat_partial_cmp ea eb with Some c => Ok (h2, c) | None => Panic end)).
  { apply (two_canon (λ h a b, match rat_partial_cmp a b with Some c => Ok (h, c) | None => Panic end)); [assumption|]. intros h' x y H. exact H. }
  destruct (as_f64_if_exact h i); [|exact G]. destruct (as_f64_if_exact h j); [exact HC|exact G].
Qed.
Lemma partial_cmp_canon h i j : Canon h → hcanon (lz_partial_cmp h i j).
Proof.
  intros HC. unfold lz_partial_cmp, lz_bin. pose proof (new_canon h (KBin OSub i j) HC I) as P. destruct (new h (KBin OSub i j)) as [[h1 d]| |]; cbn [obind]; [|exact I..].
  destruct (ball_of max_depth h1 d) as [b| |]; cbn [obind]; [|exact I..]. destruct (sign_if_certain b); [exact P|].
  apply (two_canon (λ h a b, Ok (h, rat_partial_cmp a b))); [assumption|]. intros h' x y H. exact H.
Qed.
Lemma step_canon h rs c : Canon h → match step (h, rs) c with Ok s => Canon (fst s) | _ => True end.
Proof.
  intros HC. destruct c as [x|q|z|o i j|i|i|i j|i j|i|i|i j|i j|i j]; cbn [step].
  - cbn. apply Canon_app; [assumption|]. split; exact I.
  - cbn [push fst]. apply leafs_canon; [assumption|apply canon_red].
  - cbn [push fst]. apply leafs_canon; [assumption|apply canon_int].
  - destruct (reg rs i) as [a| |]; cbn [obind]; [|exact I..]. destruct (reg rs j) as [b| |]; cbn [obind]; [|exact I..].
    pose proof (new_canon h (KBin o a b) HC I) as P. unfold lz_bin. destruct (new h (KBin o a b)) as [[h1 d]| |]; exact P.
  - destruct (reg rs i) as [a| |]; cbn [obind]; [|exact I..].
    pose proof (new_canon h (KNeg a) HC I) as P. unfold lz_neg. destruct (new h (KNeg a)) as [[h1 d]| |]; exact P.
  - destruct (reg rs i) as [a| |]; cbn [obind]; [|exact I..]. exact HC.
  - destruct (reg rs i) as [a| |]; cbn [obind]; [|exact I..]. destruct (reg rs j) as [b| |]; cbn [obind]; [|exact I..].
    pose proof (assign_canon h OAdd a b HC) as P. destruct (lz_assign h OAdd a b) as [[h1 d]| |]; exact P.
  - destruct (reg rs i) as [a| |]; cbn [obind]; [|exact I..]. destruct (reg rs j) as [b| |]; cbn [obind]; [|exact I..].
    pose proof (assign_canon h OSub a b HC) as P. destruct (lz_assign h OSub a b) as [[h1 d]| |]; exact P.
  - destruct (reg rs i) as [a| |]; cbn [obind]; [|exact I..].
    pose proof (exact_canon max_depth h a HC) as P. destruct (exact max_depth h a) as [[h1 d]| |]; [apply P|exact I..].
  - destruct (reg rs i) as [a| |]; cbn [obind]; [|exact I..].
    pose proof (sign_canon h a HC) as P. destruct (lz_sign h a) as [[h1 d]| |]; exact P.
  - destruct (reg rs i) as [a| |]; cbn [obind]; [|exact I..]. destruct (reg rs j) as [b| |]; cbn [obind]; [|exact I..].
    pose proof (eq_canon h a b HC) as P. destruct (lz_eq h a b) as [[h1 d]| |]; exact P.
  - destruct (reg rs i) as [a| |]; cbn [obind]; [|exact I..]. destruct (reg rs j) as [b| |]; cbn [obind]; [|exact I..].
    pose proof (cmp_canon h a b HC) as P. destruct (lz_cmp_ref h a b) as [[h1 d]| |]; exact P.
  - destruct (reg rs i) as [a| |]; cbn [obind]; [|exact I..]. destruct (reg rs j) as [b| |]; cbn [obind]; [|exact I..].
    pose proof (partial_cmp_canon h a b HC) as P. destruct (lz_partial_cmp h a b) as [[h1 d]| |]; exact P.
Qed.
Lemma run_canon p : ∀ h rs s, Canon h → run (h, rs) p = Ok s → Canon (fst s).
Proof.
  induction p as [|c t IH]; intros h rs s HC; cbn [run]; [intros [= <-]; assumption|].
  pose proof (step_canon h rs c HC) as P. destruct (step (h, rs) c) as [[h1 rs1]| |]; cbn [obind]; try discriminate. apply IH. exact P.
Qed.
Lemma start_canon : Canon []. Proof. intros [|i] n; discriminate. Qed.

Lemma rat_eq_canon a b : canon a → canon b → rat_eq a b = Qeq_bool a b.
Proof.
  intros Ha Hb. apply eq_true_iff_eq. rewrite Qeq_bool_iff. split; [apply rat_eq_sound|].
  intros E. apply Qred_complete in E. rewrite Ha, Hb in E. subst. unfold rat_eq. rewrite Z.eqb_refl, Pos.eqb_refl. reflexivity.
Qed.
Lemma lz_eq_ok h i j v w : Inv h → Canon h → (i < length h)%nat → (j < length h)%nat → Has h i v → Has h j w →
  ∃ h', lz_eq h i j = Ok (h', Qeq_bool v w).
Proof.
  intros HI HC Hi Hj Hv Hw. unfold lz_eq.
  pose proof (exact_max_ok h i HI Hi) as P. pose proof (exact_canon max_depth h i HC) as C1.
  destruct (exact max_depth h i) as [[h1 ea]| |]; cbn in P; [|contradiction (P v)|contradiction].
  destruct P as (I1 & X1 & L1 & V1). pose proof (exact_max_ok h1 j I1 ltac:(lia)) as P. pose proof (exact_canon max_depth h1 j (proj1 C1)) as C2.
  pose proof (Has_ext _ _ _ _ X1 Hw) as Hw1. cbn [obind]. destruct (exact max_depth h1 j) as [[h2 eb]| |]; cbn in P; [|contradiction (P w)|contradiction].
  cbn [obind]. exists h2. do 2 f_equal. rewrite rat_eq_canon by (apply C1 || apply C2).
  assert (E1 : (ea == v)%Q) by (eapply Has_det; eassumption). assert (E2 : (eb == w)%Q) by (eapply Has_det; [apply P|assumption]).
  apply eq_true_iff_eq. rewrite !Qeq_bool_iff, E1, E2. reflexivity.
Qed.
